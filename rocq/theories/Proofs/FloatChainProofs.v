(** The screens show the turbulence where the wind has taken it. *)
From Coq Require Import ZArith List.
From Flocq Require Import Core BinarySingleNaN Relative.
From Verif.Base Require Import Float64.
From Verif.Model Require Import Rounding64 FloatInterp FloatFlow FloatLos FloatFootprint.
From Verif.Spec Require Import FloatLoopSpec FloatInterpSpec FloatFlowSpec FloatLosSpec FloatFootprintSpec.
From Verif.Proofs Require Import FloatLoopProofs RoundingProofs FloatInterpProofs FloatInterpCoords FloatFlowProofs FloatLosFrame FloatFootprintProofs FloatFootprintFrame.
From Verif.Model Require Import FloatChain.
From Verif.Spec Require Import FloatChainSpec.
From Coq Require Import Reals Bool Lia Lra.
Import ListNotations.
Local Open Scope R_scope.

Lemma straight_between lo hi d E x : (forall k, (lo <= k <= hi)%Z -> Rabs (d k) <= E) -> IZR lo <= x <= IZR hi -> Rabs (straight d x) <= E.
Proof.
  intros H X. replace x with (x - IZR lo + IZR lo) by ring. rewrite <- straight_shift. apply (straight_abs (hi - lo + 1)).
  - intros k K. apply H. lia.
  - replace (hi - lo + 1 - 1)%Z with (hi - lo)%Z by lia. rewrite minus_IZR. lra.
Qed.
Lemma bilinear_near lo hi d e E x y : (forall i j, (lo <= i <= hi)%Z -> (lo <= j <= hi)%Z -> Rabs (d i j - e i j) <= E) -> IZR lo <= x <= IZR hi -> IZR lo <= y <= IZR hi ->
  Rabs (bilinear d x y - bilinear e x y) <= E.
Proof.
  intros H X Y. unfold bilinear. rewrite straight_minus. apply (straight_between lo hi); auto. intros j J. rewrite straight_minus. apply (straight_between lo hi); auto.
Qed.
Lemma bilinear_times k d x y : bilinear (fun i j => k * d i j) x y = k * bilinear d x y.
Proof. unfold bilinear, straight. ring. Qed.

Lemma nm_value : is_finite nm64 = true /\ 79 <= B2R nm64 <= 79 + 3 / 5.
Proof.
  assert (E : nm64 = lit64 5599766737522128 (-46)). { apply B2SF_inj. vm_compute. reflexivity. }
  rewrite E. destruct (lit_correct 5599766737522128 (-46)) as [F V].
  - apply Rle_trans with (bpow radix2 7); [|apply bpow_le; lia]. rewrite Rabs_pos_eq; [cbn; lra|]. apply Rmult_le_pos; [lra|apply bpow_ge_0].
  - split; [exact F|]. rewrite V, rnd_rep; [cbn; lra|]. apply rep_F2R; cbn; lia.
Qed.

(** ** Rotated coordinates *)
Lemma middle_value n : (0 <= n <= 2 ^ 20)%Z -> is_finite (middle64 n) = true /\ B2R (middle64 n) = IZR (n - 1) / 2.
Proof.
  intro N. assert (B : bpow radix2 21 <= bpow radix2 1000) by (apply bpow_le; lia). change (bpow radix2 21) with 2097152 in B. assert (0 <= IZR n <= 1048576) by (split; [apply IZR_le; lia|apply (IZR_le n 1048576); lia]).
  destruct (ofZ_correct n) as [Fn En]; [lia|]. destruct (ofZ_correct 2) as [F2 E2]; [lia|].
  destruct (div_correct (ofZ64 n) (ofZ64 2) Fn) as [Fd Ed]; [rewrite E2; lra|rewrite En, E2, Rabs_pos_eq; lra|]. rewrite En, E2, rnd_rep in Ed by (apply rep_half; lia).
  assert (BH : bpow radix2 (-1) = / 2) by (cbn; lra). destruct (lit_correct 1 (-1)) as [Fh Eh]; [rewrite BH, Rabs_pos_eq; lra|]. rewrite rnd_rep in Eh by (apply (rep_F2R 1); lia). rewrite BH in Eh.
  unfold middle64. destruct (sub_correct (div64 (ofZ64 n) (ofZ64 2)) (lit64 1 (-1)) Fd Fh) as [F E]; [rewrite Ed, Eh; apply Rabs_le; lra|]. split; [exact F|]. rewrite E, Ed, Eh.
  replace (IZR n / 2 - 1 * / 2) with (IZR (n - 1) / 2) by (rewrite minus_IZR; lra). apply rnd_rep. apply rep_half. lia.
Qed.
Lemma offset_value m i : (0 <= m <= 2 ^ 20)%Z -> (0 <= i < m)%Z -> is_finite (sub64 (ofZ64 i) (middle64 m)) = true /\ B2R (sub64 (ofZ64 i) (middle64 m)) = IZR i - IZR (m - 1) / 2 /\
  Rabs (IZR i - IZR (m - 1) / 2) <= IZR (m - 1) / 2.
Proof.
  intros M I. destruct (middle_value m M) as [Fm Em]. destruct (ofZ_correct i) as [Fi Ei]; [lia|]. assert (B : bpow radix2 21 <= bpow radix2 1000) by (apply bpow_le; lia). change (bpow radix2 21) with 2097152 in B.
  assert (0 <= IZR i <= IZR (m - 1)) by (split; apply IZR_le; lia). assert (IZR (m - 1) <= 1048576) by (apply (IZR_le (m - 1) 1048576); lia).
  destruct (sub_correct (ofZ64 i) (middle64 m) Fi Fm) as [F E]; [rewrite Ei, Em; apply Rabs_le; lra|]. split; [exact F|]. split; [|apply Rabs_le; lra]. rewrite E, Ei, Em.
  replace (IZR i - IZR (m - 1) / 2) with (IZR (2 * i - (m - 1)) / 2) by (rewrite minus_IZR, mult_IZR; lra). apply rnd_rep. apply rep_half. lia.
Qed.
Section Rotate.
  Context (n m : Z) (c s : b64) (Fc : is_finite c = true) (Fs : is_finite s = true) (CS : B2R c * B2R c + B2R s * B2R s <= 1 + bpow radix2 (-45)) (N20 : (n <= 2 ^ 20)%Z) (M5 : (5 <= m)%Z) (NM : (8 * (m * m) <= n * n)%Z) (N0 : (0 <= n)%Z).
  Lemma sizes : (m <= n)%Z /\ (14 <= n)%Z.
  Proof. split; [apply Z.le_ngt; intro; nia|]. apply Z.le_ngt. intro. nia. Qed.
  Lemma below a b : 0 <= a -> 0 <= b -> a * a <= b * b -> a <= b.
  Proof. intros A B H. apply Rsqr_incr_0; auto. Qed.
  Lemma unit_le x : (x = B2R c \/ x = B2R s) -> Rabs x <= 2.
  Proof.
    intro H. assert (BE : bpow radix2 (-45) <= 1) by (change 1 with (bpow radix2 0); apply bpow_le; lia). pose proof (Rle_0_sqr (B2R c)) as Q1. pose proof (Rle_0_sqr (B2R s)) as Q2. unfold Rsqr in *.
    apply below; [apply Rabs_pos|lra|]. rewrite <- Rabs_mult, Rabs_pos_eq by (apply Rle_0_sqr). destruct H; subst x; lra.
  Qed.
  Lemma radius a b x y : x * x + y * y <= 1 + bpow radix2 (-45) -> Rabs a <= IZR (m - 1) / 2 -> Rabs b <= IZR (m - 1) / 2 -> Rabs (a * x + b * y) <= IZR n / 4.
  Proof.
    intros XY A B. set (M := IZR (m - 1) / 2) in *. assert (M0 : 2 <= M <= 524288). { unfold M. assert (4 <= IZR (m - 1)) by (apply (IZR_le 4); lia). assert (IZR (m - 1) <= 1048576) by (apply (IZR_le (m - 1) 1048576); pose proof sizes; lia). lra. }
    assert (N1 : 0 <= IZR n) by (apply IZR_le; pose proof sizes; lia).
    assert (A2 : a * a <= M * M). { replace (a * a) with (Rabs a * Rabs a) by (rewrite <- Rabs_mult; apply Rabs_pos_eq, Rle_0_sqr). apply Rmult_le_compat; auto; apply Rabs_pos. }
    assert (B2 : b * b <= M * M). { replace (b * b) with (Rabs b * Rabs b) by (rewrite <- Rabs_mult; apply Rabs_pos_eq, Rle_0_sqr). apply Rmult_le_compat; auto; apply Rabs_pos. }
    assert (CSI : (a * x + b * y) * (a * x + b * y) <= (a * a + b * b) * (x * x + y * y)).
    { assert (Q : 0 <= (a * y - b * x) * (a * y - b * x)) by apply Rle_0_sqr. replace ((a * a + b * b) * (x * x + y * y)) with ((a * x + b * y) * (a * x + b * y) + (a * y - b * x) * (a * y - b * x)) by ring. lra. }
    assert (P : (a * a + b * b) * (x * x + y * y) <= 2 * (M * M) * (1 + bpow radix2 (-45))).
    { assert (0 <= a * a) by apply Rle_0_sqr. assert (0 <= b * b) by apply Rle_0_sqr. assert (0 <= x * x) by apply Rle_0_sqr. assert (0 <= y * y) by apply Rle_0_sqr. apply Rmult_le_compat; lra. }
    assert (T : M * M * bpow radix2 (-45) <= 1).
    { apply Rle_trans with (524288 * 524288 * bpow radix2 (-45)); [apply Rmult_le_compat_r; [apply bpow_ge_0|apply Rmult_le_compat; lra]|]. cbn. lra. }
    assert (NR : 8 * (IZR m * IZR m) <= IZR n * IZR n) by (rewrite <- !mult_IZR; apply IZR_le; exact NM). assert (MM : IZR m = 2 * M + 1) by (unfold M; rewrite minus_IZR; lra).
    apply below; [apply Rabs_pos|lra|]. rewrite <- Rabs_mult, Rabs_pos_eq by (apply Rle_0_sqr). rewrite MM in NR.
    replace (8 * ((2 * M + 1) * (2 * M + 1))) with (32 * (M * M) + 32 * M + 8) in NR by ring. replace (IZR n / 4 * (IZR n / 4)) with (IZR n * IZR n / 16) by field. lra.
  Qed.
  Lemma axis_ok (f : b64 -> b64 -> b64) (z w : b64) (X : R) i j : (0 <= i < m)%Z -> (0 <= j < m)%Z -> is_finite z = true -> is_finite w = true -> Rabs (B2R z) <= 2 -> Rabs (B2R w) <= 2 ->
    (f = add64 /\ X = (IZR i - IZR (m - 1) / 2) * B2R z + (IZR j - IZR (m - 1) / 2) * B2R w \/ f = sub64 /\ X = (IZR i - IZR (m - 1) / 2) * B2R z - (IZR j - IZR (m - 1) / 2) * B2R w) ->
    Rabs X <= IZR n / 4 ->
    let r := add64 (f (mul64 (sub64 (ofZ64 i) (middle64 m)) z) (mul64 (sub64 (ofZ64 j) (middle64 m)) w)) (middle64 n) in
    is_finite r = true /\ Rabs (B2R r - (X + IZR (n - 1) / 2)) <= 20 * unit_roundoff * IZR n /\ 2 + / 2 <= B2R r <= IZR (n - 3) - / 2 /\ 2 <= X + IZR (n - 1) / 2 <= IZR (n - 3).
  Proof.
    intros I J Fz Fw Bz Bw FX BX r. destruct sizes as [S1 S2]. destruct (offset_value m i ltac:(lia) I) as (F1 & E1 & B1). destruct (offset_value m j ltac:(lia) J) as (F2 & E2 & B2). destruct (middle_value n ltac:(lia)) as [Fm Em].
    assert (NR : 14 <= IZR n <= 1048576) by (split; [apply (IZR_le 14); lia|apply (IZR_le n 1048576); lia]). assert (MR : 4 <= IZR (m - 1) <= IZR n) by (split; [apply (IZR_le 4)|apply IZR_le]; lia).
    assert (MD : medium (IZR n * 2)). { apply (med 0 21); [|lia|lia]. change (bpow radix2 0) with 1. change (bpow radix2 21) with 2097152. lra. }
    assert (P : forall a z, is_finite a = true -> Rabs (B2R a) <= IZR (m - 1) / 2 -> is_finite z = true -> Rabs (B2R z) <= 2 -> acc 3 (IZR n * 2) (mul64 a z) (B2R a * B2R z)).
    { intros a z' Fa Ba Fz' Bz'. replace 3 with (0 + 0 + 3) by ring. apply acc_mul; auto; try lra; apply acc_exact; auto; lra. }
    pose proof (P _ z F1 ltac:(rewrite E1; exact B1) Fz Bz) as P1. pose proof (P _ w F2 ltac:(rewrite E2; exact B2) Fw Bw) as P2. rewrite E1 in P1. rewrite E2 in P2.
    assert (Q : acc 8 (IZR n * 2) (f (mul64 (sub64 (ofZ64 i) (middle64 m)) z) (mul64 (sub64 (ofZ64 j) (middle64 m)) w)) X).
    { replace 8 with (3 + 3 + 2) by ring. destruct FX as [[-> ->]|[-> ->]]; [apply acc_add|apply acc_sub]; auto; lra. }
    assert (NM1 : IZR (n - 1) = IZR n - 1) by (rewrite minus_IZR; lra). assert (NM3 : IZR (n - 3) = IZR n - 3) by (rewrite minus_IZR; lra).
    assert (K : acc 10 (IZR n * 2) r (X + IZR (n - 1) / 2)).
    { unfold r. replace 10 with (8 + 0 + 2) by ring. apply acc_add; auto; try lra; [apply acc_exact; auto; rewrite Rabs_pos_eq; lra|]. eapply Rle_trans; [apply Rabs_triang|]. rewrite (Rabs_pos_eq (IZR (n - 1) / 2)); lra. }
    destruct K as (F & B & D). assert (D' : Rabs (B2R r - (X + IZR (n - 1) / 2)) <= 20 * unit_roundoff * IZR n) by lra. split; [exact F|]. split; [exact D'|].
    assert (U : unit_roundoff = / 9007199254740992) by (unfold unit_roundoff; cbn; lra). rewrite U in D'. apply Rabs_le_inv in D'. apply Rabs_le_inv in BX. lra.
  Qed.
  Lemma stop_same x : is_finite x = true -> B2R x <= IZR (n - 3) -> stop64 n x = x.
  Proof.
    intros F B. unfold stop64. destruct (ge64 x _) eqn:G; [|reflexivity]. destruct sizes. destruct (ofZ_correct (n - 1)) as [F1 E1]; [lia|]. apply ge_correct in G; auto. rewrite E1 in G.
    assert (IZR (n - 3) < IZR (n - 1)) by (apply IZR_lt; lia). lra.
  Qed.
  Lemma rotate_ok (a : farr) A i j : fa_rows a = n -> fa_cols a = n -> bounded_by a A -> A <= bpow radix2 800 -> (0 <= i < m)%Z -> (0 <= j < m)%Z ->
    let X := turn_x n m (B2R c) (B2R s) i j in let Y := turn_y n m (B2R c) (B2R s) i j in
    exists r, rotate64 a m c s i j = Some r /\ is_finite r = true /\ 2 <= X <= IZR (n - 3) /\ 2 <= Y <= IZR (n - 3) /\
      Rabs (B2R r - bilinear (numbers a) X Y) <= 20 * unit_roundoff * A + 9 * smallest + 80 * A * (unit_roundoff * IZR n).
  Proof.
    intros ER EC BA HA I J X Y. destruct sizes as [S1 S2]. unfold rotate64. rewrite ER, EC. assert (U0 := u_pos).
    destruct (offset_value m i ltac:(lia) I) as (_ & _ & B1). destruct (offset_value m j ltac:(lia) J) as (_ & _ & B2).
    destruct (axis_ok sub64 c s ((IZR i - IZR (m - 1) / 2) * B2R c - (IZR j - IZR (m - 1) / 2) * B2R s) i j I J Fc Fs (unit_le _ (or_introl eq_refl)) (unit_le _ (or_intror eq_refl)) (or_intror (conj eq_refl eq_refl))) as (F1 & D1 & R1 & X1).
    { replace (_ - _) with ((IZR i - IZR (m - 1) / 2) * B2R c + (- (IZR j - IZR (m - 1) / 2)) * B2R s) by ring. apply radius; auto. rewrite Rabs_Ropp. exact B2. }
    destruct (axis_ok add64 s c ((IZR i - IZR (m - 1) / 2) * B2R s + (IZR j - IZR (m - 1) / 2) * B2R c) i j I J Fs Fc (unit_le _ (or_intror eq_refl)) (unit_le _ (or_introl eq_refl)) (or_introl (conj eq_refl eq_refl))) as (F2 & D2 & R2 & Y1).
    { apply radius; auto. lra. }
    change (_ - _ + IZR (n - 1) / 2) with X in D1, X1. change (_ + _ + IZR (n - 1) / 2) with Y in D2, Y1. fold (rotx64 n m c s i j) in F1, D1, R1. fold (roty64 n m c s i j) in F2, D2, R2.
    rewrite !stop_same by (auto; lra). set (x := rotx64 n m c s i j) in *. set (y := roty64 n m c s i j) in *.
    assert (NN : IZR (n - 3) < IZR (n - 1)) by (apply IZR_lt; lia). assert (FI : fits a) by (unfold fits; rewrite ER, EC; lia).
    destruct (kernel_inside a A FI BA HA x y F1 F2) as (r & E & F & D); [rewrite ER; lra|rewrite EC; lra|]. exists r. split; [exact E|]. split; [exact F|]. split; [exact X1|]. split; [exact Y1|].
    assert (A0 : 0 <= A). { eapply Rle_trans; [apply Rabs_pos|]. apply (BA 0%Z 0%Z); lia. }
    assert (LP : Rabs (bilinear (numbers a) (B2R x) (B2R y) - bilinear (numbers a) X Y) <= 2 * A * (Rabs (B2R x - X) + Rabs (B2R y - Y))).
    { apply (bilinear_lip n n); try lra. intros p q P Q. apply BA; rewrite ?ER, ?EC; assumption. }
    assert (LQ : 2 * A * (Rabs (B2R x - X) + Rabs (B2R y - Y)) <= 2 * A * (40 * unit_roundoff * IZR n)) by (apply Rmult_le_compat_l; lra).
    replace (B2R r - bilinear (numbers a) X Y) with ((B2R r - bilinear (numbers a) (B2R x) (B2R y)) + (bilinear (numbers a) (B2R x) (B2R y) - bilinear (numbers a) X Y)) by ring.
    eapply Rle_trans; [apply Rabs_triang|]. lra.
  Qed.
End Rotate.

(** ** The grid of an oblique wind *)
Lemma grid_ok nx N : (5 <= nx <= 2 ^ 20)%Z -> grid64 nx = Some N -> (8 * (nx * nx) <= N * N)%Z /\ (0 <= N)%Z.
Proof.
  intros NX E. unfold grid64 in E. destruct (ofZ_correct 2) as [F2 E2]; [lia|]. destruct (ofZ_correct nx) as [Fn En]; [lia|]. assert (B : bpow radix2 23 <= bpow radix2 1000) by (apply bpow_le; lia). change (bpow radix2 23) with 8388608 in B.
  assert (BW : bpow radix2 (-52) = / 4503599627370496) by (cbn; lra). destruct (lit_correct 6369051672525773 (-52)) as [Fr Er]; [rewrite BW, Rabs_pos_eq; lra|]. rewrite rnd_rep in Er by (apply rep_F2R; lia).
  destruct (mul_correct (ofZ64 2) (lit64 6369051672525773 (-52)) F2 Fr) as [Fk Ek]; [rewrite E2, Er, BW, Rabs_pos_eq; lra|]. rewrite E2, Er in Ek.
  replace (2 * (6369051672525773 * bpow radix2 (-52))) with (6369051672525773 * bpow radix2 (-51)) in Ek by (rewrite BW; cbn; lra). rewrite rnd_rep in Ek by (apply rep_F2R; lia).
  set (k := mul64 (ofZ64 2) _) in *. assert (BX : bpow radix2 (-51) = / 2251799813685248) by (cbn; lra). rewrite BX in Ek.
  assert (NR : 5 <= IZR nx <= 1048576) by (split; [apply (IZR_le 5); lia|apply (IZR_le nx 1048576); lia]). set (m := IZR nx) in *.
  assert (PK : 2 <= B2R k <= 3) by (rewrite Ek; lra). assert (PM : 10 <= B2R k * m <= 4000000) by (split; [replace 10 with (2 * 5) by ring|apply Rle_trans with (3 * 1048576); [|lra]]; apply Rmult_le_compat; lra).
  destruct (mul_correct k (ofZ64 nx) Fk Fn) as [Fx Ex]; [rewrite En, Rabs_pos_eq; lra|]. rewrite En in Ex. set (x := mul64 k (ofZ64 nx)) in *.
  assert (RX : B2R k * m * (1 - unit_roundoff) <= B2R x).
  { rewrite Ex. assert (Q := rnd_error (B2R k * m)). rewrite (Rabs_pos_eq (B2R k * m)) in Q by lra. fold unit_roundoff in Q. assert (bpow radix2 (-1022) <= 1) by (change 1 with (bpow radix2 0); apply bpow_le; lia).
    specialize (Q ltac:(lra)). apply Rabs_le_inv in Q. lra. }
  destruct (Bnearbyint_correct 53 1024 emax64 mode_UP x) as (EB & FB & _). set (y := Bnearbyint mode_UP x) in *. rewrite Fx in FB.
  assert (RY : B2R y = IZR (Zceil (B2R x))). { rewrite EB. unfold round, F2R, scaled_mantissa, cexp, FIX_exp. cbn [Fnum Fexp round_mode]. change (bpow radix2 (- 0)) with 1. change (bpow radix2 0) with 1. rewrite !Rmult_1_r. reflexivity. }
  pose proof (Zceil_ub (B2R x)) as CU. assert (U1 : unit_roundoff = / 9007199254740992) by (unfold unit_roundoff; cbn; lra). assert (X0 : 1 <= B2R x) by (rewrite U1 in RX; lra).
  destruct (int_correct y FB ltac:(rewrite RY; lra)) as (N' & E' & BN & N0). rewrite E in E'. injection E' as <-. rewrite RY in BN. split; [|exact N0].
  assert (NE : N = Zceil (B2R x)). { destruct BN as [B1 B2]. apply le_IZR in B1. rewrite <- plus_IZR in B2. apply lt_IZR in B2. lia. }
  assert (XN : B2R x <= IZR N) by (rewrite NE; exact CU). clear - RX XN PK PM NR Ek U1 X0 m. subst m.
  assert (S : B2R k * IZR nx * (1 - unit_roundoff) * (B2R k * IZR nx * (1 - unit_roundoff)) <= IZR N * IZR N).
  { assert (0 <= B2R k * IZR nx * (1 - unit_roundoff)) by (apply Rmult_le_pos; [lra|rewrite U1; lra]). apply Rmult_le_compat; lra. }
  assert (K2 : 8 <= B2R k * B2R k) by (rewrite Ek; lra). assert (M2 : 0 <= IZR nx * IZR nx <= 1048576 * 1048576) by (split; [apply Rle_0_sqr|apply Rmult_le_compat; lra]).
  assert (Q : 8 * (IZR nx * IZR nx) * ((1 - unit_roundoff) * (1 - unit_roundoff)) <= IZR N * IZR N).
  { eapply Rle_trans; [|exact S]. replace (B2R k * IZR nx * (1 - unit_roundoff) * (B2R k * IZR nx * (1 - unit_roundoff))) with ((B2R k * B2R k) * (IZR nx * IZR nx) * ((1 - unit_roundoff) * (1 - unit_roundoff))) by ring.
    apply Rmult_le_compat_r; [apply Rle_0_sqr|]. apply Rmult_le_compat_r; lra. }
  assert (L : 8 * (IZR nx * IZR nx) - 1 < IZR N * IZR N). { rewrite U1 in Q. lra. }
  rewrite <- !mult_IZR, <- minus_IZR in L. apply lt_IZR in L. lia.
Qed.

Section Layer.
  Context (nx : Z) (l : flayer) (A D : R) (Fv : is_finite (ly_v l) = true) (Bv : 0 <= B2R (ly_v l) <= bpow radix2 52) (C : calm (ly_row l) (ly_init l) (ly_nx l) A D).
  Context (A0 : bpow radix2 (-900) <= A) (A1 : A <= bpow radix2 100) (LL' : (ly_nx l <= Z.of_nat (length (ly_init l)) <= 2 ^ 20)%Z) (NX' : (5 <= nx <= 2 ^ 20)%Z) (SZ : nx_size64 (ly_dir l) nx = Some (ly_nx l)) (DI : directed (ly_dir l)).
  Local Notation L := (length (ly_init l)).
  Local Notation N := (ly_nx l).
  Lemma nx_le : (nx <= N)%Z.
  Proof. unfold nx_size64 in SZ. destruct (ly_dir l); try (injection SZ; lia). destruct (grid_ok nx N NX' SZ) as [H H']. apply Z.le_ngt. intro. nia. Qed.
  Lemma tiny : 100 * smallest <= unit_roundoff * A.
  Proof.
    apply Rle_trans with (bpow radix2 7 * smallest); [apply Rmult_le_compat_r; [apply Rlt_le, s_pos|change (bpow radix2 7) with 128; lra]|].
    apply Rle_trans with (unit_roundoff * bpow radix2 (-900)); [unfold smallest, unit_roundoff; rewrite <- !bpow_plus; apply bpow_le; lia|apply Rmult_le_compat_l; [apply Rlt_le, u_pos|exact A0]].
  Qed.
  Lemma D_pos : 0 <= D.
  Proof. destruct C as (_ & _ & C3). eapply Rle_trans; [apply Rabs_pos|]. pose proof nx_le. apply (C3 0%Z 0%Z); lia. Qed.
  (** output_screen *)
  Lemma shown n : exists t, inf_run64 (ly_row l) (ly_v l) L (ly_init l) n = Some t /\ bounded_by (output64 N t) (A + 21 * (unit_roundoff * A)) /\
    forall i j, (2 <= i <= N - 3)%Z -> (2 <= j <= N - 3)%Z -> Rabs (numbers (output64 N t) i j - drifted l n i j) <= (D * (INR n + IZR N) + 21 * A) * unit_roundoff.
  Proof.
    pose proof nx_le as NL. pose proof tiny as TN. pose proof s_pos as S0. pose proof u_pos as U0.
    assert (HA : A <= bpow radix2 800) by (eapply Rle_trans; [exact A1|apply bpow_le; lia]).
    destruct (run_state (ly_row l) (ly_v l) (ly_init l) n Fv Bv) as (t & Et & Ff & Bf & Dr & S). exists t. split; [exact Et|]. split.
    - destruct C as (C1 & C2 & C3). intros i j I J. unfold output64 in *. cbn [fa_rows fa_cols] in I, J. unfold numbers. cbn [fa_at].
      assert (LS : Z.of_nat (length (fn_scr t)) = Z.of_nat L). { rewrite S, firstn_length, app_length. lia. }
      set (a := inf_arr64 N t).
      assert (FI : fits a) by (unfold fits, a, inf_arr64; cbn [fa_rows fa_cols]; rewrite LS; lia).
      assert (BA : bounded_by a A).
      { intros p q P Q. unfold a, inf_arr64 in *. cbn [fa_rows fa_cols] in P, Q. rewrite LS in P. destruct (stored _ _ t p S P) as (r & E & V & O). unfold numbers. cbn [fa_at]. rewrite E.
        destruct O as [[k ->]|O]; [apply C1; lia|apply C2; auto]. }
      destruct (ofZ_correct (i + 1)) as [Fi Ei]; [lia|]. destruct (ofZ_correct (j + 1)) as [Fj Ej]; [lia|].
      assert (I1R : 1 <= IZR (i + 1)) by (apply IZR_le; lia).
      assert (IBR : IZR (i + 1) <= bpow radix2 20). { apply Rle_trans with (IZR (2 ^ 20)); [apply IZR_le; lia|cbn; lra]. }
      destruct (sub_correct (ofZ64 (i + 1)) (fn_frac t) Fi Ff) as [Fx Ex].
      { rewrite Ei, Rabs_pos_eq by lra. apply Rle_trans with (bpow radix2 20); [lra|apply bpow_le; lia]. }
      rewrite Ei in Ex. assert (X0 : 0 <= B2R (sub64 (ofZ64 (i + 1)) (fn_frac t))) by (rewrite Ex; rewrite <- (rnd_rep 0) by (apply (rep_Z 0); lia); apply rnd_le; lra).
      assert (Y0 : 0 <= B2R (ofZ64 (j + 1))) by (rewrite Ej; apply IZR_le; lia).
      destruct (interp_value a A FI BA HA _ _ Fx Fj X0 Y0) as (r & E & Fr & _). unfold inf_output64. fold a. rewrite E. split; [exact Fr|].
      destruct (all_range a A FI BA HA (- A) A) as (RG & _). { intros p q P Q. apply Rabs_le_inv. apply BA; assumption. }
      destruct (RG _ _ Fx Fj X0 Y0) as (r' & E' & B). rewrite E in E'. injection E' as <-. apply Rabs_le. lra.
    - intros i j I J. destruct (flow (ly_row l) (ly_v l) (ly_init l) N A D n i j Fv Bv C HA) as (t' & r & Et' & E & Fr & B); [lia..|]. rewrite Et in Et'. injection Et' as <-.
      unfold numbers, output64. cbn [fa_at]. rewrite E. eapply Rle_trans; [exact B|]. assert (AR : IZR (i + 1) <= IZR N) by (apply IZR_le; lia).
      assert (DM : D * (INR n + IZR (i + 1)) * unit_roundoff <= D * (INR n + IZR N) * unit_roundoff) by (apply Rmult_le_compat_r; [lra|apply Rmult_le_compat_l; [apply D_pos|lra]]). lra.
  Qed.
  (** rotate_screen *)
  Lemma turned n : exists t, inf_run64 (ly_row l) (ly_v l) L (ly_init l) n = Some t /\ forall i j, (0 <= i < nx)%Z -> (0 <= j < nx)%Z ->
    let r := turned64 (ly_dir l) (output64 N t) nx i j in is_finite r = true /\ Rabs (B2R r) <= A + A / 10000 /\
    ((2 <= i <= nx - 3)%Z -> (2 <= j <= nx - 3)%Z -> Rabs (B2R r - air nx l n i j) <= (D * (INR n + IZR N) + (43 + 90 * IZR N) * A) * unit_roundoff).
  Proof.
    pose proof nx_le as NL. pose proof tiny as TN. pose proof s_pos as S0. pose proof u_pos as U0. assert (AP : 0 < A) by (pose proof (bpow_gt_0 radix2 (-900)); lra).
    assert (U1 : unit_roundoff = / 9007199254740992) by (unfold unit_roundoff; cbn; lra). assert (UA : unit_roundoff * A <= A / 1000000000000) by (rewrite U1; lra).
    assert (NR : 0 <= IZR N <= 1048576) by (split; [apply IZR_le; lia|apply (IZR_le N 1048576); lia]). assert (NA : 0 <= IZR N * A <= 1048576 * A) by (split; [apply Rmult_le_pos; lra|apply Rmult_le_compat_r; lra]).
    assert (UNA : 0 <= unit_roundoff * (IZR N * A) <= A / 1000000) by (split; [apply Rmult_le_pos; lra|apply Rle_trans with (unit_roundoff * (1048576 * A)); [apply Rmult_le_compat_l; lra|rewrite U1; lra]]).
    destruct (shown n) as (t & Et & BO & DR). exists t. split; [exact Et|]. intros i j I J.
    assert (PL : forall a b, (0 <= a < N)%Z -> (0 <= b < N)%Z -> is_finite (fa_at (output64 N t) a b) = true /\ Rabs (B2R (fa_at (output64 N t) a b)) <= A + A / 10000 /\
      ((2 <= a <= N - 3)%Z -> (2 <= b <= N - 3)%Z -> Rabs (B2R (fa_at (output64 N t) a b) - drifted l n a b) <= (D * (INR n + IZR N) + (43 + 90 * IZR N) * A) * unit_roundoff)).
    { intros a b Ha Hb. destruct (BO a b) as [F B]; [exact Ha|exact Hb|]. unfold numbers in B. split; [exact F|]. split; [lra|]. intros Ha' Hb'. eapply Rle_trans; [apply (DR a b Ha' Hb')|]. lra. }
    cbv zeta. unfold nx_size64 in SZ. unfold directed in DI. unfold turned64, air. destruct (ly_dir l) as [| | | |c s].
    - injection SZ as SZ'. destruct (PL i j ltac:(lia) ltac:(lia)) as (P1 & P2 & P3). repeat split; auto. intros. apply P3; lia.
    - injection SZ as SZ'. destruct (PL j (nx - 1 - i)%Z ltac:(lia) ltac:(lia)) as (P1 & P2 & P3). repeat split; auto. intros. apply P3; lia.
    - injection SZ as SZ'. destruct (PL (nx - 1 - i)%Z j ltac:(lia) ltac:(lia)) as (P1 & P2 & P3). repeat split; auto. intros. apply P3; lia.
    - injection SZ as SZ'. destruct (PL (nx - 1 - j)%Z i ltac:(lia) ltac:(lia)) as (P1 & P2 & P3). repeat split; auto. intros. apply P3; lia.
    - destruct DI as (Fc & Fs & CS). destruct (grid_ok nx N NX' SZ) as [NM NN]. set (A' := A + 21 * (unit_roundoff * A)) in *. assert (HA' : A' <= bpow radix2 800).
      { apply Rle_trans with (bpow radix2 1 * bpow radix2 100); [change (bpow radix2 1) with 2; unfold A'; lra|rewrite <- bpow_plus; apply bpow_le; lia]. }
      destruct (rotate_ok N nx c s Fc Fs CS ltac:(lia) ltac:(lia) NM ltac:(lia) (output64 N t) A' i j eq_refl eq_refl BO HA' I J) as (r & E & F & X & Y & B). rewrite E.
      set (x := turn_x _ _ _ _ i j) in *. set (y := turn_y _ _ _ _ i j) in *. split; [exact F|].
      assert (N3 : IZR (N - 3) <= IZR (N - 1)) by (apply IZR_le; lia).
      assert (BB : Rabs (bilinear (numbers (output64 N t)) x y) <= A').
      { apply Rabs_le. apply (bilinear_range N N); [|lra|lra]. intros p q P Q. apply Rabs_le_inv. apply BO; assumption. }
      assert (EB : 20 * unit_roundoff * A' + 9 * smallest + 80 * A' * (unit_roundoff * IZR N) <= (22 + 90 * IZR N) * A * unit_roundoff).
      { assert (Q1 : 20 * (unit_roundoff * A') <= 21 * (unit_roundoff * A)). { unfold A'. assert (unit_roundoff * (unit_roundoff * A) <= unit_roundoff * (A / 1000000000000)) by (apply Rmult_le_compat_l; lra). lra. }
        assert (Q2 : 80 * (A' * (unit_roundoff * IZR N)) <= 90 * (A * (unit_roundoff * IZR N))).
        { assert (0 <= unit_roundoff * IZR N) by (apply Rmult_le_pos; lra). assert (A' * (unit_roundoff * IZR N) <= (9 / 8 * A) * (unit_roundoff * IZR N)) by (apply Rmult_le_compat_r; [lra|unfold A'; lra]). lra. }
        lra. }
      split.
      + apply Rabs_le_inv in B, BB. apply Rabs_le. unfold A' in *. lra.
      + intros _ _. assert (W : Rabs (bilinear (numbers (output64 N t)) x y - bilinear (drifted l n) x y) <= (D * (INR n + IZR N) + 21 * A) * unit_roundoff) by (apply (bilinear_near 2 (N - 3)); auto).
        replace (B2R r - bilinear (drifted l n) x y) with ((B2R r - bilinear (numbers (output64 N t)) x y) + (bilinear (numbers (output64 N t)) x y - bilinear (drifted l n) x y)) by ring.
        eapply Rle_trans; [apply Rabs_triang|]. lra.
  Qed.
  Lemma moved n : exists a, moved64 nx l n = Some a /\ fits a /\ bounded_by a (80 * A) /\ fa_rows a = nx /\ fa_cols a = nx /\
    forall i j, (2 <= i <= nx - 3)%Z -> (2 <= j <= nx - 3)%Z -> Rabs (numbers a i j - B2R nm64 * air nx l n i j) <= 80 * (D * (INR n + IZR N) + (45 + 100 * IZR N) * A) * unit_roundoff.
  Proof.
    destruct (turned n) as (t & Et & O). unfold moved64. rewrite Et. pose proof nx_le. eexists. split; [reflexivity|]. split; [split; cbn [fa_rows fa_cols]; lia|]. destruct nm_value as [Fk Bk].
    pose proof u_pos as U0. pose proof s_pos as S0. pose proof tiny as TN. assert (U1 : unit_roundoff = / 9007199254740992) by (unfold unit_roundoff; cbn; lra). assert (AP : 0 < A) by (pose proof (bpow_gt_0 radix2 (-900)); lra).
    assert (UA : unit_roundoff * A <= A / 1000000) by (rewrite U1; lra).
    assert (M : forall r, is_finite r = true -> Rabs (B2R r) <= A + A / 10000 ->
      is_finite (mul64 r nm64) = true /\ Rabs (B2R nm64 * B2R r) <= (79 + 4 / 5) * A /\ Rabs (B2R (mul64 r nm64) - B2R nm64 * B2R r) <= 82 * (unit_roundoff * A)).
    { intros r Fr Br. assert (Q : Rabs (B2R nm64 * B2R r) <= (79 + 4 / 5) * A).
      { rewrite Rabs_mult, (Rabs_pos_eq (B2R nm64)) by lra. apply Rle_trans with ((79 + 3 / 5) * Rabs (B2R r)); [apply Rmult_le_compat_r; [apply Rabs_pos|lra]|]. lra. }
      rewrite (Rmult_comm (B2R nm64)) in *. destruct (mul_correct r nm64 Fr Fk) as [F E].
      { eapply Rle_trans; [exact Q|]. apply Rle_trans with (bpow radix2 7 * bpow radix2 100); [change (bpow radix2 7) with 128; lra|rewrite <- bpow_plus; apply bpow_le; lia]. }
      split; [exact F|]. split; [exact Q|]. rewrite E. eapply Rle_trans; [apply rnd_any|]. assert (unit_roundoff * Rabs (B2R r * B2R nm64) <= unit_roundoff * ((79 + 4 / 5) * A)) by (apply Rmult_le_compat_l; lra). lra. }
    split; [|split; [reflexivity|split; [reflexivity|]]].
    - intros i j I J. cbn [fa_rows fa_cols] in I, J. unfold numbers. cbn [fa_at]. destruct (O i j I J) as (F & B & _). destruct (M _ F B) as (F' & Q1 & Q2). split; [exact F'|].
      apply Rabs_le_inv in Q1, Q2. apply Rabs_le. lra.
    - intros i j I J. unfold numbers. cbn [fa_at]. destruct (O i j ltac:(lia) ltac:(lia)) as (F & B & V). destruct (M _ F B) as (F' & Q1 & Q2). specialize (V I J).
      set (r := turned64 _ _ _ i j) in *. set (T := air nx l n i j) in *. pose proof D_pos as D0. assert (NR : 0 <= IZR N) by (apply IZR_le; lia). pose proof (pos_INR n).
      assert (DP : 0 <= D * (INR n + IZR N) * unit_roundoff) by (apply Rmult_le_pos; [apply Rmult_le_pos; lra|lra]). assert (NP : 0 <= IZR N * A * unit_roundoff) by (apply Rmult_le_pos; [apply Rmult_le_pos; lra|lra]).
      assert (W : Rabs (B2R nm64 * B2R r - B2R nm64 * T) <= 80 * ((D * (INR n + IZR N) + (43 + 90 * IZR N) * A) * unit_roundoff)).
      { rewrite <- Rmult_minus_distr_l, Rabs_mult, (Rabs_pos_eq (B2R nm64)) by lra. apply Rmult_le_compat; [lra|apply Rabs_pos|lra|exact V]. }
      replace (B2R (mul64 r nm64) - B2R nm64 * T) with ((B2R (mul64 r nm64) - B2R nm64 * B2R r) + (B2R nm64 * B2R r - B2R nm64 * T)) by ring. eapply Rle_trans; [apply Rabs_triang|]. lra.
  Qed.
End Layer.

(** Where the kernels take their values. *)
From Coq Require Import ZArith List.
From Flocq Require Import Core BinarySingleNaN.
From Verif.Base Require Import Float64.
From Verif.Model Require Import Rounding64.
From Verif.Spec Require Import FloatLoopSpec ReadoutSpec.
From Verif.Proofs Require Import ReadoutProofs RoundingProofs FloatLoopProofs.
From Verif.Model Require Import FloatInterp.
From Verif.Spec Require Import FloatInterpSpec.
From Verif.Proofs Require Import FloatInterpProofs.
From Coq Require Import Reals Bool Lia Lra.
Local Open Scope R_scope.

Lemma p34 : bpow radix2 (-34) = / 17179869184. Proof. cbn. lra. Qed.
Lemma int_finite x i : int64 x = Some i -> is_finite x = true.
Proof. unfold int64. destruct (is_finite x); [reflexivity|discriminate]. Qed.
Lemma tiny' : B2R (dec64 1 (10 ^ 9)) <= 18 * bpow radix2 (-34).
Proof.
  destruct (nearest_div 1 (10 ^ 9) ltac:(lia) ltac:(lia)) as [F E]. change (dec64 1 (10 ^ 9)) with (div64 (ofZ64 1) (ofZ64 (10 ^ 9))). rewrite E.
  rewrite <- (rnd_rep (18 * bpow radix2 (-34))) by (apply (rep_F2R 18); lia). apply rnd_le. cbn. lra.
Qed.
Lemma near_end n h : (2 <= n <= 2 ^ 20)%Z -> IZR (n - 1) - 18 * bpow radix2 (-34) <= h <= IZR (n - 1) - 17 * bpow radix2 (-34) -> 0 <= rnd64 h <= IZR (n - 1) /\ IZR (n - 1) - 2 / 10 ^ 9 <= rnd64 h.
Proof.
  intros Hn [H1 H2]. assert (N1 : 1 <= IZR (n - 1)) by (apply IZR_le; lia). assert (N2 : IZR (n - 1) <= bpow radix2 20 - 1) by (change (bpow radix2 20) with (IZR (2 ^ 20)); rewrite <- minus_IZR; apply IZR_le; lia).
  rewrite p34 in *. pose proof (rnd_abs' h 20 ltac:(lia)) as A. rewrite Rabs_pos_eq in A by lra. specialize (A ltac:(lra)). change (20 - 54)%Z with (-34)%Z in A. rewrite p34 in A. lra.
Qed.
Lemma clamp_near n x : (2 <= n <= 2 ^ 20)%Z -> is_finite x = true -> 0 <= B2R x ->
  is_finite (clamp64 n x) = true /\ 0 <= B2R (clamp64 n x) <= IZR (n - 1) /\ Rabs (B2R (clamp64 n x) - nearest_on n (B2R x)) <= 2 / 10 ^ 9.
Proof.
  intros Hn F P. unfold clamp64, nearest_on. destruct (ofZ_correct (n - 1)) as [Fk Ek]; [lia|]. assert (N1 : 1 <= IZR (n - 1)) by (apply IZR_le; lia). pose proof tiny as [Ft Bt]. pose proof tiny' as Bt'.
  destruct (ge64 x (ofZ64 (n - 1))) eqn:G.
  - apply ge_correct in G; auto. rewrite Ek in G. rewrite Rmin_right, Rmax_right by lra.
    destruct (sub_correct (ofZ64 (n - 1)) (dec64 1 (10 ^ 9)) Fk Ft) as [Fs Es].
    { rewrite Ek, Rabs_pos_eq by lra. apply Rle_trans with (bpow radix2 20); [|apply bpow_le; lia]. pose proof (bpow_gt_0 radix2 (-34)). apply Rle_trans with (IZR (n - 1)); [lra|]. change (bpow radix2 20) with (IZR (2 ^ 20)). apply IZR_le. lia. }
    destruct (near_end n (IZR (n - 1) - B2R (dec64 1 (10 ^ 9))) Hn ltac:(lra)) as [A B]. rewrite Ek in Es. rewrite Es. split; [exact Fs|]. split; [lra|]. apply Rabs_le. lra.
  - assert (L : B2R x < IZR (n - 1)). { apply Rnot_le_lt. intro H. rewrite <- Ek in H. apply (ge_correct x (ofZ64 (n - 1))) in H; auto. congruence. }
    rewrite Rmin_left, Rmax_right by lra. split; [exact F|]. split; [lra|]. rewrite Rminus_diag_eq, Rabs_R0 by reflexivity. lra.
Qed.
Lemma clip_near n x : (2 <= n <= 2 ^ 20)%Z -> is_finite x = true -> let z := clip64 n (dec64 1000000001 (10 ^ 9)) x in
  is_finite z = true /\ 0 <= B2R z <= IZR (n - 1) /\ Rabs (B2R z - nearest_on n (B2R x)) <= 2 / 10 ^ 9.
Proof.
  intros Hn Fx. cbv zeta. destruct (nearest_div 1000000001 (10 ^ 9) ltac:(lia) ltac:(lia)) as [Fc Ec]. change (div64 (ofZ64 1000000001) (ofZ64 (10 ^ 9))) with (dec64 1000000001 (10 ^ 9)) in *.
  set (c := dec64 1000000001 (10 ^ 9)) in *. assert (Bc : 1 + 17 * bpow radix2 (-34) <= B2R c <= 1 + 18 * bpow radix2 (-34)).
  { rewrite Ec. split.
    - replace (1 + 17 * bpow radix2 (-34)) with (IZR (2 ^ 34 + 17) * bpow radix2 (-34)) by (cbn; lra). rewrite <- (rnd_rep (IZR (2 ^ 34 + 17) * bpow radix2 (-34))) by (apply rep_F2R; lia). apply rnd_le. cbn. lra.
    - replace (1 + 18 * bpow radix2 (-34)) with (IZR (2 ^ 34 + 18) * bpow radix2 (-34)) by (cbn; lra). rewrite <- (rnd_rep (IZR (2 ^ 34 + 18) * bpow radix2 (-34))) by (apply rep_F2R; lia). apply rnd_le. cbn. lra. }
  destruct (ofZ_correct n ltac:(lia)) as [Fn En]. destruct (ofZ_correct 0 ltac:(lia)) as [F0 E0]. pose proof (bpow_gt_0 radix2 (-34)) as P34.
  assert (N1 : 2 <= IZR n) by (apply IZR_le; lia). assert (M1 : IZR (n - 1) = IZR n - 1) by (rewrite minus_IZR; reflexivity). assert (P34' : bpow radix2 (-34) <= / 1000) by (rewrite p34; lra).
  destruct (sub_correct (ofZ64 n) c Fn Fc) as [Fh Eh].
  { rewrite En, Rabs_pos_eq by lra. apply Rle_trans with (bpow radix2 20); [|apply bpow_le; lia]. apply Rle_trans with (IZR n); [lra|]. change (bpow radix2 20) with (IZR (2 ^ 20)). apply IZR_le. lia. }
  destruct (near_end n (IZR n - B2R c) Hn ltac:(lra)) as [A B]. rewrite En in Eh. rewrite <- Eh in A, B. unfold clip64. set (hi := sub64 (ofZ64 n) c) in *.
  set (y := if lt64 x (ofZ64 0) then ofZ64 0 else x). assert (Y : is_finite y = true /\ B2R y = Rmax 0 (B2R x)).
  { unfold y. destruct (lt64 x (ofZ64 0)) eqn:L.
    - apply lt_correct in L; auto. rewrite E0 in *. rewrite Rmax_left by lra. auto.
    - split; auto. rewrite Rmax_right; auto. apply Rnot_lt_le. intro C. rewrite <- E0 in C. apply (lt_correct x (ofZ64 0)) in C; auto. congruence. }
  destruct Y as [Fy Ey]. assert (NO : nearest_on n (B2R x) = Rmin (B2R y) (IZR (n - 1))).
  { unfold nearest_on. rewrite Ey. unfold Rmax, Rmin. repeat destruct (Rle_dec _ _); lra. }
  assert (Y0 : 0 <= B2R y) by (rewrite Ey; apply Rmax_l). rewrite NO. destruct (lt64 hi y) eqn:L.
  - apply lt_correct in L; auto. split; [exact Fh|]. split; [exact A|]. apply Rabs_le. unfold Rmin. destruct (Rle_dec _ _); lra.
  - assert (B2R y <= B2R hi). { apply Rnot_lt_le. intro C. apply (lt_correct hi y) in C; auto. congruence. }
    split; [exact Fy|]. split; [lra|]. rewrite Rmin_left by lra. rewrite Rminus_diag_eq, Rabs_R0 by reflexivity. lra.
Qed.
Lemma p30 : bpow radix2 (-30) = / 1073741824. Proof. cbn. lra. Qed.
Lemma zoom_near m n i : (2 <= m <= 2 ^ 20)%Z -> (0 <= i < n)%Z -> (2 <= n <= 2 ^ 20)%Z ->
  0 <= B2R (zoom_coord64 m n i) /\ Rabs (B2R (zoom_coord64 m n i) - IZR i * IZR (m - 1) / IZR (n - 1)) <= 2 / 10 ^ 8 * (IZR (m - 1) / IZR (n - 1)).
Proof.
  intros Hm Hi Hn. unfold zoom_coord64. destruct (f32_correct (m - 1) ltac:(lia)) as [Ff Ef]. destruct (ofZ_correct i ltac:(lia)) as [Fi Ei].
  destruct (ofZ_correct n ltac:(lia)) as [Fn En]. destruct almost_one as [Fa Ba]. set (a := dec64 99999999 (10 ^ 8)) in *. set (k := (m - 1)%Z) in *.
  assert (K1 : 1 <= IZR k) by (apply IZR_le; lia). assert (K2 : IZR k <= bpow radix2 20) by (change (bpow radix2 20) with (IZR (2 ^ 20)); apply IZR_le; lia).
  assert (I0 : 0 <= IZR i) by (apply IZR_le; lia). set (l := IZR (n - 1)). assert (El : IZR n = l + 1) by (unfold l; rewrite minus_IZR; ring). assert (I1 : IZR i <= l) by (apply IZR_le; lia).
  assert (L1 : 1 <= l) by (apply IZR_le; lia). assert (L2 : l <= bpow radix2 20 - 1) by (change (bpow radix2 20) with (IZR (2 ^ 20)); unfold l; rewrite <- minus_IZR; apply IZR_le; lia).
  destruct (mul_correct (ofZ64 i) (f32_of_Z k) Fi Ff) as [Fp Ep].
  { rewrite Ei, Ef, Rabs_pos_eq by (apply Rmult_le_pos; lra). apply Rle_trans with (bpow radix2 20 * bpow radix2 20); [apply Rmult_le_compat; lra|]. rewrite <- bpow_plus. apply bpow_le. lia. }
  rewrite Ei, Ef, <- mult_IZR, rnd_rep in Ep by (apply rep_Z; nia). rewrite p30 in Ba.
  assert (N20 : bpow radix2 20 = 1048576) by (cbn; lra).
  destruct (sub_correct (ofZ64 n) a Fn Fa) as [Fd Ed].
  { rewrite En, El, Rabs_pos_eq by lra. apply Rle_trans with (bpow radix2 21); [|apply bpow_le; lia]. change (bpow radix2 21) with (2 * 1048576). lra. }
  rewrite En, El in Ed. set (d := B2R (sub64 (ofZ64 n) a)) in *.
  assert (D : l + 9 / 1073741824 <= d <= l + 12 / 1073741824).
  { pose proof (rnd_abs' (l + 1 - B2R a) 21 ltac:(lia)) as A. change (bpow radix2 21) with (2 * 1048576) in A. rewrite Rabs_pos_eq in A by lra. specialize (A ltac:(lra)). change (21 - 54)%Z with (-33)%Z in A.
    assert (bpow radix2 (-33) = / 8589934592) by (cbn; lra). rewrite Ed. lra. }
  assert (D0 : 0 < d) by lra. assert (I : 0 < / d) by (apply Rinv_0_lt_compat; auto). assert (IL : 0 < / l) by (apply Rinv_0_lt_compat; lra).
  assert (IK : 0 <= IZR (i * k) <= l * IZR k) by (rewrite mult_IZR; split; [apply Rmult_le_pos; lra|apply Rmult_le_compat_r; lra]).
  assert (Q0 : 0 <= IZR (i * k) / d) by (apply Rmult_le_pos; lra).
  assert (Q1 : IZR (i * k) / d <= IZR k).
  { apply (Rmult_le_reg_r d); auto. unfold Rdiv. rewrite Rmult_assoc, Rinv_l, Rmult_1_r by lra. apply Rle_trans with (l * IZR k); [lra|]. rewrite Rmult_comm. apply Rmult_le_compat_l; lra. }
  destruct (div_correct (mul64 (ofZ64 i) (f32_of_Z k)) (sub64 (ofZ64 n) a) Fp) as [Fx Ex]; [fold d; lra| |].
  { fold d. rewrite Ep, Rabs_pos_eq by auto. apply Rle_trans with (bpow radix2 20); [lra|apply bpow_le; lia]. }
  fold d in Ex. rewrite Ep in Ex. rewrite Ex. split; [apply rnd_nonneg; auto|].
  pose proof (rnd_any (IZR (i * k) / d)) as RA. rewrite (Rabs_pos_eq (IZR (i * k) / d)) in RA by auto. rewrite <- mult_IZR.
  replace (rnd64 (IZR (i * k) / d) - IZR (i * k) / l) with ((rnd64 (IZR (i * k) / d) - IZR (i * k) / d) + (IZR (i * k) / d - IZR (i * k) / l)) by ring.
  eapply Rle_trans; [apply Rabs_triang|].
  assert (R2 : Rabs (IZR (i * k) / d - IZR (i * k) / l) <= 12 / 1073741824 * (IZR k / l)).
  { replace (IZR (i * k) / d - IZR (i * k) / l) with (- ((IZR (i * k) / d) * ((d - l) / l))) by (field; lra). rewrite Rabs_Ropp, Rabs_pos_eq.
    - apply Rle_trans with (IZR k * ((12 / 1073741824) / l)); [|apply Req_le; field; lra]. apply Rmult_le_compat; auto; [apply Rmult_le_pos; lra|]. apply Rmult_le_compat_r; lra.
    - apply Rmult_le_pos; auto. apply Rmult_le_pos; lra. }
  assert (R1 : unit_roundoff * (IZR (i * k) / d) + smallest <= 1 / 1073741824 * (IZR k / l)).
  { assert (V : unit_roundoff = / 9007199254740992) by (unfold unit_roundoff; cbn; lra). pose proof su as SU.
    assert (X : unit_roundoff * (IZR (i * k) / d) + smallest <= 2 * unit_roundoff * IZR k).
    { assert (unit_roundoff * (IZR (i * k) / d) <= unit_roundoff * IZR k) by (apply Rmult_le_compat_l; [left; apply u_pos|auto]). assert (unit_roundoff * 1 <= unit_roundoff * IZR k) by (apply Rmult_le_compat_l; [left; apply u_pos|auto]). lra. }
    eapply Rle_trans; [exact X|]. assert (Y : / 1048576 <= / l) by (apply Rinv_le; lra). unfold Rdiv.
    apply Rle_trans with (1 * / 1073741824 * (IZR k * / 1048576)); [rewrite V; lra|]. apply Rmult_le_compat_l; [lra|]. apply Rmult_le_compat_l; lra. }
  assert (KL : 0 < IZR k / l) by (apply Rmult_lt_0_compat; lra). lra.
Qed.

Section Values.
  Variables (a : farr) (A : R).
  Hypothesis (HF : fits a) (HA : bounded_by a A) (HB : A <= bpow radix2 800).
  Lemma A_pos : 0 <= A.
  Proof. destruct HF as [H1 H2]. destruct (HA 0%Z 0%Z ltac:(lia) ltac:(lia)) as [_ B]. pose proof (Rabs_pos (numbers a 0%Z 0%Z)). lra. Qed.
  Lemma index_of n x : is_finite x = true -> 0 <= B2R x -> B2R x < IZR (n - 1) -> exists i, int64 x = Some i /\ (0 <= i <= n - 2)%Z.
  Proof. intros F P L. destruct (int_correct x F P) as (i & E & B & I0). exists i. split; auto. assert (i < n - 1)%Z by (apply lt_IZR; lra). lia. Qed.
  Lemma kernel_inside x y : is_finite x = true -> is_finite y = true -> 0 <= B2R x < IZR (fa_rows a - 1) -> 0 <= B2R y < IZR (fa_cols a - 1) ->
    exists r, kernel64 a x y = Some r /\ is_finite r = true /\ Rabs (B2R r - bilinear (numbers a) (B2R x) (B2R y)) <= 20 * unit_roundoff * A + 9 * smallest.
  Proof.
    intros Fx Fy Bx By. destruct (index_of (fa_rows a) x Fx ltac:(lra) ltac:(lra)) as (i & Ei & Bi). destruct (index_of (fa_cols a) y Fy ltac:(lra) ltac:(lra)) as (j & Ej & Bj).
    apply (kernel_ok a A x y i j); auto; lra.
  Qed.
  (** the kernel at coordinates (x, y) near (X, Y) *)
  Lemma kernel_near x y i j X Y ex ey : int64 x = Some i -> (0 <= i <= fa_rows a - 2)%Z -> int64 y = Some j -> (0 <= j <= fa_cols a - 2)%Z -> 0 <= B2R x -> 0 <= B2R y ->
    0 <= X <= IZR (fa_rows a - 1) -> 0 <= Y <= IZR (fa_cols a - 1) -> Rabs (B2R x - X) <= ex -> Rabs (B2R y - Y) <= ey ->
    exists r, kernel64 a x y = Some r /\ is_finite r = true /\ Rabs (B2R r - bilinear (numbers a) X Y) <= 2 * A * (ex + ey) + 20 * unit_roundoff * A + 9 * smallest.
  Proof.
    intros Ei Bi Ej Bj Px Py HX HY Dx Dy. pose proof (int_finite _ _ Ei) as Fx. pose proof (int_finite _ _ Ej) as Fy.
    destruct (kernel_ok a A x y i j HF HA HB Fx Px Ei Bi Fy Py Ej Bj) as (r & E & F & D). exists r. split; [exact E|]. split; [exact F|].
    assert (UP : forall n z k, int64 z = Some k -> is_finite z = true -> 0 <= B2R z -> (0 <= k <= n - 2)%Z -> B2R z <= IZR (n - 1)).
    { intros n z k Ez Fz Pz Hk. destruct (int_correct z Fz Pz) as (k' & E' & B & _). rewrite Ez in E'. injection E' as <-. assert (IZR (k + 1) <= IZR (n - 1)) by (apply IZR_le; lia). rewrite plus_IZR in H. lra. }
    pose proof (UP _ _ _ Ei Fx Px Bi) as Ux. pose proof (UP _ _ _ Ej Fy Py Bj) as Uy.
    pose proof (bilinear_lip (fa_rows a) (fa_cols a) (numbers a) A X (B2R x) Y (B2R y) (fun p q Hp Hq => proj2 (HA p q Hp Hq)) HX ltac:(lra) HY ltac:(lra)) as Lp.
    replace (B2R r - bilinear (numbers a) X Y) with ((B2R r - bilinear (numbers a) (B2R x) (B2R y)) + (bilinear (numbers a) (B2R x) (B2R y) - bilinear (numbers a) X Y)) by ring.
    eapply Rle_trans; [apply Rabs_triang|]. pose proof A_pos as A0. assert (2 * A * (Rabs (B2R x - X) + Rabs (B2R y - Y)) <= 2 * A * (ex + ey)) by (apply Rmult_le_compat_l; lra). lra.
  Qed.
  Lemma kernel_range x y i j lo hi : int64 x = Some i -> (0 <= i <= fa_rows a - 2)%Z -> int64 y = Some j -> (0 <= j <= fa_cols a - 2)%Z -> 0 <= B2R x -> 0 <= B2R y ->
    (forall p q, (0 <= p < fa_rows a)%Z -> (0 <= q < fa_cols a)%Z -> lo <= numbers a p q <= hi) ->
    exists r, kernel64 a x y = Some r /\ let tol := 20 * unit_roundoff * A + 9 * smallest in lo - tol <= B2R r <= hi + tol.
  Proof.
    intros Ei Bi Ej Bj Px Py HLH. pose proof (int_finite _ _ Ei) as Fx. pose proof (int_finite _ _ Ej) as Fy.
    destruct (kernel_ok a A x y i j HF HA HB Fx Px Ei Bi Fy Py Ej Bj) as (r & E & F & D). exists r. split; [exact E|]. cbv zeta.
    assert (UP : forall n z k, int64 z = Some k -> is_finite z = true -> 0 <= B2R z -> (0 <= k <= n - 2)%Z -> B2R z <= IZR (n - 1)).
    { intros n z k Ez Fz Pz Hk. destruct (int_correct z Fz Pz) as (k' & E' & B & _). rewrite Ez in E'. injection E' as <-. assert (IZR (k + 1) <= IZR (n - 1)) by (apply IZR_le; lia). rewrite plus_IZR in H. lra. }
    pose proof (UP _ _ _ Ei Fx Px Bi) as Ux. pose proof (UP _ _ _ Ej Fy Py Bj) as Uy.
    pose proof (bilinear_range (fa_rows a) (fa_cols a) (numbers a) lo hi (B2R x) (B2R y) HLH ltac:(lra) ltac:(lra)). apply Rabs_le_inv in D. lra.
  Qed.
  Lemma on_range n x : (2 <= n)%Z -> 0 <= nearest_on n x <= IZR (n - 1).
  Proof. intro Hn. assert (1 <= IZR (n - 1)) by (apply IZR_le; lia). unfold nearest_on, Rmax, Rmin. repeat destruct (Rle_dec _ _); lra. Qed.
  Lemma small_sum : 2 * A * (2 / 10 ^ 9 + 2 / 10 ^ 9) + 20 * unit_roundoff * A + 9 * smallest <= A / 10 ^ 8 + 9 * smallest.
  Proof. pose proof A_pos. assert (V : unit_roundoff = / 9007199254740992) by (unfold unit_roundoff; cbn; lra). rewrite V. replace (10 ^ 8) with 100000000 by ring. replace (10 ^ 9) with 1000000000 by ring. lra. Qed.
  Lemma interp_value x y : is_finite x = true -> is_finite y = true -> 0 <= B2R x -> 0 <= B2R y ->
    exists r, interp64 a x y = Some r /\ is_finite r = true /\
      Rabs (B2R r - bilinear (numbers a) (nearest_on (fa_rows a) (B2R x)) (nearest_on (fa_cols a) (B2R y))) <= A / 10 ^ 8 + 9 * smallest.
  Proof.
    intros Fx Fy Px Py. destruct HF as [HR HC]. destruct (clamp_near (fa_rows a) x HR Fx Px) as (F1 & B1 & D1). destruct (clamp_near (fa_cols a) y HC Fy Py) as (F2 & B2 & D2).
    destruct (interp_inside (fa_rows a) x ltac:(lia) Fx Px) as (i & Ei & Bi). destruct (interp_inside (fa_cols a) y ltac:(lia) Fy Py) as (j & Ej & Bj).
    destruct (kernel_near _ _ i j (nearest_on (fa_rows a) (B2R x)) (nearest_on (fa_cols a) (B2R y)) _ _ Ei Bi Ej Bj (proj1 B1) (proj1 B2) (on_range (fa_rows a) (B2R x) ltac:(lia)) (on_range (fa_cols a) (B2R y) ltac:(lia)) D1 D2) as (r & E & F & D).
    exists r. split; [exact E|]. split; [exact F|]. eapply Rle_trans; [exact D|apply small_sum].
  Qed.
  Lemma los_value x y : is_finite x = true -> is_finite y = true ->
    exists r, los_interp64 a x y = Some r /\ is_finite r = true /\
      Rabs (B2R r - bilinear (numbers a) (nearest_on (fa_rows a) (B2R x)) (nearest_on (fa_cols a) (B2R y))) <= A / 10 ^ 8 + 9 * smallest.
  Proof.
    intros Fx Fy. destruct HF as [HR HC]. destruct (clip_near (fa_rows a) x HR Fx) as (F1 & B1 & D1). destruct (clip_near (fa_cols a) y HC Fy) as (F2 & B2 & D2).
    destruct (los_inside (fa_rows a) x ltac:(lia) Fx) as (i & Ei & Bi). destruct (los_inside (fa_cols a) y ltac:(lia) Fy) as (j & Ej & Bj).
    destruct (kernel_near _ _ i j (nearest_on (fa_rows a) (B2R x)) (nearest_on (fa_cols a) (B2R y)) _ _ Ei Bi Ej Bj (proj1 B1) (proj1 B2) (on_range (fa_rows a) (B2R x) ltac:(lia)) (on_range (fa_cols a) (B2R y) ltac:(lia)) D1 D2) as (r & E & F & D).
    exists r. split; [exact E|]. split; [exact F|]. eapply Rle_trans; [exact D|apply small_sum].
  Qed.
  Lemma zoom_value rows cols i j : (2 <= rows <= 2 ^ 20)%Z -> (2 <= cols <= 2 ^ 20)%Z -> (0 <= i < rows)%Z -> (0 <= j < cols)%Z ->
    let px := IZR (fa_rows a - 1) / IZR (rows - 1) in let py := IZR (fa_cols a - 1) / IZR (cols - 1) in
    exists r, zoom64 a rows cols i j = Some r /\ is_finite r = true /\
      Rabs (B2R r - bilinear (numbers a) (IZR i * px) (IZR j * py)) <= 4 * A * (px + py) / 10 ^ 8 + 20 * unit_roundoff * A + 9 * smallest.
  Proof.
    intros Hr Hc Hi Hj px py. destruct HF as [HR HC]. destruct (zoom_near (fa_rows a) rows i HR Hi Hr) as [P1 D1]. destruct (zoom_near (fa_cols a) cols j HC Hj Hc) as [P2 D2].
    destruct (zoom_inside (fa_rows a) rows i ltac:(lia) Hi ltac:(lia)) as (k & Ek & Bk). destruct (zoom_inside (fa_cols a) cols j ltac:(lia) Hj ltac:(lia)) as (l & El & Bl).
    assert (PX : forall N M z, (2 <= N)%Z -> (2 <= M)%Z -> (0 <= z < M)%Z -> 0 <= IZR z * (IZR (N - 1) / IZR (M - 1)) <= IZR (N - 1)).
    { intros N M z HN HM Hz. assert (1 <= IZR (N - 1)) by (apply IZR_le; lia). assert (1 <= IZR (M - 1)) by (apply IZR_le; lia). assert (0 <= IZR z <= IZR (M - 1)) by (split; apply IZR_le; lia).
      assert (0 < / IZR (M - 1)) by (apply Rinv_0_lt_compat; lra). assert (0 < IZR (N - 1) / IZR (M - 1)) by (apply Rmult_lt_0_compat; lra). split; [apply Rmult_le_pos; lra|].
      apply Rle_trans with (IZR (M - 1) * (IZR (N - 1) / IZR (M - 1))); [apply Rmult_le_compat_r; lra|]. apply Req_le. field. lra. }
    destruct (kernel_near _ _ k l (IZR i * px) (IZR j * py) (2 / 10 ^ 8 * px) (2 / 10 ^ 8 * py) Ek Bk El Bl P1 P2) as (r & E & F & D).
    - apply PX; lia.
    - apply PX; lia.
    - unfold px at 1. unfold Rdiv at 1. rewrite <- Rmult_assoc. exact D1.
    - unfold py at 1. unfold Rdiv at 1. rewrite <- Rmult_assoc. exact D2.
    - exists r. split; [exact E|]. split; [exact F|]. eapply Rle_trans; [exact D|]. apply Req_le. field.
  Qed.
  Lemma all_range lo hi : (forall p q, (0 <= p < fa_rows a)%Z -> (0 <= q < fa_cols a)%Z -> lo <= numbers a p q <= hi) ->
    let between r := exists v, r = Some v /\ let tol := 20 * unit_roundoff * A + 9 * smallest in lo - tol <= B2R v <= hi + tol in
    (forall x y, is_finite x = true -> is_finite y = true -> 0 <= B2R x -> 0 <= B2R y -> between (interp64 a x y)) /\
    (forall x y, is_finite x = true -> is_finite y = true -> between (los_interp64 a x y)) /\
    (forall rows cols i j, (2 <= rows <= 2 ^ 20)%Z -> (2 <= cols <= 2 ^ 20)%Z -> (0 <= i < rows)%Z -> (0 <= j < cols)%Z -> between (zoom64 a rows cols i j)).
  Proof.
    intros HLH. cbv zeta. destruct HF as [HR HC]. repeat split.
    - intros x y Fx Fy Px Py. destruct (clamp_near (fa_rows a) x HR Fx Px) as (F1 & B1 & D1). destruct (clamp_near (fa_cols a) y HC Fy Py) as (F2 & B2 & D2).
      destruct (interp_inside (fa_rows a) x ltac:(lia) Fx Px) as (i & Ei & Bi). destruct (interp_inside (fa_cols a) y ltac:(lia) Fy Py) as (j & Ej & Bj).
      exact (kernel_range _ _ i j lo hi Ei Bi Ej Bj (proj1 B1) (proj1 B2) HLH).
    - intros x y Fx Fy. destruct (clip_near (fa_rows a) x HR Fx) as (F1 & B1 & D1). destruct (clip_near (fa_cols a) y HC Fy) as (F2 & B2 & D2).
      destruct (los_inside (fa_rows a) x ltac:(lia) Fx) as (i & Ei & Bi). destruct (los_inside (fa_cols a) y ltac:(lia) Fy) as (j & Ej & Bj).
      exact (kernel_range _ _ i j lo hi Ei Bi Ej Bj (proj1 B1) (proj1 B2) HLH).
    - intros rows cols i j Hr Hc Hi Hj. destruct (zoom_near (fa_rows a) rows i HR Hi Hr) as [P1 D1]. destruct (zoom_near (fa_cols a) cols j HC Hj Hc) as [P2 D2].
      destruct (zoom_inside (fa_rows a) rows i ltac:(lia) Hi ltac:(lia)) as (k & Ek & Bk). destruct (zoom_inside (fa_cols a) cols j ltac:(lia) Hj ltac:(lia)) as (l & El & Bl).
      exact (kernel_range _ _ k l lo hi Ek Bk El Bl P1 P2 HLH).
  Qed.
End Values.

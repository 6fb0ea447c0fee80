(** Rounding in the interpolation kernels. *)
From Coq Require Import ZArith List.
From Flocq Require Import Core BinarySingleNaN.
From Verif.Base Require Import Float64.
From Verif.Model Require Import Rounding64.
From Verif.Spec Require Import FloatLoopSpec ReadoutSpec.
From Verif.Proofs Require Import ReadoutProofs RoundingProofs FloatLoopProofs.
From Verif.Model Require Import FloatInterp.
From Verif.Spec Require Import FloatInterpSpec.
From Coq Require Import Reals Bool Lia Lra.
Local Open Scope R_scope.

(** ** Straight lines between the elements *)
Lemma floor_at k : Zfloor (IZR k) = k. Proof. apply Zfloor_IZR. Qed.
Lemma straight_seg d k x : IZR k <= x <= IZR k + 1 -> straight d x = d k + (d (k + 1)%Z - d k) * (x - IZR k).
Proof.
  intros [H1 H2]. destruct (Rle_lt_or_eq_dec _ _ H2) as [L|E].
  - unfold straight. rewrite (Zfloor_imp k) by (rewrite plus_IZR; lra). reflexivity.
  - unfold straight. rewrite E. rewrite <- plus_IZR, floor_at, plus_IZR. ring.
Qed.
Lemma straight_ext n f g x : (forall k, (0 <= k < n)%Z -> f k = g k) -> 0 <= x <= IZR (n - 1) -> straight f x = straight g x.
Proof.
  intros H [X0 X1]. unfold straight. pose proof (Zfloor_lb x). pose proof (Zfloor_ub x).
  assert (K0 : (0 <= Zfloor x)%Z) by (apply Zfloor_lub; exact X0). assert (K1 : (Zfloor x <= n - 1)%Z) by (apply le_IZR; lra).
  rewrite (H (Zfloor x)) by lia. destruct (Z.eq_dec (Zfloor x) (n - 1)) as [E|N].
  - replace (x - IZR (Zfloor x)) with 0 by (rewrite E in *; lra). ring.
  - rewrite (H (Zfloor x + 1)%Z) by lia. reflexivity.
Qed.
Lemma straight_range n d lo hi x : (forall k, (0 <= k < n)%Z -> lo <= d k <= hi) -> 0 <= x <= IZR (n - 1) -> lo <= straight d x <= hi.
Proof.
  intros H [X0 X1]. unfold straight. pose proof (Zfloor_lb x) as L. pose proof (Zfloor_ub x) as U.
  assert (K0 : (0 <= Zfloor x)%Z) by (apply Zfloor_lub; exact X0). assert (K1 : (Zfloor x <= n - 1)%Z) by (apply le_IZR; lra).
  pose proof (H (Zfloor x) ltac:(lia)) as B. destruct (Z.eq_dec (Zfloor x) (n - 1)) as [E|N].
  - replace (x - IZR (Zfloor x)) with 0 by (rewrite E in *; lra). lra.
  - pose proof (H (Zfloor x + 1)%Z ltac:(lia)) as B1. set (t := x - IZR (Zfloor x)). assert (0 <= t <= 1) by (unfold t; lra).
    set (p := d (Zfloor x)) in *. set (q := d (Zfloor x + 1)%Z) in *. replace (p + (q - p) * t) with ((1 - t) * p + t * q) by ring. 
    assert ((1 - t) * lo <= (1 - t) * p <= (1 - t) * hi) by (split; apply Rmult_le_compat_l; lra).
    assert (t * lo <= t * q <= t * hi) by (split; apply Rmult_le_compat_l; lra). lra.
Qed.
Lemma straight_abs n d A x : (forall k, (0 <= k < n)%Z -> Rabs (d k) <= A) -> 0 <= x <= IZR (n - 1) -> Rabs (straight d x) <= A.
Proof.
  intros H X. apply Rabs_le. apply (straight_range n); [|exact X]. intros k Hk. apply Rabs_le_inv. apply H. exact Hk.
Qed.
Lemma straight_minus f g x : straight f x - straight g x = straight (fun k => f k - g k) x.
Proof. unfold straight. ring. Qed.
Lemma straight_lip' n d L : (forall k, (0 <= k < n - 1)%Z -> Rabs (d (k + 1)%Z - d k) <= L) -> forall N x y, 0 <= x <= y -> y <= IZR (n - 1) -> y <= IZR (Zfloor x) + INR N ->
  Rabs (straight d y - straight d x) <= L * (y - x).
Proof.
  intros H N. induction N as [|N IH]; intros x y [X0 XY] Y HN.
  - pose proof (Zfloor_lb x). cbn in HN. replace y with x by lra. rewrite !Rminus_diag_eq by reflexivity. rewrite Rabs_R0. lra.
  - pose proof (Zfloor_lb x) as F1. pose proof (Zfloor_ub x) as F2. set (k := Zfloor x) in *. assert (K0 : (0 <= k)%Z) by (apply Zfloor_lub; exact X0).
    destruct (Req_EM_T x y) as [->|NE]; [rewrite !Rminus_diag_eq by reflexivity; rewrite Rabs_R0; lra|].
    assert (K1 : (k < n - 1)%Z) by (apply lt_IZR; lra). specialize (H k ltac:(lia)) as Hk.
    assert (SEG : forall u v, IZR k <= u <= IZR k + 1 -> IZR k <= v <= IZR k + 1 -> u <= v -> Rabs (straight d v - straight d u) <= L * (v - u)).
    { intros u v Hu Hv Huv. rewrite (straight_seg d k u Hu), (straight_seg d k v Hv). replace (_ - _) with ((d (k + 1)%Z - d k) * (v - u)) by ring.
      rewrite Rabs_mult, (Rabs_pos_eq (v - u)) by lra. apply Rmult_le_compat_r; [lra|exact Hk]. }
    destruct (Rle_dec y (IZR k + 1)) as [LE|GT]; [apply SEG; lra|].
    replace (straight d y - straight d x) with ((straight d y - straight d (IZR k + 1)) + (straight d (IZR k + 1) - straight d x)) by ring.
    eapply Rle_trans; [apply Rabs_triang|]. replace (L * (y - x)) with (L * (y - (IZR k + 1)) + L * (IZR k + 1 - x)) by ring.
    apply Rplus_le_compat; [|apply SEG; lra]. apply IH; [assert (0 <= IZR k) by (apply IZR_le; exact K0); lra|exact Y|]. rewrite <- plus_IZR, floor_at, plus_IZR. rewrite S_INR in HN. lra.
Qed.
Lemma straight_lip n d L x y : (forall k, (0 <= k < n - 1)%Z -> Rabs (d (k + 1)%Z - d k) <= L) -> 0 <= x <= IZR (n - 1) -> 0 <= y <= IZR (n - 1) ->
  Rabs (straight d y - straight d x) <= L * Rabs (y - x).
Proof.
  intros H X Y. assert (W : forall x y, 0 <= x <= y -> y <= IZR (n - 1) -> Rabs (straight d y - straight d x) <= L * (y - x)).
  { intros u v Hu Hv. apply (straight_lip' n d L H (Z.to_nat (up (v - IZR (Zfloor u))))); auto. destruct (archimed (v - IZR (Zfloor u))) as [N1 _]. pose proof (Zfloor_lb u). assert (0 <= up (v - IZR (Zfloor u)))%Z by (apply le_IZR; lra). rewrite INR_IZR_INZ, Z2Nat.id by auto. lra. }
  destruct (Rle_dec x y) as [LE|GT].
  - rewrite (Rabs_pos_eq (y - x)) by lra. apply W; lra.
  - rewrite (Rabs_minus_sym (straight d y)), (Rabs_minus_sym y), (Rabs_pos_eq (x - y)) by lra. apply W; lra.
Qed.
Lemma bilinear_lip n m d A x x' y y' : (forall i j, (0 <= i < n)%Z -> (0 <= j < m)%Z -> Rabs (d i j) <= A) ->
  0 <= x <= IZR (n - 1) -> 0 <= x' <= IZR (n - 1) -> 0 <= y <= IZR (m - 1) -> 0 <= y' <= IZR (m - 1) ->
  Rabs (bilinear d x' y' - bilinear d x y) <= 2 * A * (Rabs (x' - x) + Rabs (y' - y)).
Proof.
  intros H X X' Y Y'. assert (D : forall a b, Rabs a <= A -> Rabs b <= A -> Rabs (a - b) <= 2 * A).
  { intros a b Ha Hb. unfold Rminus. eapply Rle_trans; [apply Rabs_triang|]. rewrite Rabs_Ropp. lra. }
  replace (bilinear d x' y' - bilinear d x y) with ((bilinear d x' y' - bilinear d x y') + (bilinear d x y' - bilinear d x y)) by ring.
  eapply Rle_trans; [apply Rabs_triang|]. rewrite Rmult_plus_distr_l. apply Rplus_le_compat.
  - unfold bilinear. rewrite straight_minus. apply (straight_abs m); [|exact Y']. intros j Hj. apply (straight_lip n); auto. intros k Hk. apply D; apply H; lia.
  - unfold bilinear. apply (straight_lip m); auto. intros k Hk. apply D; apply (straight_abs n); auto; intros i Hi; apply H; lia.
Qed.
Lemma bilinear_range n m d lo hi x y : (forall i j, (0 <= i < n)%Z -> (0 <= j < m)%Z -> lo <= d i j <= hi) -> 0 <= x <= IZR (n - 1) -> 0 <= y <= IZR (m - 1) ->
  lo <= bilinear d x y <= hi.
Proof. intros H X Y. unfold bilinear. apply (straight_range m); auto. intros j Hj. apply (straight_range n); auto. Qed.

(** ** One rounded line *)
Lemma rnd_bound x : Rabs (rnd64 x) <= (1 + unit_roundoff) * Rabs x + smallest.
Proof. replace (rnd64 x) with ((rnd64 x - x) + x) by ring. eapply Rle_trans; [apply Rabs_triang|]. pose proof (rnd_any x). lra. Qed.
Lemma big v : v <= bpow radix2 900 -> 16 * v <= bpow radix2 1000.
Proof.
  intro H. apply Rle_trans with (bpow radix2 4 * bpow radix2 900); [change (bpow radix2 4) with 16; apply Rmult_le_compat_l; lra|]. rewrite <- bpow_plus. apply bpow_le. lia.
Qed.
Lemma su : smallest <= unit_roundoff. Proof. apply bpow_le. lia. Qed.
Lemma lerp_ok (p q f : b64) (P Q B e : R) : is_finite p = true -> is_finite q = true -> is_finite f = true -> 0 <= B2R f <= 1 ->
  Rabs (B2R p) <= B -> Rabs (B2R q) <= B -> Rabs (B2R p - P) <= e -> Rabs (B2R q - Q) <= e -> B + 1 <= bpow radix2 900 ->
  let r := add64 p (mul64 (sub64 q p) f) in
  is_finite r = true /\ Rabs (B2R r - (P + (Q - P) * B2R f)) <= e + 9 * unit_roundoff * B + 4 * smallest.
Proof.
  intros Fp Fq Ff Hf Bp Bq Ep Eq HB. pose proof u_pos as U0. pose proof u_small as U1. pose proof s_pos as S0. pose proof s_small as S1. pose proof su as SU.
  assert (B0 : 0 <= B) by (pose proof (Rabs_pos (B2R p)); lra). pose proof (big _ HB) as BG.
  assert (D : Rabs (B2R q - B2R p) <= 2 * B). { unfold Rminus. eapply Rle_trans; [apply Rabs_triang|]. rewrite Rabs_Ropp. lra. }
  destruct (sub_correct q p Fq Fp ltac:(lra)) as [Fg Eg]. set (g := sub64 q p) in *. pose proof (rnd_any (B2R q - B2R p)) as Rg. rewrite <- Eg in Rg.
  assert (UD : unit_roundoff * Rabs (B2R q - B2R p) <= 2 * unit_roundoff * B) by (rewrite (Rmult_comm 2), Rmult_assoc; apply Rmult_le_compat_l; lra).
  assert (UB : 0 <= unit_roundoff * B <= / 1024 * B) by (split; [apply Rmult_le_pos; lra|apply Rmult_le_compat_r; lra]).
  assert (Bg : Rabs (B2R g) <= 2 * B + 2 * unit_roundoff * B + smallest).
  { replace (B2R g) with ((B2R q - B2R p) + (B2R g - (B2R q - B2R p))) by ring. eapply Rle_trans; [apply Rabs_triang|]. lra. }
  assert (Bgf : Rabs (B2R g * B2R f) <= 2 * B + 2 * unit_roundoff * B + smallest).
  { rewrite Rabs_mult, (Rabs_pos_eq (B2R f)) by lra. rewrite <- (Rmult_1_r (2 * B + _ + _)). apply Rmult_le_compat; try lra. apply Rabs_pos. }
  destruct (mul_correct g f Fg Ff ltac:(lra)) as [Fh Eh]. set (h := mul64 g f) in *. pose proof (rnd_any (B2R g * B2R f)) as Rh. rewrite <- Eh in Rh.
  assert (UG : unit_roundoff * Rabs (B2R g * B2R f) <= unit_roundoff * (2 * B + 2 * unit_roundoff * B + smallest)) by (apply Rmult_le_compat_l; lra).
  assert (UU : 0 <= unit_roundoff * (unit_roundoff * B) <= / 1024 * (unit_roundoff * B)) by (split; [apply Rmult_le_pos; lra|apply Rmult_le_compat_r; lra]).
  assert (US : 0 <= unit_roundoff * smallest <= / 1024 * smallest) by (split; [apply Rmult_le_pos; lra|apply Rmult_le_compat_r; lra]).
  assert (Bh : Rabs (B2R h) <= 2 * B + 5 * unit_roundoff * B + 3 * smallest).
  { replace (B2R h) with (B2R g * B2R f + (B2R h - B2R g * B2R f)) by ring. eapply Rle_trans; [apply Rabs_triang|]. nra. }
  assert (Bs : Rabs (B2R p + B2R h) <= 3 * B + 5 * unit_roundoff * B + 3 * smallest) by (eapply Rle_trans; [apply Rabs_triang|]; lra).
  destruct (add_correct p h Fp Fh ltac:(lra)) as [Fr Er]. fold g h. set (r := add64 p h) in *. pose proof (rnd_any (B2R p + B2R h)) as Rr. rewrite <- Er in Rr.
  split; [exact Fr|].
  assert (UR : unit_roundoff * Rabs (B2R p + B2R h) <= unit_roundoff * (3 * B + 5 * unit_roundoff * B + 3 * smallest)) by (apply Rmult_le_compat_l; lra).
  replace (B2R r - (P + (Q - P) * B2R f)) with ((B2R r - (B2R p + B2R h)) + (B2R h - B2R g * B2R f) + (B2R g - (B2R q - B2R p)) * B2R f + ((1 - B2R f) * (B2R p - P) + B2R f * (B2R q - Q))) by ring.
  assert (C : Rabs ((1 - B2R f) * (B2R p - P) + B2R f * (B2R q - Q)) <= e).
  { eapply Rle_trans; [apply Rabs_triang|]. rewrite !Rabs_mult, (Rabs_pos_eq (1 - B2R f)), (Rabs_pos_eq (B2R f)) by lra.
    assert ((1 - B2R f) * Rabs (B2R p - P) <= (1 - B2R f) * e) by (apply Rmult_le_compat_l; lra). assert (B2R f * Rabs (B2R q - Q) <= B2R f * e) by (apply Rmult_le_compat_l; lra). lra. }
  assert (G : Rabs ((B2R g - (B2R q - B2R p)) * B2R f) <= 2 * unit_roundoff * B + smallest).
  { rewrite Rabs_mult, (Rabs_pos_eq (B2R f)) by lra. rewrite <- (Rmult_1_r (_ + smallest)). apply Rmult_le_compat; try lra. apply Rabs_pos. }
  eapply Rle_trans; [apply Rabs_triang|]. eapply Rle_trans; [apply Rplus_le_compat_r, Rabs_triang|]. eapply Rle_trans; [apply Rplus_le_compat_r, Rplus_le_compat_r, Rabs_triang|]. lra.
Qed.
Lemma frac_ok x i : is_finite x = true -> int64 x = Some i -> 0 <= B2R x -> (i <= 2 ^ 30)%Z ->
  Zfloor (B2R x) = i /\ is_finite (sub64 x (ofZ64 i)) = true /\ B2R (sub64 x (ofZ64 i)) = B2R x - IZR i /\ 0 <= B2R x - IZR i <= 1.
Proof.
  intros F E P I. destruct (int_correct x F P) as (k & E' & B & K). rewrite E in E'. injection E' as <-. split; [apply Zfloor_imp; rewrite plus_IZR; lra|].
  destruct (ofZ_correct i ltac:(lia)) as [Fi Ei].
  destruct (sub_correct x (ofZ64 i) F Fi) as [Fs Es]. { rewrite Ei, Rabs_pos_eq by lra. apply Rle_trans with (bpow radix2 0); [cbn; lra|apply bpow_le; lia]. }
  split; [exact Fs|]. split; [|lra]. rewrite Es, Ei. apply rnd_rep. apply rep_frac; [apply generic_format_B2R|exact P|lra].
Qed.
Lemma kernel_ok a A x y i j : fits a -> bounded_by a A -> A <= bpow radix2 800 ->
  is_finite x = true -> 0 <= B2R x -> int64 x = Some i -> (0 <= i <= fa_rows a - 2)%Z ->
  is_finite y = true -> 0 <= B2R y -> int64 y = Some j -> (0 <= j <= fa_cols a - 2)%Z ->
  exists r, kernel64 a x y = Some r /\ is_finite r = true /\ Rabs (B2R r - bilinear (numbers a) (B2R x) (B2R y)) <= 20 * unit_roundoff * A + 9 * smallest.
Proof.
  intros [HR HC] HA HB Fx Px Ex Hi Fy Py Ey Hj. pose proof u_pos as U0. pose proof u_small as U1. pose proof s_pos as S0. pose proof s_small as S1. pose proof su as SU.
  destruct (frac_ok x i Fx Ex Px ltac:(lia)) as (Zx & Ffx & Efx & Bfx). destruct (frac_ok y j Fy Ey Py ltac:(lia)) as (Zy & Ffy & Efy & Bfy).
  unfold kernel64. rewrite Ex, Ey.
  assert (T : ((0 <=? i) && (i + 1 <? fa_rows a) && (0 <=? j) && (j + 1 <? fa_cols a))%Z%bool = true) by (rewrite !andb_true_iff, !Z.leb_le, !Z.ltb_lt; lia). rewrite T. cbv zeta.
  destruct (HA i j ltac:(lia) ltac:(lia)) as [F00 B00]. destruct (HA (i + 1)%Z j ltac:(lia) ltac:(lia)) as [F10 B10].
  destruct (HA i (j + 1)%Z ltac:(lia) ltac:(lia)) as [F01 B01]. destruct (HA (i + 1)%Z (j + 1)%Z ltac:(lia) ltac:(lia)) as [F11 B11]. unfold numbers in B00, B10, B01, B11.
  assert (A0 : 0 <= A) by (pose proof (Rabs_pos (B2R (fa_at a i j))); lra).
  assert (V1 : 1 <= bpow radix2 800) by (apply (bpow_le radix2 0); lia). assert (V2 : A + 1 <= bpow radix2 900).
  { apply Rle_trans with (bpow radix2 1 * bpow radix2 800); [change (bpow radix2 1) with 2; lra|]. rewrite <- bpow_plus. apply bpow_le. lia. }
  assert (Z0 : forall v : b64, Rabs (B2R v - B2R v) <= 0) by (intro v; rewrite Rminus_diag_eq by reflexivity; rewrite Rabs_R0; lra).
  assert (Hf : 0 <= B2R (sub64 x (ofZ64 i)) <= 1) by (rewrite Efx; exact Bfx).
  destruct (lerp_ok (fa_at a i j) (fa_at a (i + 1)%Z j) (sub64 x (ofZ64 i)) _ _ A 0 F00 F10 Ffx Hf B00 B10 (Z0 _) (Z0 _) V2) as [F1 E1].
  destruct (lerp_ok (fa_at a i (j + 1)%Z) (fa_at a (i + 1)%Z (j + 1)%Z) (sub64 x (ofZ64 i)) _ _ A 0 F01 F11 Ffx Hf B01 B11 (Z0 _) (Z0 _) V2) as [F2 E2].
  cbv zeta in F1, E1, F2, E2. set (a1 := add64 (fa_at a i j) _) in *. set (a2 := add64 (fa_at a i (j + 1)%Z) _) in *. rewrite Efx in E1, E2.
  set (e := 9 * unit_roundoff * A + 4 * smallest). rewrite Rplus_0_l in E1, E2. fold e in E1, E2.
  set (P := B2R (fa_at a i j) + (B2R (fa_at a (i + 1)%Z j) - B2R (fa_at a i j)) * (B2R x - IZR i)) in *.
  set (Q := B2R (fa_at a i (j + 1)%Z) + (B2R (fa_at a (i + 1)%Z (j + 1)%Z) - B2R (fa_at a i (j + 1)%Z)) * (B2R x - IZR i)) in *.
  assert (CV : forall p q, Rabs p <= A -> Rabs q <= A -> Rabs (p + (q - p) * (B2R x - IZR i)) <= A).
  { intros p q Hp Hq. set (t := B2R x - IZR i) in *. replace (p + (q - p) * t) with ((1 - t) * p + t * q) by ring. eapply Rle_trans; [apply Rabs_triang|].
    rewrite !Rabs_mult, (Rabs_pos_eq (1 - t)), (Rabs_pos_eq t) by lra. assert ((1 - t) * Rabs p <= (1 - t) * A) by (apply Rmult_le_compat_l; lra). assert (t * Rabs q <= t * A) by (apply Rmult_le_compat_l; lra). lra. }
  assert (BP : Rabs P <= A) by (apply CV; assumption). assert (BQ : Rabs Q <= A) by (apply CV; assumption).
  assert (UA : 0 <= unit_roundoff * A <= / 1024 * A) by (split; [apply Rmult_le_pos; lra|apply Rmult_le_compat_r; lra]).
  assert (B1 : Rabs (B2R a1) <= A + e). { replace (B2R a1) with (P + (B2R a1 - P)) by ring. eapply Rle_trans; [apply Rabs_triang|]. lra. }
  assert (B2 : Rabs (B2R a2) <= A + e). { replace (B2R a2) with (Q + (B2R a2 - Q)) by ring. eapply Rle_trans; [apply Rabs_triang|]. lra. }
  assert (BB : (A + e) + 1 <= bpow radix2 900).
  { apply Rle_trans with (4 * bpow radix2 800); [unfold e; lra|]. apply (Rle_trans _ (bpow radix2 2 * bpow radix2 800)); [change (bpow radix2 2) with 4; lra|]. rewrite <- bpow_plus. apply bpow_le. lia. }
  destruct (lerp_ok a1 a2 (sub64 y (ofZ64 j)) P Q (A + e) e F1 F2 Ffy ltac:(rewrite Efy; exact Bfy) B1 B2 E1 E2 BB) as [F3 E3].
  cbv zeta in F3, E3. eexists. split; [reflexivity|]. split; [exact F3|]. rewrite Efy in E3.
  replace (bilinear (numbers a) (B2R x) (B2R y)) with (P + (Q - P) * (B2R y - IZR j)) by (unfold bilinear, straight, numbers; rewrite Zx, Zy; reflexivity).
  eapply Rle_trans; [exact E3|]. unfold e. 
  assert (UU : 0 <= unit_roundoff * (unit_roundoff * A) <= / 1024 * (unit_roundoff * A)) by (split; [apply Rmult_le_pos; lra|apply Rmult_le_compat_r; lra]).
  assert (US : 0 <= unit_roundoff * smallest <= / 1024 * smallest) by (split; [apply Rmult_le_pos; lra|apply Rmult_le_compat_r; lra]). lra.
Qed.

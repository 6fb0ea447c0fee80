(** Index computations in floats: they stay inside the arrays; the window strays by the rounding errors only. *)
From Coq Require Import ZArith Reals List Bool Lia Lra.
From Flocq Require Import Core BinarySingleNaN.
From Verif.Base Require Import Float64.
From Verif.Model Require Import Rounding64.
From Verif.Spec Require Import ReadoutSpec.
From Verif.Proofs Require Import ReadoutProofs.
Import ListNotations.
Open Scope R_scope.

(** Rounding of numbers below 2^e moves them by at most 2^(e-54). *)
Lemma rnd_abs x e : (-1000 <= e)%Z -> Rabs x < bpow radix2 e -> Rabs (rnd64 x - x) <= bpow radix2 (e - 54).
Proof.
  intros He Hx. destruct (Req_dec x 0) as [->|N]. { rewrite rnd_0, Rminus_0_r, Rabs_R0. apply bpow_ge_0. }
  pose proof (error_le_half_ulp radix2 (SpecFloat.fexp 53 1024) (fun x => negb (Z.even x)) x) as H. unfold rnd64.
  eapply Rle_trans; [exact H|]. rewrite ulp_neq_0 by auto. unfold cexp. rewrite fexp_FLT. unfold FLT_exp.
  pose proof (mag_le_bpow radix2 x e N Hx) as M.
  apply Rle_trans with (/ 2 * bpow radix2 (e - 53)); [apply Rmult_le_compat_l; [lra|apply bpow_le'; lia]|].
  replace (e - 53)%Z with (1 + (e - 54))%Z by lia. rewrite bpow_plus. change (bpow radix2 1) with 2. lra.
Qed.
Lemma rnd_abs' x e : (-1000 <= e)%Z -> Rabs x < bpow radix2 e -> x - bpow radix2 (e - 54) <= rnd64 x <= x + bpow radix2 (e - 54).
Proof. intros He Hx. pose proof (rnd_abs x e He Hx) as H. apply Rabs_le_inv in H. lra. Qed.
Lemma rep_bpow e : (-1074 <= e)%Z -> rep64 (bpow radix2 e).
Proof. intro H. rewrite <- (Rmult_1_l (bpow radix2 e)). apply (rep_F2R 1); lia. Qed.
Lemma rnd_opp x : rnd64 (- x) = - rnd64 x.
Proof. unfold rnd64. apply round_NE_opp. Qed.
Lemma int_of_Z x n : is_finite x = true -> B2R x = IZR n -> int64 x = Some n.
Proof.
  intros F E. unfold int64. rewrite F. f_equal. apply eq_IZR. rewrite (Btrunc_correct 53 1024 emax64). rewrite E.
  unfold round, F2R, scaled_mantissa, cexp, FIX_exp. cbn [Fnum Fexp]. change (bpow radix2 (- 0)) with 1. change (bpow radix2 0) with 1. rewrite !Rmult_1_r, Ztrunc_IZR. reflexivity.
Qed.
Lemma int_unique x n : is_finite x = true -> 0 <= B2R x -> IZR n <= B2R x < IZR n + 1 -> int64 x = Some n.
Proof.
  intros F P B. destruct (int_correct x F P) as (m & E & Bm & _). rewrite E. f_equal. apply Z.le_antisymm; apply (int_le _ _ (B2R x) (B2R x)); lra.
Qed.

(** ** Interpolation *)
Lemma tiny : is_finite (dec64 1 (10 ^ 9)) = true /\ 17 * bpow radix2 (-34) <= B2R (dec64 1 (10 ^ 9)) <= / 2.
Proof.
  destruct (nearest_div 1 (10 ^ 9) ltac:(lia) ltac:(lia)) as [F E]. split; [exact F|]. change (dec64 1 (10 ^ 9)) with (div64 (ofZ64 1) (ofZ64 (10 ^ 9))). rewrite E. split.
  - rewrite <- (rnd_rep (17 * bpow radix2 (-34))) by (apply (rep_F2R 17); lia). apply rnd_le. cbn. lra.
  - rewrite <- (rnd_rep (/ 2)); [apply rnd_le; cbn; lra|]. replace (/ 2) with (IZR 1 / 2) by lra. apply rep_half. lia.
Qed.
Lemma clamped_index k : (1 <= k <= 2 ^ 24)%Z ->
  is_finite (sub64 (ofZ64 k) (dec64 1 (10 ^ 9))) = true /\ IZR (k - 1) <= B2R (sub64 (ofZ64 k) (dec64 1 (10 ^ 9))) < IZR k.
Proof.
  intro Hk. destruct tiny as [Ft Bt]. destruct (ofZ_correct k) as [Fk Ek]; [lia|]. set (t := dec64 1 (10 ^ 9)) in *.
  assert (K1 : 1 <= IZR k) by (apply IZR_le; lia). assert (K2 : IZR k <= bpow radix2 24) by (rewrite <- IZR_two by lia; apply IZR_le; lia).
  pose proof (bpow_pos (-34)). destruct (sub_correct (ofZ64 k) t Fk Ft) as [Fs Es].
  { rewrite Ek. rewrite Rabs_pos_eq by lra. apply Rle_trans with (bpow radix2 24); [lra|apply bpow_le'; lia]. }
  split; [exact Fs|]. rewrite Es, Ek. split.
  - rewrite <- (rnd_rep (IZR (k - 1))) by (apply rep_Z; lia). apply rnd_le. rewrite minus_IZR. lra.
  - pose proof (rnd_abs' (IZR k - B2R t) 24 ltac:(lia)) as A. rewrite Rabs_pos_eq in A by lra. specialize (A ltac:(lra)).
    change (24 - 54)%Z with (-30)%Z in A. assert (X : bpow radix2 (-30) = 16 * bpow radix2 (-34)) by (cbn; lra). rewrite X in A. lra.
Qed.
Lemma interp_inside n x : (2 <= n <= 2 ^ 24 + 1)%Z -> is_finite x = true -> 0 <= B2R x ->
  exists i, interp_index64 n x = Some i /\ (0 <= i <= n - 2)%Z.
Proof.
  intros Hn F P. unfold interp_index64, clamp64. destruct (ofZ_correct (n - 1)) as [Fk Ek]; [lia|]. destruct (ge64 x (ofZ64 (n - 1))) eqn:G.
  - destruct (clamped_index (n - 1) ltac:(lia)) as [Fs Bs]. set (y := sub64 _ _) in *. replace (n - 1 - 1)%Z with (n - 2)%Z in Bs by lia. rewrite minus_IZR in Bs. rewrite minus_IZR in Bs.
    exists (n - 2)%Z. split; [|lia]. apply int_unique; auto.
    + apply Rle_trans with (IZR n - 2); [|lra]. rewrite <- minus_IZR. apply IZR_le. lia.
    + rewrite minus_IZR. lra.
  - destruct (int_correct x F P) as (i & E & B & I0). exists i. split; auto. split; auto.
    assert (L : B2R x < IZR (n - 1)). { apply Rnot_le_lt. intro H. rewrite <- Ek in H. apply (ge_correct x (ofZ64 (n - 1))) in H; auto. congruence. }
    assert (i < n - 1)%Z by (apply lt_IZR; lra). lia.
Qed.

(** Clipping to n - c, with c a little more than 1. *)
Lemma clip_inside n c x : (2 <= n <= 2 ^ 24)%Z -> is_finite c = true -> 1 + 17 * bpow radix2 (-34) <= B2R c <= 2 -> is_finite x = true ->
  exists i, int64 (clip64 n c x) = Some i /\ (0 <= i <= n - 2)%Z.
Proof.
  intros Hn Fc Bc Fx. destruct (ofZ_correct n ltac:(lia)) as [Fn En]. destruct (ofZ_correct 0 ltac:(lia)) as [F0 E0]. pose proof (bpow_pos (-34)).
  assert (N1 : 2 <= IZR n) by (apply IZR_le; lia). assert (N2 : IZR n <= bpow radix2 24) by (rewrite <- IZR_two by lia; apply IZR_le; lia).
  destruct (sub_correct (ofZ64 n) c Fn Fc) as [Fh Eh]. { rewrite En, Rabs_pos_eq by lra. apply Rle_trans with (bpow radix2 24); [lra|apply bpow_le'; lia]. }
  unfold clip64. set (hi := sub64 (ofZ64 n) c) in *. rewrite En in Eh.
  assert (H0 : 0 <= B2R hi) by (rewrite Eh; apply rnd_nonneg; lra).
  assert (H1 : B2R hi < IZR (n - 1)).
  { pose proof (rnd_abs' (IZR n - B2R c) 24 ltac:(lia)) as A. rewrite Rabs_pos_eq in A by lra. specialize (A ltac:(lra)). change (24 - 54)%Z with (-30)%Z in A.
    assert (X : bpow radix2 (-30) = 16 * bpow radix2 (-34)) by (cbn; lra). rewrite X in A. rewrite Eh, minus_IZR. lra. }
  set (y := if lt64 x (ofZ64 0) then ofZ64 0 else x). assert (Y : is_finite y = true /\ 0 <= B2R y).
  { unfold y. destruct (lt64 x (ofZ64 0)) eqn:L; [split; [auto|lra]|]. split; auto. apply Rnot_lt_le. intro C. rewrite <- E0 in C. apply (lt_correct x (ofZ64 0)) in C; auto. congruence. }
  destruct Y as [Fy By]. assert (Z : exists z, (if lt64 hi y then hi else y) = z /\ is_finite z = true /\ 0 <= B2R z /\ B2R z < IZR (n - 1)).
  { destruct (lt64 hi y) eqn:L; [exists hi; auto|]. exists y. split; auto. split; auto. split; auto. apply Rle_lt_trans with (B2R hi); auto. apply Rnot_lt_le. intro C. apply (lt_correct hi y) in C; auto. congruence. }
  destruct Z as (z & -> & Fz & Bz & Uz). destruct (int_correct z Fz Bz) as (i & E & B & I0). exists i. split; auto. split; auto. assert (i < n - 1)%Z by (apply lt_IZR; lra). lia.
Qed.
Lemma los_inside n x : (2 <= n <= 2 ^ 24)%Z -> is_finite x = true -> exists i, los_index64 n x = Some i /\ (0 <= i <= n - 2)%Z.
Proof.
  intros Hn F. destruct (nearest_div 1000000001 (10 ^ 9) ltac:(lia) ltac:(lia)) as [Fc Ec]. apply clip_inside; auto. unfold dec64. rewrite Ec. split.
  - replace (1 + 17 * bpow radix2 (-34)) with (IZR (2 ^ 34 + 17) * bpow radix2 (-34)) by (cbn; lra). rewrite <- (rnd_rep (IZR (2 ^ 34 + 17) * bpow radix2 (-34))) by (apply rep_F2R; lia). apply rnd_le. cbn. lra.
  - rewrite <- (rnd_rep 2) by (apply (rep_Z 2); lia). apply rnd_le. cbn. lra.
Qed.
Lemma sci_inside n x : (2 <= n <= 2 ^ 24)%Z -> is_finite x = true -> exists i, sci_index64 n x = Some i /\ (0 <= i <= n - 2)%Z.
Proof.
  intros Hn F. destruct (nearest_div 100001 (10 ^ 5) ltac:(lia) ltac:(lia)) as [Fc Ec]. apply clip_inside; auto. unfold dec64. rewrite Ec. split.
  - replace (1 + 17 * bpow radix2 (-34)) with (IZR (2 ^ 34 + 17) * bpow radix2 (-34)) by (cbn; lra). rewrite <- (rnd_rep (IZR (2 ^ 34 + 17) * bpow radix2 (-34))) by (apply rep_F2R; lia). apply rnd_le. cbn. lra.
  - rewrite <- (rnd_rep 2) by (apply (rep_Z 2); lia). apply rnd_le. cbn. lra.
Qed.

(** ** Zoom *)
Lemma prec32 : Prec_gt_0 24. Proof. reflexivity. Qed.
Lemma f32_correct k : (0 <= k <= 2 ^ 24)%Z -> is_finite (f32_of_Z k) = true /\ B2R (f32_of_Z k) = IZR k.
Proof.
  intro Hk. unfold f32_of_Z.
  assert (Rep : generic_format radix2 (SpecFloat.fexp 24 128) (IZR k)).
  { change (SpecFloat.fexp 24 128) with (FLT_exp (-149) 24). destruct (Z.eq_dec k (2 ^ 24)) as [->|N].
    - rewrite IZR_two by lia. apply generic_format_bpow. unfold FLT_exp. lia.
    - apply generic_format_FLT. apply (FLT_spec radix2 (-149) 24 _ (Float radix2 k 0)); cbn; try lia. unfold F2R. cbn. lra. }
  pose proof (@binary_normalize_correct 24 128 eq_refl eq_refl mode_NE k 0 false) as C. cbn zeta in C. unfold F2R in C. cbn [Fnum Fexp] in C.
  change (bpow radix2 0) with 1 in C. rewrite Rmult_1_r in C.
  assert (V : Valid_exp (SpecFloat.fexp 24 128)) by (change (SpecFloat.fexp 24 128) with (FLT_exp (-149) 24); apply FLT_exp_valid; reflexivity).
  rewrite (round_generic radix2 (SpecFloat.fexp 24 128) _ (IZR k) Rep) in C.
  assert (K2 : IZR k <= bpow radix2 24) by (rewrite <- IZR_two by lia; apply IZR_le; lia). assert (K0 : 0 <= IZR k) by (apply IZR_le; lia).
  rewrite Rlt_bool_true in C by (rewrite Rabs_pos_eq by auto; apply Rle_lt_trans with (bpow radix2 24); auto; apply bpow_lt; lia).
  destruct C as (C1 & C2 & _). destruct (binary_normalize 24 128 eq_refl eq_refl mode_NE k 0 false) as [s|s| |s m e B]; cbn in C1, C2; try discriminate.
  - destruct (ofZ_correct 0) as [F E]; [lia|]. rewrite <- C1. split; [exact F|exact E].
  - assert (X : IZR (SpecFloat.cond_Zopp s (Z.pos m)) * bpow radix2 e = IZR k) by (rewrite <- C1; reflexivity).
    destruct (lit_correct (SpecFloat.cond_Zopp s (Z.pos m)) e) as [F E].
    + rewrite X, Rabs_pos_eq by auto. apply Rle_trans with (bpow radix2 24); auto. apply bpow_le'. lia.
    + split; [exact F|]. rewrite E, X. apply rnd_rep. apply rep_Z. lia.
Qed.
Lemma almost_one : is_finite (dec64 99999999 (10 ^ 8)) = true /\ 1 - 11 * bpow radix2 (-30) <= B2R (dec64 99999999 (10 ^ 8)) <= 1 - 10 * bpow radix2 (-30).
Proof.
  destruct (nearest_div 99999999 (10 ^ 8) ltac:(lia) ltac:(lia)) as [F E]. split; [exact F|]. change (dec64 99999999 (10 ^ 8)) with (div64 (ofZ64 99999999) (ofZ64 (10 ^ 8))). rewrite E. split.
  - replace (1 - 11 * bpow radix2 (-30)) with (IZR (2 ^ 30 - 11) * bpow radix2 (-30)) by (cbn; lra).
    rewrite <- (rnd_rep (IZR (2 ^ 30 - 11) * bpow radix2 (-30))) by (apply rep_F2R; lia). apply rnd_le. cbn. lra.
  - replace (1 - 10 * bpow radix2 (-30)) with (IZR (2 ^ 30 - 10) * bpow radix2 (-30)) by (cbn; lra).
    rewrite <- (rnd_rep (IZR (2 ^ 30 - 10) * bpow radix2 (-30))) by (apply rep_F2R; lia). apply rnd_le. cbn. lra.
Qed.
Lemma zoom_inside m n i : (2 <= m <= 2 ^ 24 + 1)%Z -> (0 <= i < n)%Z -> (n <= 2 ^ 24)%Z ->
  exists k, zoom_index64 m n i = Some k /\ (0 <= k <= m - 2)%Z.
Proof.
  intros Hm Hi Hn. unfold zoom_index64, zoom_coord64. destruct (f32_correct (m - 1) ltac:(lia)) as [Ff Ef]. destruct (ofZ_correct i ltac:(lia)) as [Fi Ei].
  destruct (ofZ_correct n ltac:(lia)) as [Fn En]. destruct almost_one as [Fa Ba]. set (a := dec64 _ _) in *. set (k := (m - 1)%Z) in *.
  assert (K1 : 1 <= IZR k) by (apply IZR_le; lia). assert (K2 : IZR k <= bpow radix2 24) by (rewrite <- IZR_two by lia; apply IZR_le; lia).
  assert (I0 : 0 <= IZR i) by (apply IZR_le; lia). assert (I1 : IZR i <= IZR n - 1) by (rewrite <- minus_IZR; apply IZR_le; lia).
  assert (N2 : IZR n <= bpow radix2 24) by (rewrite <- IZR_two by lia; apply IZR_le; lia).
  destruct (mul_correct (ofZ64 i) (f32_of_Z k) Fi Ff) as [Fp Ep].
  { rewrite Ei, Ef, Rabs_pos_eq by (apply Rmult_le_pos; lra). apply Rle_trans with (bpow radix2 24 * bpow radix2 24); [apply Rmult_le_compat; lra|]. rewrite <- bpow_plus. apply bpow_le'. lia. }
  rewrite Ei, Ef, <- mult_IZR, rnd_rep in Ep by (apply rep_Z; nia).
  destruct (sub_correct (ofZ64 n) a Fn Fa) as [Fd Ed].
  { rewrite En, Rabs_pos_eq by (pose proof (bpow_pos (-30)); lra). apply Rle_trans with (bpow radix2 24); [|apply bpow_le'; lia]. assert (bpow radix2 (-30) <= 1 / 100) by (cbn; lra). lra. }
  rewrite En in Ed. pose proof (bpow_pos (-30)) as P30. set (d := B2R (sub64 (ofZ64 n) a)) in *.
  assert (S30 : bpow radix2 (-30) <= 1 / 100) by (cbn; lra).
  assert (D : IZR n - 1 + 9 * bpow radix2 (-30) <= d <= IZR n).
  { pose proof (rnd_abs' (IZR n - B2R a) 24 ltac:(lia)) as A. rewrite Rabs_pos_eq in A by lra. specialize (A ltac:(lra)). change (24 - 54)%Z with (-30)%Z in A. rewrite Ed. lra. }
  assert (D0 : 0 < d) by lra. assert (I : 0 < / d) by (apply Rinv_0_lt_compat; auto).
  assert (Q0 : 0 <= IZR (i * k) / d) by (apply Rmult_le_pos; [apply IZR_le; nia|lra]).
  assert (Q : IZR (i * k) / d <= IZR k * (1 - bpow radix2 (-51))).
  { apply (Rmult_le_reg_r d); auto. unfold Rdiv. rewrite Rmult_assoc, Rinv_l, Rmult_1_r by lra. rewrite mult_IZR, (Rmult_comm (IZR i)), Rmult_assoc. apply Rmult_le_compat_l; [lra|].
    assert (X : bpow radix2 (-51) * d <= bpow radix2 (-27)). { apply Rle_trans with (bpow radix2 (-51) * bpow radix2 24); [apply Rmult_le_compat_l; [left; apply bpow_pos|lra]|]. rewrite <- bpow_plus. apply bpow_le'. lia. }
    assert (X27 : bpow radix2 (-27) = 8 * bpow radix2 (-30)) by (cbn; lra). lra. }
  assert (B51 : bpow radix2 (-51) = 4 * bpow radix2 (-53)) by (change (-51)%Z with (2 + -53)%Z; rewrite bpow_plus; reflexivity). pose proof (bpow_pos (-53)) as P53.
  assert (KB : IZR k * (1 - bpow radix2 (-51)) <= IZR k) by (rewrite <- (Rmult_1_r (IZR k)) at 2; apply Rmult_le_compat_l; lra).
  destruct (div_correct (mul64 (ofZ64 i) (f32_of_Z k)) (sub64 (ofZ64 n) a) Fp) as [Fx Ex].
  { fold d. lra. }
  { fold d. rewrite Ep, Rabs_pos_eq by auto. apply Rle_trans with (bpow radix2 24); [lra|apply bpow_le'; lia]. }
  fold d in Ex. rewrite Ep in Ex.
  assert (U : B2R (div64 (mul64 (ofZ64 i) (f32_of_Z k)) (sub64 (ofZ64 n) a)) < IZR k).
  { rewrite Ex. destruct (Z.eq_dec i 0) as [->|Ni].
    - unfold Rdiv. rewrite Rmult_0_l, rnd_0. lra.
    - pose proof (rnd_error (IZR (i * k) / d)) as Er. rewrite Rabs_pos_eq in Er by auto. rewrite Rabs_minus_sym in Er.
      assert (G : bpow radix2 (-1022) <= IZR (i * k) / d).
      { apply Rle_trans with (1 * / bpow radix2 24).
        - rewrite Rmult_1_l, <- bpow_opp. apply bpow_le'. lia.
        - apply Rmult_le_compat; [lra|left; apply Rinv_0_lt_compat, bpow_pos|apply IZR_le; nia|apply Rinv_le; lra]. }
      specialize (Er G). apply Rabs_le_inv in Er.
      assert (bpow radix2 (-53) * (IZR (i * k) / d) <= bpow radix2 (-53) * IZR k) by (apply Rmult_le_compat_l; lra).
      rewrite B51 in Q. assert (0 < IZR k * bpow radix2 (-53)) by (apply Rmult_lt_0_compat; lra). lra. }
  destruct (int_correct _ Fx) as (z & E & B & Z0). { rewrite Ex. apply rnd_nonneg. auto. }
  exists z. split; auto. split; auto. assert (z < k)%Z by (apply lt_IZR; lra). lia.
Qed.

(** ** Edges of sub-apertures *)
Lemma rint_correct x : is_finite x = true -> rint64 x = Some (ZnearestE (B2R x)).
Proof.
  intro F. unfold rint64. pose proof (@Bnearbyint_correct 53 1024 emax64 mode_NE x) as (E & F' & _). apply int_of_Z.
  - rewrite F'. exact F.
  - rewrite E. unfold round, F2R, scaled_mantissa, cexp, FIX_exp. cbn [Fnum Fexp]. change (bpow radix2 (- 0)) with 1. change (bpow radix2 0) with 1. rewrite !Rmult_1_r. reflexivity.
Qed.
(** The coordinate on line 503 and its distance from the exact one. *)
Lemma spaced P N x : (1 <= N <= P)%Z -> (P <= 2 ^ 20)%Z -> (0 <= x <= N)%Z ->
  is_finite (mul64 (ofZ64 x) (div64 (ofZ64 P) (ofZ64 N))) = true /\ 0 <= B2R (mul64 (ofZ64 x) (div64 (ofZ64 P) (ofZ64 N))) /\
  Rabs (B2R (mul64 (ofZ64 x) (div64 (ofZ64 P) (ofZ64 N))) - IZR x * IZR P / IZR N) <= bpow radix2 (-31) /\
  (N = P -> B2R (mul64 (ofZ64 x) (div64 (ofZ64 P) (ofZ64 N))) = IZR x).
Proof.
  intros HN HP Hx. destruct (nearest_div P N ltac:(lia) ltac:(lia)) as [Fs Es]. set (sp := div64 _ _) in *. destruct (ofZ_correct x ltac:(lia)) as [Fx Ex].
  assert (N1 : 1 <= IZR N) by (apply IZR_le; lia). assert (NP : IZR N <= IZR P) by (apply IZR_le; lia).
  assert (P2 : IZR P <= bpow radix2 20) by (rewrite <- IZR_two by lia; apply IZR_le; lia).
  assert (X0 : 0 <= IZR x) by (apply IZR_le; lia). assert (XN : IZR x <= IZR N) by (apply IZR_le; lia).
  assert (I : 0 < / IZR N) by (apply Rinv_0_lt_compat; lra).
  set (q := IZR P / IZR N) in *. assert (Q1 : 1 <= q). { unfold q. apply (Rmult_le_reg_r (IZR N)); [lra|]. unfold Rdiv. rewrite Rmult_assoc, Rinv_l by lra. lra. }
  assert (XQ : IZR x * q <= IZR P). { unfold q, Rdiv. apply Rle_trans with (IZR N * (IZR P * / IZR N)); [apply Rmult_le_compat_r; [apply Rmult_le_pos; lra|lra]|]. right. field. lra. }
  assert (QP : q <= IZR P). { unfold q, Rdiv. rewrite <- (Rmult_1_r (IZR P)) at 2. apply Rmult_le_compat_l; [lra|]. rewrite <- Rinv_1. apply Rinv_le; lra. }
  assert (E1 : Rabs (B2R sp - q) <= bpow radix2 (-53) * q).
  { rewrite Es. rewrite <- (Rabs_pos_eq q) at 3 by lra. apply rnd_error. rewrite Rabs_pos_eq by lra. apply Rle_trans with 1; auto. change 1 with (bpow radix2 0). apply bpow_le'. lia. }
  pose proof (bpow_pos (-53)) as P53. assert (S53 : bpow radix2 (-53) <= 1 / 100). { apply Rle_trans with (bpow radix2 (-10)); [apply bpow_le'; lia|cbn; lra]. }
  apply Rabs_le_inv in E1. assert (SP0 : 0 <= B2R sp) by nra.
  assert (B : IZR x * B2R sp <= IZR P * (1 + bpow radix2 (-53))). { apply Rle_trans with (IZR x * (q * (1 + bpow radix2 (-53)))); [apply Rmult_le_compat_l; lra|]. rewrite <- Rmult_assoc. apply Rmult_le_compat_r; lra. }
  assert (B0 : 0 <= IZR x * B2R sp) by (apply Rmult_le_pos; lra).
  assert (E2 : Rabs (IZR x * B2R sp - IZR x * q) <= bpow radix2 (-53) * IZR P).
  { apply Rabs_le. rewrite <- Rmult_minus_distr_l. assert (IZR x * (bpow radix2 (-53) * q) <= bpow radix2 (-53) * IZR P) by (rewrite <- Rmult_assoc, (Rmult_comm (IZR x)), Rmult_assoc; apply Rmult_le_compat_l; lra). split; nra. }
  assert (B21 : bpow radix2 21 = 2 * bpow radix2 20) by (cbn; lra).
  destruct (mul_correct (ofZ64 x) sp Fx Fs) as [Fm Em].
  { rewrite Ex, Rabs_pos_eq by auto. apply Rle_trans with (bpow radix2 21); [nra|apply bpow_le'; lia]. }
  rewrite Ex in Em. split; [exact Fm|]. split; [rewrite Em; apply rnd_nonneg; auto|]. rewrite Em. split.
  - pose proof (rnd_abs (IZR x * B2R sp) 21 ltac:(lia)) as E3. rewrite Rabs_pos_eq in E3 by auto. specialize (E3 ltac:(nra)). change (21 - 54)%Z with (-33)%Z in E3.
    apply Rabs_le_inv in E3. apply Rabs_le_inv in E2. replace (IZR x * IZR P / IZR N) with (IZR x * q) by (unfold q, Rdiv; ring).
    assert (bpow radix2 (-53) * IZR P <= bpow radix2 (-33)). { apply Rle_trans with (bpow radix2 (-53) * bpow radix2 20); [apply Rmult_le_compat_l; lra|]. rewrite <- bpow_plus. apply bpow_le'. lia. }
    assert (bpow radix2 (-31) = 4 * bpow radix2 (-33)) by (cbn; lra). apply Rabs_le. pose proof (bpow_pos (-33)). lra.
  - intro D. assert (q = 1) by (unfold q; rewrite D; field; apply IZR_neq; lia). rewrite Es, H. rewrite (rnd_rep 1) by (apply (rep_Z 1); lia). rewrite Rmult_1_r. apply rnd_rep, rep_Z. lia.
Qed.
Lemma near_half x : Rabs (IZR (ZnearestE x) - x) <= / 2.
Proof. rewrite Rabs_minus_sym. apply Znearest_half. Qed.
Lemma edges P N : (1 <= N <= P)%Z -> (P <= 2 ^ 20)%Z -> exists e : Z -> Z,
  (forall x, (0 <= x <= N)%Z -> edge64 P N x = Some (e x)) /\ e 0%Z = 0%Z /\ e N = P /\
  (forall x, (0 <= x < N)%Z -> (e x < e (x + 1))%Z) /\
  (forall x, (0 <= x <= N)%Z -> Rabs (IZR (e x) - IZR x * IZR P / IZR N) <= / 2 + bpow radix2 (-31)).
Proof.
  intros HN HP. set (q x := B2R (mul64 (ofZ64 x) (div64 (ofZ64 P) (ofZ64 N)))). exists (fun x => ZnearestE (q x)).
  assert (N1 : 1 <= IZR N) by (apply IZR_le; lia). assert (S31 : bpow radix2 (-31) <= 1 / 100) by (cbn; lra).
  assert (Q0 : q 0%Z = 0).
  { unfold q. destruct (nearest_div P N ltac:(lia) ltac:(lia)) as [Fs Es]. set (sp := div64 _ _) in *. destruct (ofZ_correct 0 ltac:(lia)) as [F E]. destruct (mul_correct (ofZ64 0) sp F Fs) as [_ Em].
    - rewrite E, Rmult_0_l, Rabs_R0. apply bpow_ge_0.
    - rewrite Em, E, Rmult_0_l. apply rnd_0. }
  split; [|split; [|split; [|split]]].
  - intros x Hx. unfold edge64. apply rint_correct. apply spaced; auto.
  - rewrite Q0. apply (Zrnd_IZR ZnearestE 0).
  - destruct (spaced P N N HN HP ltac:(lia)) as (_ & _ & A & _). fold (q N) in A. apply Znearest_imp. replace (IZR N * IZR P / IZR N) with (IZR P) in A by (field; lra). lra.
  - intros x Hx. destruct (spaced P N x HN HP ltac:(lia)) as (_ & _ & A & A1). destruct (spaced P N (x + 1) HN HP ltac:(lia)) as (_ & _ & B & B1). fold (q x) in A, A1. fold (q (x + 1)%Z) in B, B1.
    destruct (Z.eq_dec N P) as [D|D].
    + rewrite A1, B1 by auto. rewrite !Zrnd_IZR by (apply valid_rnd_N). lia.
    + pose proof (near_half (q x)) as H1. pose proof (near_half (q (x + 1)%Z)) as H2. apply Rabs_le_inv in A, B, H1, H2. apply lt_IZR.
      rewrite plus_IZR in B. assert (G : 1 + bpow radix2 (-20) <= IZR P / IZR N).
      { apply (Rmult_le_reg_r (IZR N)); [lra|]. unfold Rdiv. rewrite Rmult_assoc, Rinv_l, Rmult_1_r by lra. assert (NP : IZR N + 1 <= IZR P) by (rewrite <- plus_IZR; apply IZR_le; lia).
        assert (IZR N <= bpow radix2 20) by (rewrite <- IZR_two by lia; apply IZR_le; lia).
        assert (bpow radix2 (-20) * IZR N <= 1). { apply Rle_trans with (bpow radix2 (-20) * bpow radix2 20); [apply Rmult_le_compat_l; [apply bpow_ge_0|lra]|]. rewrite <- bpow_plus. right. reflexivity. }
        lra. }
      replace ((IZR x + 1) * IZR P / IZR N) with (IZR x * IZR P / IZR N + IZR P / IZR N) in B by (field; lra).
      assert (bpow radix2 (-20) = 2048 * bpow radix2 (-31)) by (cbn; lra). pose proof (bpow_pos (-31)). lra.
  - intros x Hx. destruct (spaced P N x HN HP Hx) as (_ & _ & A & _). fold (q x) in A. pose proof (near_half (q x)) as H. apply Rabs_le_inv in A, H. apply Rabs_le. lra.
Qed.
Lemma between (e : Z -> Z) N p : (1 <= N)%Z -> (forall x, (0 <= x < N)%Z -> (e x < e (x + 1))%Z) -> (e 0 <= p < e N)%Z -> exists x, (0 <= x < N)%Z /\ (e x <= p < e (x + 1))%Z.
Proof.
  intro HN. revert p. revert N HN. refine (Zlt_lower_bound_ind _ 1 _). intros N IH HN p He Hp. destruct (Z_lt_ge_dec p (e (N - 1)%Z)) as [L|G].
  - destruct (Z.eq_dec N 1) as [->|D]; [cbn in L; lia|]. destruct (IH (N - 1)%Z ltac:(lia) p) as (x & Hx & E); [|lia|]. { intros x Hx. apply He. lia. } exists x. split; [lia|auto].
  - exists (N - 1)%Z. replace (N - 1 + 1)%Z with N by lia. lia.
Qed.
Lemma increasing (e : Z -> Z) N : (forall x, (0 <= x < N)%Z -> (e x < e (x + 1))%Z) -> forall d, (0 <= d)%Z -> forall x, (0 <= x)%Z -> (x + d <= N)%Z -> (e x <= e (x + d))%Z.
Proof.
  intros He d Hd. pattern d. apply natlike_ind; auto; clear d Hd.
  - intros x H0 H. replace (x + 0)%Z with x by lia. lia.
  - intros d Hd IH x H0 H. specialize (IH x H0 ltac:(lia)). specialize (He (x + d)%Z ltac:(lia)). replace (x + Z.succ d)%Z with (x + d + 1)%Z by lia. lia.
Qed.
Lemma one_cell P N p : (1 <= N <= P)%Z -> (P <= 2 ^ 20)%Z -> (0 <= p < P)%Z ->
  exists! x, (0 <= x < N)%Z /\ exists a b, edge64 P N x = Some a /\ edge64 P N (x + 1) = Some b /\ (a <= p < b)%Z.
Proof.
  intros HN HP Hp. destruct (edges P N HN HP) as (e & E & E0 & EN & I & _). destruct (between e N p ltac:(lia) I ltac:(lia)) as (x & Hx & B). exists x. split.
  - split; auto. exists (e x), (e (x + 1)%Z). rewrite !E by lia. auto.
  - intros y (Hy & a & b & A1 & A2 & By). rewrite E in A1, A2 by lia. injection A1 as A1. injection A2 as A2. subst a b.
    destruct (Z.lt_trichotomy x y) as [L|[L|L]]; auto; exfalso.
    + pose proof (increasing e N I (y - (x + 1))%Z ltac:(lia) (x + 1)%Z ltac:(lia) ltac:(lia)) as M. replace (x + 1 + (y - (x + 1)))%Z with y in M by lia. lia.
    + pose proof (increasing e N I (x - (y + 1))%Z ltac:(lia) (y + 1)%Z ltac:(lia) ltac:(lia)) as M. replace (y + 1 + (x - (y + 1)))%Z with x in M by lia. lia.
Qed.
(** The truncated coordinate. *)
Lemma coord P N x : (1 <= N <= P)%Z -> (P <= 2 ^ 20)%Z -> (0 <= x <= N)%Z -> exists c, coord64 P N x = Some c /\
  (c = x * P / N \/ (c = x * P / N - 1 /\ (N | x * P)))%Z.
Proof.
  intros HN HP Hx. destruct (spaced P N x HN HP Hx) as (F & Q0 & A & _). unfold coord64. set (y := mul64 _ _) in *. destruct (int_correct y F Q0) as (c & E & B & C0). exists c. split; auto.
  apply Rabs_le_inv in A. assert (N1 : 1 <= IZR N) by (apply IZR_le; lia). pose proof (Z.div_mod (x * P) N ltac:(lia)) as DM. pose proof (Z.mod_pos_bound (x * P) N ltac:(lia)) as MB.
  set (f := (x * P / N)%Z) in *. set (r := ((x * P) mod N)%Z) in *.
  assert (V : IZR x * IZR P / IZR N = IZR f + IZR r / IZR N). { rewrite <- mult_IZR, DM, plus_IZR, mult_IZR. field. lra. }
  assert (S31 : bpow radix2 (-31) <= 1 / 100) by (cbn; lra). assert (I : 0 < / IZR N) by (apply Rinv_0_lt_compat; lra).
  assert (R0 : 0 <= IZR r / IZR N) by (apply Rmult_le_pos; [apply IZR_le; lia|lra]).
  assert (D : bpow radix2 (-20) <= / IZR N). { change (-20)%Z with (- (20))%Z. rewrite bpow_opp. apply Rinv_le; [lra|]. rewrite <- IZR_two by lia. apply IZR_le. lia. }
  assert (X : bpow radix2 (-20) = 2048 * bpow radix2 (-31)) by (cbn; lra). pose proof (bpow_pos (-31)) as P31.
  assert (R1 : IZR r / IZR N <= 1 - / IZR N). { replace (1 - / IZR N) with ((IZR N - 1) / IZR N) by (field; lra). apply Rmult_le_compat_r; [lra|]. rewrite <- minus_IZR. apply IZR_le. lia. }
  assert (U : (c < f + 1)%Z) by (apply lt_IZR; rewrite plus_IZR; lra). destruct (Z.eq_dec r 0) as [Z0|Z0].
  - assert (L : (f - 1 <= c)%Z). { apply Z.lt_pred_le. apply lt_IZR. unfold Z.pred. rewrite plus_IZR, minus_IZR. lra. }
    assert (Dv : (N | x * P)%Z) by (exists f; lia). assert (c = f \/ c = f - 1)%Z as [->| ->] by lia; [left|right]; auto.
  - left. assert (R2 : / IZR N <= IZR r / IZR N). { rewrite <- (Rmult_1_l (/ IZR N)). apply Rmult_le_compat_r; [lra|]. apply IZR_le. lia. }
    assert (f < c + 1)%Z by (apply lt_IZR; rewrite plus_IZR; lra). lia.
Qed.

(** ** The window on a moving screen *)
(** [u]: how far the coordinate may be from the window's position. *)
Definition tracks (W s j : Z) (u : R) (w : win64) : Prop :=
  is_finite (wn_pos w) = true /\ is_finite (wn_x w) = true /\ 0 <= B2R (wn_pos w) <= IZR (W - s) /\ Rabs (B2R (wn_x w) - B2R (wn_pos w) - IZR j) <= u.
Section Window.
Context (W s j e : Z) (Hs : (1 <= s <= W)%Z) (Hj : (0 <= j < s)%Z) (He : (0 <= e <= 50)%Z) (HW : (W <= 2 ^ e)%Z).
Lemma W53 : (W <= 2 ^ 50)%Z.
Proof. eapply Z.le_trans; [exact HW|]. apply Z.pow_le_mono_r; lia. Qed.
Lemma at_tracks u far : 0 <= u -> tracks W s j u (win_at64 W s j far).
Proof.
  intro U. pose proof W53. unfold win_at64, tracks. cbn [wn_pos wn_x]. assert (exists p, (0 <= p <= W - s)%Z /\ (if far then ofZ64 (W - s) else ofZ64 0) = ofZ64 p) as (p & Hp & ->).
  { destruct far; [exists (W - s)%Z|exists 0%Z]; split; auto; lia. }
  destruct (ofZ_correct p ltac:(lia)) as [Fp Ep]. destruct (ofZ_correct j ltac:(lia)) as [Fj Ej].
  assert (X : rnd64 (IZR j + IZR p) = IZR j + IZR p) by (rewrite <- plus_IZR; apply rnd_rep, rep_Z; lia).
  destruct (add_correct (ofZ64 j) (ofZ64 p) Fj Fp) as [Fa Ea].
  { rewrite Ej, Ep, <- plus_IZR, Rabs_pos_eq by (apply IZR_le; lia). apply Rle_trans with (bpow radix2 51); [rewrite <- IZR_two by lia; apply IZR_le; lia|apply bpow_le'; lia]. }
  rewrite Ea, Ej, Ep, X. split; auto. split; auto. split; [split; apply IZR_le; lia|]. replace (IZR j + IZR p - IZR p - IZR j) with 0 by ring. rewrite Rabs_R0. auto.
Qed.
Lemma reset_tracks u : 0 <= u -> tracks W s j u (mkWin (ofZ64 0) (ofZ64 j)).
Proof.
  intro U. pose proof W53. unfold tracks. cbn [wn_pos wn_x]. destruct (ofZ_correct 0 ltac:(lia)) as [Fp Ep]. destruct (ofZ_correct j ltac:(lia)) as [Fj Ej]. rewrite Ep, Ej.
  split; auto. split; auto. split; [split; apply IZR_le; lia|]. replace (IZR j - 0 - IZR j) with 0 by ring. rewrite Rabs_R0. auto.
Qed.
(** After the check: the window was put at an end, or it is the window there was, which lies within the screen. *)
Lemma check_cases w : is_finite (wn_pos w) = true -> Rabs (B2R (wn_pos w)) <= bpow radix2 999 ->
  win_check64 W s j w = mkWin (ofZ64 0) (ofZ64 j) \/ win_check64 W s j w = win_at64 W s j true \/
  (win_check64 W s j w = w /\ 0 <= B2R (wn_pos w) < IZR (W - s)).
Proof.
  intros F B. pose proof W53. unfold win_check64. destruct (ofZ_correct s ltac:(lia)) as [Fs Es]. destruct (ofZ_correct W ltac:(lia)) as [FW EW]. destruct (ofZ_correct 0 ltac:(lia)) as [F0 E0].
  destruct (add_correct (wn_pos w) (ofZ64 s) F Fs) as [Fa Ea].
  { rewrite Es. eapply Rle_trans; [apply Rabs_triang|]. rewrite (Rabs_pos_eq (IZR s)) by (apply IZR_le; lia). assert (IZR s <= bpow radix2 50) by (rewrite <- IZR_two by lia; apply IZR_le; lia).
    assert (bpow radix2 50 <= bpow radix2 999) by (apply bpow_le'; lia). change 1000%Z with (1 + 999)%Z. rewrite (bpow_plus radix2 1). change (bpow radix2 1) with 2. lra. }
  destruct (ge64 _ _) eqn:G.
  - left. cbn [wn_pos]. destruct (lt64 (ofZ64 0) (ofZ64 0)) eqn:L; auto. apply lt_correct in L; auto. lra.
  - right. destruct (lt64 (wn_pos w) (ofZ64 0)) eqn:L; [left; auto|]. right. split; auto. split.
    + apply Rnot_lt_le. intro H'. rewrite <- E0 in H'. apply (lt_correct (wn_pos w) (ofZ64 0)) in H'; auto. congruence.
    + apply Rnot_le_lt. intro H'. rewrite minus_IZR in H'. assert (X : ge64 (add64 (wn_pos w) (ofZ64 s)) (ofZ64 W) = true); [|congruence]. apply ge_correct; auto. rewrite Ea, Es, EW.
      rewrite <- (rnd_rep (IZR W)) by (apply rep_Z; lia). apply rnd_le. lra.
Qed.
Definition drift (n : nat) : R := INR n * bpow radix2 (e - 52).
Lemma drift_S n : drift (S n) = drift n + bpow radix2 (e - 52).
Proof. unfold drift. rewrite S_INR. ring. Qed.
Lemma drift_nonneg n : 0 <= drift n.
Proof. apply Rmult_le_pos; [apply pos_INR|apply bpow_ge_0]. Qed.
Lemma drift_small n : (Z.of_nat n <= 2 ^ 40)%Z -> drift n <= bpow radix2 (e - 12).
Proof.
  intro H. unfold drift. replace (e - 12)%Z with (40 + (e - 52))%Z by lia. rewrite bpow_plus. apply Rmult_le_compat_r; [apply bpow_ge_0|]. rewrite INR_IZR_INZ, <- IZR_two by lia. apply IZR_le. auto.
Qed.
Context (v : b64) (Fv : is_finite v = true) (Bv : Rabs (B2R v) <= bpow radix2 900).
Lemma step_tracks n w : (Z.of_nat n <= 2 ^ 40)%Z -> tracks W s j (drift n) w -> tracks W s j (drift (S n)) (win_check64 W s j (win_move64 v w)).
Proof.
  intros Hn (Fp & Fx & Bp & Bx). pose proof W53. pose proof (drift_nonneg (S n)) as U.
  assert (We : IZR W <= bpow radix2 e) by (rewrite <- IZR_two by lia; apply IZR_le; auto).
  assert (S1 : 1 <= IZR s) by (apply IZR_le; lia). assert (SW : IZR s <= IZR W) by (apply IZR_le; lia).
  assert (J0 : 0 <= IZR j) by (apply IZR_le; lia). assert (JS : IZR j <= IZR s - 1) by (rewrite <- minus_IZR; apply IZR_le; lia).
  rewrite minus_IZR in Bp. apply Rabs_le_inv in Bx, Bv. pose proof (drift_small n Hn) as D. pose proof (drift_nonneg n) as D0.
  pose proof (bpow_pos e) as Pe. assert (E12 : bpow radix2 (e - 12) <= bpow radix2 e / 4).
  { replace e with (2 + (e - 2))%Z at 2 by lia. rewrite bpow_plus. change (bpow radix2 2) with 4. assert (bpow radix2 (e - 12) <= bpow radix2 (e - 2)) by (apply bpow_le'; lia). lra. }
  assert (E50 : bpow radix2 e <= bpow radix2 50) by (apply bpow_le'; lia).
  assert (E900 : bpow radix2 50 <= bpow radix2 900) by (apply bpow_le'; lia).
  assert (E903 : 8 * bpow radix2 900 <= bpow radix2 999). { change 8 with (bpow radix2 3). rewrite <- bpow_plus. apply bpow_le'. lia. }
  assert (E1000 : bpow radix2 999 <= bpow radix2 1000) by (apply bpow_le'; lia).
  destruct (add_correct (wn_pos w) v Fp Fv) as [Fp' Ep']. { apply Rabs_le. lra. }
  destruct (add_correct (wn_x w) v Fx Fv) as [Fx' Ex']. { apply Rabs_le. lra. }
  destruct (check_cases (win_move64 v w)) as [-> |[-> |(-> & B)]].
  - exact Fp'.
  - cbn [win_move64 wn_pos]. rewrite Ep'. assert (R : rep64 (8 * bpow radix2 900)) by (apply (rep_F2R 8); lia).
    assert (bpow radix2 900 > 0) by (apply bpow_pos).
    apply Rabs_le. split.
    + apply Rle_trans with (- (8 * bpow radix2 900)); [lra|]. rewrite <- (rnd_rep (8 * bpow radix2 900)) by auto. rewrite <- rnd_opp. apply rnd_le. lra.
    + apply Rle_trans with (8 * bpow radix2 900); [|lra]. rewrite <- (rnd_rep (8 * bpow radix2 900)) by auto. apply rnd_le. lra.
  - apply reset_tracks; auto.
  - apply at_tracks; auto.
  - cbn [win_move64 wn_pos] in B. unfold tracks, win_move64. cbn [wn_pos wn_x]. split; auto. split; auto. rewrite minus_IZR in *. split; [lra|]. rewrite Ep', Ex' in *.
    assert (E1 : bpow radix2 (e + 1) = 2 * bpow radix2 e) by (rewrite bpow_plus; change (bpow radix2 1) with 2; ring).
    assert (Q : rep64 (bpow radix2 (e + 1))) by (apply rep_bpow; lia).
    assert (V1 : B2R (wn_pos w) + B2R v < bpow radix2 (e + 1)).
    { apply Rnot_le_lt. intro C. apply rnd_le in C. rewrite (rnd_rep (bpow radix2 (e + 1))) in C by auto. lra. }
    assert (V2 : - bpow radix2 (e + 1) < B2R (wn_pos w) + B2R v).
    { apply Rnot_le_lt. intro C. apply rnd_le in C. rewrite rnd_opp, (rnd_rep (bpow radix2 (e + 1))) in C by auto. lra. }
    pose proof (rnd_abs' (B2R (wn_pos w) + B2R v) (e + 1) ltac:(lia)) as A. specialize (A ltac:(apply Rabs_def1; lra)). replace (e + 1 - 54)%Z with (e - 53)%Z in A by lia.
    assert (E53 : bpow radix2 (e - 53) <= bpow radix2 (e - 12)) by (apply bpow_le'; lia).
    assert (V3 : Rabs (B2R (wn_x w) + B2R v) < bpow radix2 (e + 1)) by (apply Rabs_def1; lra).
    pose proof (rnd_abs' (B2R (wn_x w) + B2R v) (e + 1) ltac:(lia) V3) as A'. replace (e + 1 - 54)%Z with (e - 53)%Z in A' by lia.
    rewrite drift_S. assert (E52 : bpow radix2 (e - 52) = 2 * bpow radix2 (e - 53)). { replace (e - 52)%Z with (1 + (e - 53))%Z by lia. rewrite bpow_plus. reflexivity. }
    apply Rabs_le. lra.
Qed.
Lemma window_tracks n : (Z.of_nat n <= 2 ^ 40)%Z -> tracks W s j (drift n) (win_frame64 W s j v n).
Proof.
  unfold win_frame64. induction n as [|n IH]; intro H.
  - cbn [win_before64]. unfold win_start64. pose proof (at_tracks (drift 0) (lt64 v (ofZ64 0)) (drift_nonneg 0)) as T. destruct (at_tracks (drift 0) (lt64 v (ofZ64 0)) (drift_nonneg 0)) as (F & _ & B & _).
    destruct (check_cases (win_at64 W s j (lt64 v (ofZ64 0))) F) as [-> |[-> |(-> & _)]]; auto.
    + assert (IZR (W - s) <= bpow radix2 50) by (rewrite <- IZR_two by lia; apply IZR_le; pose proof W53; lia). rewrite Rabs_pos_eq by lra. apply Rle_trans with (bpow radix2 50); [lra|apply bpow_le'; lia].
    + apply reset_tracks, drift_nonneg.
    + apply at_tracks, drift_nonneg.
  - cbn [win_before64]. apply step_tracks; [lia|apply IH; lia].
Qed.
Lemma window_bounds n : (Z.of_nat n <= 2 ^ 40)%Z ->
  is_finite (wn_x (win_frame64 W s j v n)) = true /\ - drift n <= B2R (wn_x (win_frame64 W s j v n)) <= IZR (W - 1) + drift n.
Proof.
  intro H. destruct (window_tracks n H) as (_ & F & B & A). split; auto. apply Rabs_le_inv in A. rewrite minus_IZR in *. assert (J0 : 0 <= IZR j) by (apply IZR_le; lia). assert (JS : IZR j <= IZR s - 1) by (rewrite <- minus_IZR; apply IZR_le; lia). lra.
Qed.
End Window.
Lemma point_four v : nearest v (4 / 10) -> v = div64 (ofZ64 4) (ofZ64 10).
Proof.
  intro H. apply (nearest_unique v _ (4 / 10)); auto; [apply (nearest_div 4 10); lia|]. apply Rgt_not_eq. apply Rlt_le_trans with (1 / 4); [lra|].
  rewrite <- (rnd_rep (1 / 4)); [apply rnd_le; lra|]. replace (1 / 4) with (bpow radix2 (-2)) by (cbn; lra). apply rep_bpow. lia.
Qed.
Lemma strays v : nearest v (4 / 10) -> lt64 (ofZ64 127) (wn_x (win_frame64 128 64 63 v 160)) = true.
Proof. intro H. rewrite (point_four v H). vm_compute. reflexivity. Qed.

Lemma rep_frac x k : rep64 x -> 0 <= x -> IZR k <= x < IZR k + 1 -> rep64 (x - IZR k).
Proof.
  intros R X B. assert (K : (0 <= k)%Z). { apply Z.lt_succ_r. apply lt_IZR. unfold Z.succ. rewrite plus_IZR. lra. }
  unfold rep64 in R. rewrite fexp_FLT in R. apply FLT_format_generic in R; [|reflexivity]. destruct R as [[m e] E M L]. cbn in M, L. unfold F2R in E. cbn in E.
  assert (M0 : (0 <= m)%Z). { apply le_IZR. apply (Rmult_le_reg_r (bpow radix2 e)); [apply bpow_gt_0|]. rewrite Rmult_0_l. lra. }
  destruct (Z_le_gt_dec 0 e) as [P|P].
  - assert (x = IZR (m * 2 ^ e)) by (rewrite E, mult_IZR, IZR_two by auto; reflexivity). assert (m * 2 ^ e = k)%Z.
    { assert (m * 2 ^ e < k + 1)%Z by (apply lt_IZR; rewrite plus_IZR; lra). assert (k <= m * 2 ^ e)%Z by (apply le_IZR; lra). lia. }
    rewrite H, H0, Rminus_diag_eq by reflexivity. apply (rep_Z 0). lia.
  - assert (Z : x - IZR k = IZR (m - k * 2 ^ (- e)) * bpow radix2 e).
    { rewrite minus_IZR, mult_IZR, IZR_two by lia. rewrite Rmult_minus_distr_r, Rmult_assoc, <- bpow_plus. replace (- e + e)%Z with 0%Z by lia. change (bpow radix2 0) with 1. rewrite E. ring. }
    rewrite Z. apply rep_F2R; [|lia]. assert (0 <= m - k * 2 ^ (- e))%Z. { apply le_IZR. apply (Rmult_le_reg_r (bpow radix2 e)); [apply bpow_gt_0|]. rewrite <- Z. lra. }
    assert (0 <= k * 2 ^ (- e))%Z by (apply Z.mul_nonneg_nonneg; [auto|apply Z.pow_nonneg; lia]). change (Z.pow_pos 2 53) with (2 ^ 53)%Z in M. lia.
Qed.
Lemma roll_bounds v n : is_finite v = true -> 0 <= B2R v <= bpow radix2 52 -> exists s, roll64_after v n = Some s /\
  is_finite (rl_frac s) = true /\ 0 <= B2R (rl_frac s) < 1 /\ Rabs (IZR (rl_rows s) + B2R (rl_frac s) - INR n * B2R v) <= INR n * bpow radix2 (-53).
Proof.
  intros Fv Bv. destruct (int_correct v Fv (proj1 Bv)) as (k & Ek & Bk & K0).
  assert (K1 : (k <= 2 ^ 52)%Z) by (apply le_IZR; rewrite IZR_two by lia; lra). destruct (ofZ_correct k ltac:(lia)) as [Fk Ezk].
  assert (Rv : rep64 (B2R v)). { unfold rep64. apply (generic_format_B2R 53 1024). }
  destruct (ofZ_correct 1 ltac:(lia)) as [F1 E1]. destruct (ofZ_correct 0 ltac:(lia)) as [F0 E0].
  assert (B1000 : 2 <= bpow radix2 1000). { apply Rle_trans with (bpow radix2 1); [cbn; lra|apply bpow_le'; lia]. }
  destruct (sub_correct v (ofZ64 k) Fv Fk) as [Fd Ed]. { rewrite Ezk, Rabs_pos_eq; lra. }
  rewrite Ezk, rnd_rep in Ed by (apply rep_frac; auto; lra). set (d := sub64 v (ofZ64 k)) in *.
  induction n as [|n (s & Es & Ff & Bf & D)].
  - exists (mkRoll 0 (ofZ64 0)). cbn [roll64_after rl_rows rl_frac]. rewrite E0. split; auto. split; auto. split; [lra|]. cbn [INR]. rewrite !Rmult_0_l, Rplus_0_l, Rminus_0_r, Rabs_R0. lra.
  - cbn [roll64_after]. rewrite Es. unfold roll_step64. rewrite Ek. fold d. destruct (add_correct (rl_frac s) d Ff Fd) as [Fa Ea]. { rewrite Rabs_pos_eq; lra. }
    set (f := add64 (rl_frac s) d) in *.
    pose proof (rnd_abs' (B2R (rl_frac s) + B2R d) 1 ltac:(lia)) as A. rewrite Rabs_pos_eq in A by lra. change (bpow radix2 1) with 2 in A. specialize (A ltac:(lra)). change (1 - 54)%Z with (-53)%Z in A. rewrite <- Ea in A.
    assert (Rf : rep64 (B2R (rl_frac s))) by (apply (generic_format_B2R 53 1024)). assert (Rd : rep64 (B2R d)) by (apply (generic_format_B2R 53 1024)).
    assert (L53 : forall x, rep64 x -> x < 1 -> x <= 1 - bpow radix2 (-53)).
    { intros x Rx Lx. replace (1 - bpow radix2 (-53)) with (pred radix2 (SpecFloat.fexp 53 1024) 1); [apply pred_ge_gt; auto; [apply fexp_correct; reflexivity|apply (rep_Z 1); lia]|].
      change 1 with (bpow radix2 0) at 1. rewrite pred_bpow. cbn. lra. }
    assert (B2 : 0 <= B2R f < 2).
    { split; [rewrite Ea; apply rnd_nonneg; lra|]. pose proof (L53 _ Rf ltac:(lra)). pose proof (L53 _ Rd ltac:(lra)). pose proof (bpow_pos (-53)).
      lra. }
    assert (Rff : rep64 (B2R f)) by (apply (generic_format_B2R 53 1024)). rewrite S_INR. apply Rabs_le_inv in D.
    destruct (ge64 f (ofZ64 1)) eqn:G.
    + apply ge_correct in G; auto. rewrite E1 in G. destruct (sub_correct f (ofZ64 1) Fa F1) as [Fs Es']. { rewrite E1, Rabs_pos_eq; lra. }
      rewrite E1, rnd_rep in Es' by (apply (rep_frac _ 1); auto; lra). eexists. split; [reflexivity|]. cbn [rl_rows rl_frac]. split; [exact Fs|]. rewrite Es'. split; [lra|].
      rewrite Z.max_r by lia. rewrite !plus_IZR. apply Rabs_le. lra.
    + assert (G' : B2R f < 1). { apply Rnot_le_lt. intro C. rewrite <- E1 in C. apply (ge_correct f (ofZ64 1)) in C; auto. congruence. }
      eexists. split; [reflexivity|]. cbn [rl_rows rl_frac]. split; [exact Fa|]. split; [lra|]. rewrite Z.max_r by lia. rewrite plus_IZR. apply Rabs_le. lra.
Qed.
Lemma tenth v : nearest v (1 / 10) -> v = div64 (ofZ64 1) (ofZ64 10).
Proof.
  intro H. apply (nearest_unique v _ (1 / 10)); auto; [apply (nearest_div 1 10); lia|]. apply Rgt_not_eq. apply Rlt_le_trans with (1 / 16); [lra|].
  rewrite <- (rnd_rep (1 / 16)); [apply rnd_le; lra|]. replace (1 / 16) with (bpow radix2 (-4)) by (cbn; lra). apply rep_bpow. lia.
Qed.
Lemma slow_tenth v : nearest v (1 / 10) -> 1 <= 10 * B2R v /\ exists s, roll64_after v 10 = Some s /\ rl_rows s = 0%Z.
Proof.
  intro H. split.
  - assert (X : 1 / 10 <= B2R v); [|lra]. destruct (lit_correct 3602879701896397 (-55)) as [F E]; [apply Rle_trans with (bpow radix2 1); [cbn; rewrite Rabs_pos_eq; lra|apply bpow_le'; lia]|].
    rewrite rnd_rep in E by (apply rep_F2R; lia). apply Rle_trans with (B2R (lit64 3602879701896397 (-55))); [rewrite E; cbn; lra|].
    apply ge_correct; [apply H|exact F|]. rewrite (tenth v H). vm_compute. reflexivity.
  - rewrite (tenth v H). assert (E : option_map rl_rows (roll64_after (div64 (ofZ64 1) (ofZ64 10)) 10) = Some 0%Z) by (vm_compute; reflexivity).
    destruct (roll64_after (div64 (ofZ64 1) (ofZ64 10)) 10) as [s|]; [|discriminate]. exists s. split; [reflexivity|]. cbn [option_map] in E. congruence.
Qed.

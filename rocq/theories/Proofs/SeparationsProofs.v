(** Separations: proofs. *)
From Coq Require Import ZArith List.
From Flocq Require Import Core BinarySingleNaN.
From Verif.Base Require Import Float64.
From Verif.Spec Require Import FloatLoopSpec.
From Verif.Proofs Require Import FloatLoopProofs.
From Coq Require Import Reals Bool Lia Lra.
From Verif.Model Require Import Separations.
From Verif.Spec Require Import SeparationsSpec.
Import ListNotations.
Local Open Scope R_scope.

Lemma sqrt_correct x : is_finite x = true -> 0 <= B2R x -> is_finite (sqrt64 x) = true /\ B2R (sqrt64 x) = rnd64 (sqrt (B2R x)).
Proof.
  intros F P. destruct (@Bsqrt_correct 53 1024 prec64 emax64 mode_NE x) as (E & Fi & _). split; [|exact E].
  unfold sqrt64. rewrite Fi. destruct x as [sx|sx| |sx m e H]; try reflexivity; try discriminate F. destruct sx; [|reflexivity].
  exfalso. cbn [B2R] in P. assert (N : F2R (Float radix2 (cond_Zopp true (Zpos m)) e) < 0) by (apply F2R_lt_0; reflexivity). lra.
Qed.
Lemma abs_sq x : Rabs x * Rabs x = x * x. Proof. rewrite <- Rabs_mult. apply Rabs_pos_eq. apply Rle_0_sqr. Qed.
(** the difference of two coordinates *)
Lemma dif_rel x y : usable x -> usable y -> apart x y -> is_finite (sub64 x y) = true /\
  Rabs (B2R (sub64 x y) - (B2R x - B2R y)) <= unit_roundoff * Rabs (B2R x - B2R y) /\ Rabs (B2R x - B2R y) <= bpow radix2 401.
Proof.
  intros [Fx Bx] [Fy By] A. assert (B : Rabs (B2R x - B2R y) <= bpow radix2 401).
  { replace (bpow radix2 401) with (bpow radix2 400 + bpow radix2 400). 2:{ change 401%Z with (1 + 400)%Z. rewrite (bpow_plus radix2 1 400). change (bpow radix2 1) with 2. ring. }
    unfold Rminus. eapply Rle_trans; [apply Rabs_triang|]. rewrite Rabs_Ropp. lra. }
  destruct (sub_correct x y Fx Fy) as [F E]; [eapply Rle_trans; [exact B|apply bpow_le; lia]|]. split; [exact F|]. split; [|exact B]. rewrite E.
  destruct A as [A|A].
  - replace (B2R x - B2R y) with 0 by (rewrite A; ring). rewrite rnd_rep by apply generic_format_0. rewrite Rminus_0_r, Rabs_R0. lra.
  - apply rnd_error. eapply Rle_trans; [|exact A]. apply bpow_le. lia.
Qed.
Lemma sq_rel d D : is_finite d = true -> Rabs (B2R d - D) <= unit_roundoff * Rabs D -> D = 0 \/ bpow radix2 (-400) <= Rabs D -> Rabs D <= bpow radix2 401 ->
  is_finite (mul64 d d) = true /\ D * D * (1 - 4 * unit_roundoff) <= B2R (mul64 d d) <= D * D * (1 + 4 * unit_roundoff) /\ D * D <= bpow radix2 802.
Proof.
  intros F E A B. pose proof u_pos as U. pose proof u_small as U2.
  assert (D2 : D * D <= bpow radix2 802).
  { rewrite <- abs_sq. change 802%Z with (401 + 401)%Z. rewrite bpow_plus. apply Rmult_le_compat; try apply Rabs_pos; exact B. }
  assert (M : forall r, Rabs (r - D) <= unit_roundoff * Rabs D -> D * D * (1 - 2 * unit_roundoff) <= r * r <= D * D * (1 + 3 * unit_roundoff)).
  { intros r R1. assert (P2 : 0 <= D * D) by apply Rle_0_sqr.
    assert (Q : exists t, r = D * (1 + t) /\ Rabs t <= unit_roundoff).
    { destruct (Req_dec D 0) as [Z|Z].
      - exists 0. rewrite Z in *. rewrite Rabs_R0, Rmult_0_r in R1. rewrite Rminus_0_r in R1. split; [|rewrite Rabs_R0; lra].
        assert (r = 0); [|lra]. destruct (Req_dec r 0) as [Y|Y]; [exact Y|]. pose proof (Rabs_pos_lt r Y). lra.
      - exists ((r - D) / D). split; [field; exact Z|]. unfold Rdiv. rewrite Rabs_mult, Rabs_inv. apply Rmult_le_reg_r with (Rabs D); [apply Rabs_pos_lt; exact Z|].
        rewrite Rmult_assoc, Rinv_l, Rmult_1_r; [exact R1|]. apply Rabs_no_R0. exact Z. }
    destruct Q as (t & -> & T). apply Rabs_le_inv in T.
    replace (D * (1 + t) * (D * (1 + t))) with (D * D * ((1 + t) * (1 + t))) by ring.
    assert (T2 : 0 <= t * t <= unit_roundoff * unit_roundoff).
    { split; [apply Rle_0_sqr|]. rewrite <- abs_sq. assert (Rabs t <= unit_roundoff) by (apply Rabs_le; lra). apply Rmult_le_compat; try apply Rabs_pos; assumption. }
    assert (U3 : unit_roundoff * unit_roundoff <= unit_roundoff * 1) by (apply Rmult_le_compat_l; lra).
    split; apply Rmult_le_compat_l; try exact P2; lra. }
  pose proof (M _ E) as [ML MU].
  assert (P2 : 0 <= D * D) by apply Rle_0_sqr.
  assert (Big : B2R d * B2R d <= bpow radix2 1000).
  { apply Rle_trans with (D * D * 2); [eapply Rle_trans; [exact MU|]; apply Rmult_le_compat_l; lra|]. apply Rle_trans with (bpow radix2 802 * bpow radix2 1); [change (bpow radix2 1) with 2; lra|].
    rewrite <- bpow_plus. apply bpow_le. lia. }
  destruct (mul_correct d d F F) as [Fm Em]; [rewrite Rabs_pos_eq by apply Rle_0_sqr; exact Big|].
  split; [exact Fm|]. split; [|exact D2]. rewrite Em. destruct A as [A|A].
  - rewrite A in E. rewrite Rabs_R0, Rmult_0_r, Rminus_0_r in E. assert (Z : B2R d = 0).
    { destruct (Req_dec (B2R d) 0) as [Y|Y]; [exact Y|]. pose proof (Rabs_pos_lt _ Y). lra. }
    rewrite Z, A, !Rmult_0_l, rnd_rep by apply generic_format_0. lra.
  - assert (Low : bpow radix2 (-1022) <= Rabs (B2R d * B2R d)).
    { rewrite Rabs_pos_eq by apply Rle_0_sqr. apply Rle_trans with (D * D * (1 - 2 * unit_roundoff)); [|exact ML].
      apply Rle_trans with (bpow radix2 (-400) * bpow radix2 (-400) * / 2); [change (/ 2) with (bpow radix2 (-1)); rewrite <- !bpow_plus; apply bpow_le; lia|].
      apply Rmult_le_compat; [apply Rmult_le_pos; apply bpow_ge_0|lra| |lra]. rewrite <- (abs_sq D). apply Rmult_le_compat; try apply bpow_ge_0; exact A. }
    pose proof (rnd_error _ Low) as Er. rewrite (Rabs_pos_eq (B2R d * B2R d)) in Er by apply Rle_0_sqr. fold unit_roundoff in Er. apply Rabs_le_inv in Er.
    assert (X1 : B2R d * B2R d <= D * D * 2) by (eapply Rle_trans; [exact MU|]; apply Rmult_le_compat_l; lra).
    assert (X2 : unit_roundoff * (B2R d * B2R d) <= unit_roundoff * (D * D * (1 + 3 * unit_roundoff))) by (apply Rmult_le_compat_l; lra).
    assert (X3 : unit_roundoff * (D * D * (1 + 3 * unit_roundoff)) <= D * D * unit_roundoff * (1 + / 4)).
    { replace (unit_roundoff * (D * D * (1 + 3 * unit_roundoff))) with (D * D * unit_roundoff * (1 + 3 * unit_roundoff)) by ring. apply Rmult_le_compat_l; [apply Rmult_le_pos; lra|lra]. }
    assert (X4 : 0 <= D * D * unit_roundoff) by (apply Rmult_le_pos; lra).
    assert (X5 : B2R d * B2R d <= D * D * (1 + 3 * unit_roundoff)) by exact MU.
    split.
    + replace (D * D * (1 - 4 * unit_roundoff)) with (D * D * (1 - 2 * unit_roundoff) - 2 * (D * D * unit_roundoff)) by ring. lra.
    + (* tighter on this side: 3 u from the square is an overestimate *)
      assert (MU2 : B2R d * B2R d <= D * D * (1 + (2 + / 4) * unit_roundoff)).
      { assert (Q : Rabs (B2R d) <= Rabs D * (1 + unit_roundoff)).
        { replace (B2R d) with (D + (B2R d - D)) by ring. eapply Rle_trans; [apply Rabs_triang|]. lra. }
        assert (Q2 : Rabs (B2R d) * Rabs (B2R d) <= Rabs D * (1 + unit_roundoff) * (Rabs D * (1 + unit_roundoff))) by (apply Rmult_le_compat; try apply Rabs_pos; exact Q).
        rewrite abs_sq in Q2. replace (Rabs D * (1 + unit_roundoff) * (Rabs D * (1 + unit_roundoff))) with (Rabs D * Rabs D * ((1 + unit_roundoff) * (1 + unit_roundoff))) in Q2 by ring.
        rewrite abs_sq in Q2. eapply Rle_trans; [exact Q2|]. apply Rmult_le_compat_l; [exact P2|].
        assert (unit_roundoff * unit_roundoff <= unit_roundoff * / 4) by (apply Rmult_le_compat_l; lra). lra. }
      replace (D * D * (1 + 4 * unit_roundoff)) with (D * D * (1 + (2 + / 4) * unit_roundoff) + (1 + 3 / 4) * (D * D * unit_roundoff)) by field. lra.
Qed.
Lemma diff_cases x y : apart y x -> B2R y - B2R x = 0 \/ bpow radix2 (-400) <= Rabs (B2R y - B2R x).
Proof. intros [A|A]; [left; lra|right; exact A]. Qed.
Lemma sep_ok a b : usable (fst a) -> usable (snd a) -> usable (fst b) -> usable (snd b) -> apart (fst b) (fst a) -> apart (snd b) (snd a) ->
  is_finite (separation64 a b) = true /\ Rabs (B2R (separation64 a b) - distance a b) <= 8 * unit_roundoff * distance a b.
Proof.
  intros Ua1 Ua2 Ub1 Ub2 A1 A2. pose proof u_pos as U. pose proof u_small as U2.
  destruct (dif_rel _ _ Ub1 Ua1 A1) as (Fx & Ex & Bx). destruct (dif_rel _ _ Ub2 Ua2 A2) as (Fy & Ey & By).
  unfold distance. set (X := B2R (fst b) - B2R (fst a)) in *. set (Y := B2R (snd b) - B2R (snd a)) in *.
  destruct (sq_rel _ X Fx Ex (diff_cases _ _ A1) Bx) as (Fxx & [Lx Hx] & Sx). destruct (sq_rel _ Y Fy Ey (diff_cases _ _ A2) By) as (Fyy & [Ly Hy] & Sy).
  unfold separation64. cbv zeta. set (p := mul64 (sub64 (fst b) (fst a)) (sub64 (fst b) (fst a))) in *. set (q := mul64 (sub64 (snd b) (snd a)) (sub64 (snd b) (snd a))) in *.
  assert (Px : 0 <= X * X) by apply Rle_0_sqr. assert (Py : 0 <= Y * Y) by apply Rle_0_sqr. set (S := X * X + Y * Y) in *. assert (PS : 0 <= S) by (unfold S; lra).
  assert (Z : S = 0 \/ bpow radix2 (-800) <= S).
  { assert (C : forall D, D = 0 \/ bpow radix2 (-400) <= Rabs D -> D * D = 0 \/ bpow radix2 (-800) <= D * D).
    { intros D [-> |H]; [left; ring|right]. rewrite <- abs_sq. change (-800)%Z with (-400 + -400)%Z. rewrite bpow_plus. apply Rmult_le_compat; try apply bpow_ge_0; exact H. }
    destruct (C X (diff_cases _ _ A1)) as [C1|C1]; destruct (C Y (diff_cases _ _ A2)) as [C2|C2]; unfold S; [left|right|right|right]; lra. }
  assert (SB : S <= bpow radix2 803). { unfold S. replace (bpow radix2 803) with (bpow radix2 802 + bpow radix2 802); [lra|]. change 803%Z with (1 + 802)%Z. rewrite (bpow_plus radix2 1 802). change (bpow radix2 1) with 2. ring. }
  assert (R1 : S * (1 - 4 * unit_roundoff) <= B2R p + B2R q <= S * (1 + 4 * unit_roundoff)) by (unfold S; lra).
  assert (R0 : 0 <= B2R p + B2R q) by (apply Rle_trans with (S * (1 - 4 * unit_roundoff)); [apply Rmult_le_pos; lra|lra]).
  assert (R2 : B2R p + B2R q <= S * 2) by (eapply Rle_trans; [apply (proj2 R1)|apply Rmult_le_compat_l; lra]).
  destruct (add_correct p q Fxx Fyy) as [Fs Es].
  { rewrite Rabs_pos_eq by exact R0. apply Rle_trans with (bpow radix2 803 * bpow radix2 1); [change (bpow radix2 1) with 2; lra|]. rewrite <- bpow_plus. apply bpow_le. lia. }
  assert (Rs : S * (1 - 6 * unit_roundoff) <= B2R (add64 p q) <= S * (1 + 6 * unit_roundoff)).
  { rewrite Es. destruct Z as [Z|Z].
    - assert (E0 : B2R p + B2R q = 0) by (rewrite Z in R1; lra). rewrite E0, rnd_rep by apply generic_format_0. rewrite Z. lra.
    - assert (Low : bpow radix2 (-1022) <= Rabs (B2R p + B2R q)).
      { rewrite Rabs_pos_eq by exact R0. apply Rle_trans with (S * / 2); [|apply Rle_trans with (S * (1 - 4 * unit_roundoff)); [apply Rmult_le_compat_l; lra|lra]].
        apply Rle_trans with (bpow radix2 (-800) * / 2); [change (/ 2) with (bpow radix2 (-1)); rewrite <- bpow_plus; apply bpow_le; lia|lra]. }
      pose proof (rnd_error _ Low) as Er. fold unit_roundoff in Er. rewrite (Rabs_pos_eq (B2R p + B2R q)) in Er by exact R0. apply Rabs_le_inv in Er.
      assert (X2 : unit_roundoff * (B2R p + B2R q) <= unit_roundoff * (S * 2)) by (apply Rmult_le_compat_l; lra). lra. }
  assert (Rs0 : 0 <= B2R (add64 p q)) by (apply Rle_trans with (S * (1 - 6 * unit_roundoff)); [apply Rmult_le_pos; lra|lra]).
  destruct (sqrt_correct _ Fs Rs0) as [Fq Eq]. split; [exact Fq|]. rewrite Eq. set (T := B2R (add64 p q)) in *.
  assert (PQ : 0 <= sqrt S) by apply sqrt_pos.
  assert (Q1 : sqrt S * (1 - 6 * unit_roundoff) <= sqrt T <= sqrt S * (1 + 6 * unit_roundoff)).
  { assert (SS : sqrt S * sqrt S = S) by (apply sqrt_sqrt; exact PS).
    assert (LL : forall c, 0 <= c -> sqrt (S * (c * c)) = sqrt S * c) by (intros c Hc; rewrite sqrt_mult by (try exact PS; apply Rle_0_sqr); rewrite sqrt_square by exact Hc; reflexivity).
    split.
    - rewrite <- LL by lra. apply sqrt_le_1_alt. apply Rle_trans with (S * (1 - 6 * unit_roundoff)); [|lra]. apply Rmult_le_compat_l; [exact PS|].
      rewrite <- (Rmult_1_r (1 - 6 * unit_roundoff)) at 3. apply Rmult_le_compat_l; lra.
    - rewrite <- LL by lra. apply sqrt_le_1_alt. apply Rle_trans with (S * (1 + 6 * unit_roundoff)); [lra|]. apply Rmult_le_compat_l; [exact PS|].
      rewrite <- (Rmult_1_r (1 + 6 * unit_roundoff)) at 1. apply Rmult_le_compat_l; lra. }
  destruct Z as [Z|Z].
  - rewrite Z, sqrt_0 in *. assert (E0 : sqrt T = 0) by lra. rewrite E0, rnd_rep by apply generic_format_0. rewrite Rminus_0_r, Rabs_R0. lra.
  - assert (Low : bpow radix2 (-1022) <= Rabs (sqrt T)).
    { rewrite Rabs_pos_eq by apply sqrt_pos. apply Rle_trans with (sqrt S * / 2); [|apply Rle_trans with (sqrt S * (1 - 6 * unit_roundoff)); [apply Rmult_le_compat_l; lra|lra]].
      apply Rle_trans with (bpow radix2 (-400) * / 2); [change (/ 2) with (bpow radix2 (-1)); rewrite <- bpow_plus; apply bpow_le; lia|].
      apply Rmult_le_compat_r; [lra|]. rewrite <- (sqrt_square (bpow radix2 (-400))) by apply bpow_ge_0. apply sqrt_le_1_alt. rewrite <- bpow_plus. exact Z. }
    pose proof (rnd_error _ Low) as Er. fold unit_roundoff in Er. rewrite (Rabs_pos_eq (sqrt T)) in Er by apply sqrt_pos. apply Rabs_le_inv in Er.
    assert (T2 : sqrt T <= sqrt S * 2) by (eapply Rle_trans; [apply (proj2 Q1)|apply Rmult_le_compat_l; lra]).
    assert (X2 : unit_roundoff * sqrt T <= unit_roundoff * (sqrt S * 2)) by (apply Rmult_le_compat_l; lra). apply Rabs_le. lra.
Qed.
(** rounding is odd, so that the order of the points does not matter *)
Lemma rnd_opp x : rnd64 (- x) = - rnd64 x.
Proof. unfold rnd64. apply round_NE_opp. Qed.
Lemma dist_sym a b : distance a b = distance b a.
Proof. unfold distance. f_equal. ring. Qed.
Lemma sep_sym a b : usable (fst a) -> usable (snd a) -> usable (fst b) -> usable (snd b) -> B2R (separation64 a b) = B2R (separation64 b a).
Proof.
  intros [Fa1 Ba1] [Fa2 Ba2] [Fb1 Bb1] [Fb2 Bb2].
  assert (D : forall x y, is_finite x = true -> Rabs (B2R x) <= bpow radix2 400 -> is_finite y = true -> Rabs (B2R y) <= bpow radix2 400 ->
    is_finite (sub64 x y) = true /\ is_finite (sub64 y x) = true /\ B2R (sub64 y x) = - B2R (sub64 x y) /\ Rabs (B2R (sub64 x y)) <= bpow radix2 401).
  { intros x y Fx Bx Fy By.
    assert (B : Rabs (B2R x - B2R y) <= bpow radix2 401).
    { replace (bpow radix2 401) with (bpow radix2 400 + bpow radix2 400). 2:{ change 401%Z with (1 + 400)%Z. rewrite (bpow_plus radix2 1 400). change (bpow radix2 1) with 2. ring. }
      unfold Rminus. eapply Rle_trans; [apply Rabs_triang|]. rewrite Rabs_Ropp. lra. }
    destruct (sub_correct x y Fx Fy) as [F1 E1]; [eapply Rle_trans; [exact B|apply bpow_le; lia]|].
    destruct (sub_correct y x Fy Fx) as [F2 E2]; [rewrite Rabs_minus_sym; eapply Rle_trans; [exact B|apply bpow_le; lia]|].
    split; [exact F1|]. split; [exact F2|]. split; [rewrite E1, E2, <- rnd_opp; f_equal; ring|]. rewrite E1.
    apply abs_round_le_generic; [apply valid64|apply valid_rnd_N| |exact B]. apply generic_format_bpow. rewrite fexp_FLT. unfold FLT_exp. lia. }
  destruct (D _ _ Fb1 Bb1 Fa1 Ba1) as (Fx & Fx' & Ex & Bx). destruct (D _ _ Fb2 Bb2 Fa2 Ba2) as (Fy & Fy' & Ey & By).
  assert (M : forall d d', is_finite d = true -> is_finite d' = true -> B2R d' = - B2R d -> Rabs (B2R d) <= bpow radix2 401 ->
    is_finite (mul64 d d) = true /\ is_finite (mul64 d' d') = true /\ B2R (mul64 d' d') = B2R (mul64 d d) /\ 0 <= B2R (mul64 d d) <= bpow radix2 802).
  { intros d d' F F' E B.
    assert (B2 : B2R d * B2R d <= bpow radix2 802). { rewrite <- abs_sq. change 802%Z with (401 + 401)%Z. rewrite bpow_plus. apply Rmult_le_compat; try apply Rabs_pos; exact B. }
    assert (L : bpow radix2 802 <= bpow radix2 1000) by (apply bpow_le; lia).
    destruct (mul_correct d d F F) as [F1 E1]; [rewrite Rabs_pos_eq by apply Rle_0_sqr; lra|].
    destruct (mul_correct d' d' F' F') as [F2 E2]; [rewrite Rabs_pos_eq by apply Rle_0_sqr; rewrite E; replace (- B2R d * - B2R d) with (B2R d * B2R d) by ring; lra|].
    split; [exact F1|]. split; [exact F2|]. split; [rewrite E1, E2, E; f_equal; ring|]. rewrite E1. split.
    - rewrite <- (rnd_rep 0) by apply generic_format_0. apply rnd_le. apply Rle_0_sqr.
    - rewrite <- (rnd_rep (bpow radix2 802)); [apply rnd_le; exact B2|]. apply generic_format_bpow. rewrite fexp_FLT. unfold FLT_exp. lia. }
  destruct (M _ _ Fx Fx' Ex Bx) as (G1 & G1' & H1 & P1). destruct (M _ _ Fy Fy' Ey By) as (G2 & G2' & H2 & P2).
  unfold separation64. cbv zeta.
  assert (Big : bpow radix2 802 + bpow radix2 802 <= bpow radix2 1000).
  { replace (bpow radix2 802 + bpow radix2 802) with (bpow radix2 803); [apply bpow_le; lia|]. change 803%Z with (1 + 802)%Z. rewrite (bpow_plus radix2 1 802). change (bpow radix2 1) with 2. ring. }
  destruct (add_correct _ _ G1 G2) as [F1 E1]; [rewrite Rabs_pos_eq; lra|]. destruct (add_correct _ _ G1' G2') as [F2 E2]; [rewrite H1, H2, Rabs_pos_eq; lra|].
  rewrite H1, H2 in E2.
  assert (N1 : 0 <= rnd64 (B2R (mul64 (sub64 (fst b) (fst a)) (sub64 (fst b) (fst a))) + B2R (mul64 (sub64 (snd b) (snd a)) (sub64 (snd b) (snd a))))).
  { rewrite <- (rnd_rep 0) at 1 by apply generic_format_0. apply rnd_le. lra. }
  destruct (sqrt_correct _ F1) as [_ Q1]; [rewrite E1; exact N1|]. destruct (sqrt_correct _ F2) as [_ Q2]; [rewrite E2; exact N1|].
  rewrite Q1, Q2, E1, E2. reflexivity.
Qed.
Lemma entry_value ps i j a b : nth_error ps i = Some a -> nth_error ps j = Some b ->
  entry (map (fun a => map (fun b => separation64 a b) ps) ps) i j = Some (separation64 a b).
Proof. intros Hi Hj. unfold entry. rewrite (map_nth_error _ _ _ Hi). apply (map_nth_error _ _ _ Hj). Qed.
Lemma dist_zero a b : distance a b = 0 <-> B2R (fst a) = B2R (fst b) /\ B2R (snd a) = B2R (snd b).
Proof.
  unfold distance. set (X := B2R (fst b) - B2R (fst a)). set (Y := B2R (snd b) - B2R (snd a)).
  assert (Px : 0 <= X * X) by apply Rle_0_sqr. assert (Py : 0 <= Y * Y) by apply Rle_0_sqr. split.
  - intros H. apply sqrt_eq_0 in H; [|lra]. assert (Ex : X * X = 0) by lra. assert (Ey : Y * Y = 0) by lra. apply Rmult_integral in Ex. apply Rmult_integral in Ey. unfold X, Y in *. lra.
  - intros [E1 E2]. replace (X * X + Y * Y) with 0; [apply sqrt_0|]. unfold X, Y. rewrite E1, E2. ring.
Qed.
(** points with whole coordinates *)
Lemma grid_whole (l : list (Z * Z)) : (forall p, In p l -> (Z.abs (fst p) <= 2 ^ 53)%Z /\ (Z.abs (snd p) <= 2 ^ 53)%Z) -> grid (map (fun p => (ofZ64 (fst p), ofZ64 (snd p))) l).
Proof.
  intros H.
  assert (U : forall k, (Z.abs k <= 2 ^ 53)%Z -> usable (ofZ64 k)).
  { intros k K. destruct (ofZ_correct k K) as [F E]. split; [exact F|]. rewrite E, <- abs_IZR. apply Rle_trans with (IZR (2 ^ 53)); [apply IZR_le; exact K|].
    change (IZR (2 ^ 53)) with (IZR (Zpower_pos 2 53)). change (IZR (Zpower_pos 2 53)) with (bpow radix2 53). apply bpow_le. lia. }
  assert (A : forall j k, (Z.abs j <= 2 ^ 53)%Z -> (Z.abs k <= 2 ^ 53)%Z -> apart (ofZ64 j) (ofZ64 k)).
  { intros j k J K. destruct (ofZ_correct j J) as [_ Ej]. destruct (ofZ_correct k K) as [_ Ek]. unfold apart. rewrite Ej, Ek. destruct (Z.eq_dec j k) as [->|N]; [left; reflexivity|right].
    rewrite <- minus_IZR, <- abs_IZR. apply Rle_trans with 1; [change 1 with (bpow radix2 0); apply bpow_le; lia|apply IZR_le; lia]. }
  split.
  - intros p Hp. apply in_map_iff in Hp. destruct Hp as (q & <- & Hq). destruct (H _ Hq). split; apply U; assumption.
  - intros p q Hp Hq. apply in_map_iff in Hp. apply in_map_iff in Hq. destruct Hp as (x & <- & Hx). destruct Hq as (y & <- & Hy). destruct (H _ Hx), (H _ Hy). split; apply A; assumption.
Qed.

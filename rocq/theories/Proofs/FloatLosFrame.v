(** Rounding on a geometric line of sight: the whole frame. *)
From Coq Require Import ZArith List.
From Flocq Require Import Core BinarySingleNaN Relative.
From Verif.Base Require Import Float64.
From Verif.Model Require Import Rounding64 FloatInterp.
From Verif.Spec Require Import FloatLoopSpec FloatInterpSpec.
From Verif.Proofs Require Import FloatLoopProofs RoundingProofs FloatInterpProofs FloatInterpCoords.
From Verif.Model Require Import FloatLos.
From Verif.Spec Require Import FloatLosSpec.
From Verif.Proofs Require Import FloatLosProofs.
From Coq Require Import Reals Bool Lia Lra.
Import ListNotations.
Local Open Scope R_scope.

Lemma quot X Y B c : 0 < c -> Rabs (X - Y) <= B -> Rabs (X / c - Y / c) <= B / c.
Proof.
  intros C H. replace (X / c - Y / c) with ((X - Y) / c) by (field; lra). unfold Rdiv. rewrite Rabs_mult, (Rabs_pos_eq (/ c)) by (apply Rlt_le, Rinv_0_lt_compat; lra).
  apply Rmult_le_compat_r; [apply Rlt_le, Rinv_0_lt_compat; lra|exact H].
Qed.
(** the arithmetic, with numbers for the small quantities *)
Lemma bounds (u eps t T1 T2 S C ES EC m f p g r : R) : 0 <= u <= / 10 ^ 12 -> 0 <= eps <= 6 / 10 ^ 8 -> 0 < t -> 0 <= T1 -> 0 <= T2 -> Rabs ES <= T1 -> Rabs EC <= T2 ->
  Rabs (S - ES) <= T1 * (11 / 10 ^ 9) + t -> Rabs (C - EC) <= T2 * (11 / 10 ^ 9) + t ->
  Rabs (m - S) <= u * Rabs S + t -> Rabs (f - m) <= eps * Rabs m + t -> Rabs (p - C) <= u * Rabs C + t ->
  Rabs (g - (f - p)) <= u * Rabs (f - p) + t -> Rabs (r - g) <= u * Rabs g + t ->
  Rabs (r - (ES - EC)) <= (T1 + T2) / 10 ^ 7 + 10 * t.
Proof.
  replace (10 ^ 12) with 1000000000000 by ring. replace (10 ^ 9) with 1000000000 by ring. replace (10 ^ 8) with 100000000 by ring. replace (10 ^ 7) with 10000000 by ring.
  intros U E T0 H1 H2 HES HEC HS HC Hm Hf Hp Hg Hr.
  assert (M : forall k x K B, 0 <= k <= K -> Rabs x <= B -> k * Rabs x <= K * B) by (intros k x K B Hk Hx; apply Rmult_le_compat; [lra|apply Rabs_pos|lra|exact Hx]).
  assert (TR : forall x y B B', Rabs y <= B -> Rabs (x - y) <= B' -> Rabs x <= B + B') by (intros x y B B' A1 A2; apply Rabs_le_inv in A1; apply Rabs_le_inv in A2; apply Rabs_le; lra).
  pose proof (TR _ _ _ _ HES HS) as AS. pose proof (TR _ _ _ _ HEC HC) as AC.
  assert (Bm : Rabs (m - S) <= / 1000000000000 * (T1 + (T1 * (11 / 1000000000) + t)) + t) by (eapply Rle_trans; [exact Hm|]; apply Rplus_le_compat_r; apply M; auto).
  pose proof (TR _ _ _ _ AS Bm) as Am.
  assert (Bf : Rabs (f - m) <= 6 / 100000000 * (T1 + (T1 * (11 / 1000000000) + t) + (/ 1000000000000 * (T1 + (T1 * (11 / 1000000000) + t)) + t)) + t) by (eapply Rle_trans; [exact Hf|]; apply Rplus_le_compat_r; apply M; auto).
  pose proof (TR _ _ _ _ Am Bf) as Af.
  assert (Bp : Rabs (p - C) <= / 1000000000000 * (T2 + (T2 * (11 / 1000000000) + t)) + t) by (eapply Rle_trans; [exact Hp|]; apply Rplus_le_compat_r; apply M; auto).
  pose proof (TR _ _ _ _ AC Bp) as Ap.
  assert (Afp : Rabs (f - p) <= 2 * T1 + 2 * T2 + 10 * t) by (apply Rabs_le_inv in Af; apply Rabs_le_inv in Ap; apply Rabs_le; lra).
  assert (Bg : Rabs (g - (f - p)) <= / 1000000000000 * (2 * T1 + 2 * T2 + 10 * t) + t) by (eapply Rle_trans; [exact Hg|]; apply Rplus_le_compat_r; apply M; auto).
  pose proof (TR _ _ _ _ Afp Bg) as Ag.
  assert (Br : Rabs (r - g) <= / 1000000000000 * (2 * T1 + 2 * T2 + 10 * t + (/ 1000000000000 * (2 * T1 + 2 * T2 + 10 * t) + t)) + t) by (eapply Rle_trans; [exact Hr|]; apply Rplus_le_compat_r; apply M; auto).
  clear - T0 H1 H2 HES HEC HS HC Bm Bf Bp Bg Br.
  repeat match goal with H : Rabs _ <= _ |- _ => apply Rabs_le_inv in H end. apply Rabs_le. lra.
Qed.
Lemma tiny_over c k : bpow radix2 (-60) <= c -> (k <= -150)%Z -> bpow radix2 k / c <= bpow radix2 (-90).
Proof.
  intros C K. pose proof (bpow_gt_0 radix2 (-60)). apply Rle_trans with (bpow radix2 k / bpow radix2 (-60)).
  - unfold Rdiv. apply Rmult_le_compat_l; [apply bpow_ge_0|]. apply Rinv_le; lra.
  - unfold Rdiv. rewrite <- bpow_opp, <- bpow_plus. apply bpow_le. lia.
Qed.
Lemma frame_ok d c screens corr As Bs : moderate screens As -> moderate corr Bs -> (Z.of_nat (length screens) <= 2 ^ 20)%Z -> (Z.of_nat (length corr) <= 2 ^ 20)%Z ->
  total As <= bpow radix2 50 -> total Bs <= bpow radix2 50 -> is_finite c = true -> bpow radix2 (-60) <= B2R c <= bpow radix2 60 ->
  exists r ph, frame64 d c screens corr = Some (r, ph, Double) /\ is_finite r = true /\ is_finite ph = true /\
    Rabs (B2R r - (total_seen screens - total_seen corr)) <= (total As + total Bs) / 10 ^ 7 + bpow radix2 (-80) /\
    Rabs (B2R ph - B2R c * B2R r) <= unit_roundoff * Rabs (B2R c * B2R r) + smallest.
Proof.
  intros HS HC LS LC TS TC Fc Bc. destruct (sum_ok screens As HS LS TS) as (vs & EV & FV & P1 & A1 & D1). destruct (sum_ok corr Bs HC LC TC) as (ws & EW & FW & P2 & A2 & D2).
  unfold frame64, make_phase64. rewrite EV, EW. clear HS HC LS LC EV EW.
  set (S := sum64 vs) in *. set (C := sum64 ws) in *. set (ES := total_seen screens) in *. set (EC := total_seen corr) in *. set (T1 := total As) in *. set (T2 := total Bs) in *.
  pose proof (bpow_gt_0 radix2 (-60)) as C0. pose proof u_pos as U0. pose proof s_pos as S0.
  assert (U12 : unit_roundoff <= / 10 ^ 12). { replace (10 ^ 12) with 1000000000000 by ring. apply Rle_trans with (bpow radix2 (-40)); [apply bpow_le; lia|]. change (bpow radix2 (-40)) with (/ 1099511627776). lra. }
  assert (U10 : unit_roundoff <= / 1024) by apply u_small. assert (S10 : smallest <= / 1024) by apply s_small.
  assert (E8 : 0 <= bpow radix2 (-24) <= 6 / 10 ^ 8). { replace (10 ^ 8) with 100000000 by ring. change (bpow radix2 (-24)) with (/ 16777216). lra. }
  set (t := bpow radix2 (-90)). assert (T0 : 0 < t) by apply bpow_gt_0. assert (TS1 : smallest <= t) by (apply bpow_le; lia).
  assert (TK : bpow radix2 (-1000) <= t) by (apply bpow_le; lia). assert (T1' : t <= / 1024) by (change (/ 1024) with (bpow radix2 (-10)); apply bpow_le; lia).
  assert (SB : forall X EX T, 0 <= T -> T <= bpow radix2 50 -> Rabs EX <= T -> Rabs (X - EX) <= T * (11 / 10 ^ 9) + bpow radix2 (-1000) -> Rabs X <= bpow radix2 51 /\ Rabs (X - EX) <= T * (11 / 10 ^ 9) + t).
  { intros X EX T Q0 Q1 Q2 Q3. split; [|lra]. replace (10 ^ 9) with 1000000000 in * by ring. change (bpow radix2 51) with (bpow radix2 (1 + 50)). rewrite bpow_plus. change (bpow radix2 1) with 2.
    assert (1 <= bpow radix2 50) by (change 1 with (bpow radix2 0); apply bpow_le; lia). apply Rabs_le_inv in Q2. apply Rabs_le_inv in Q3. apply Rabs_le. lra. }
  destruct (SB _ _ _ P1 TS A1 D1) as [BS D1']. destruct (SB _ _ _ P2 TC A2 D2) as [BC D2'].
  assert (PB : forall X, Rabs X <= bpow radix2 51 -> Rabs (X * B2R c) <= bpow radix2 111).
  { intros X Q. rewrite Rabs_mult, (Rabs_pos_eq (B2R c)) by lra. replace 111%Z with (51 + 60)%Z by lia. rewrite bpow_plus. apply Rmult_le_compat; [apply Rabs_pos|lra|exact Q|lra]. }
  assert (K1000 : bpow radix2 120 <= bpow radix2 1000) by (apply bpow_le; lia). assert (K120 : 8 * bpow radix2 111 <= bpow radix2 120) by (change 8 with (bpow radix2 3); rewrite <- bpow_plus; apply bpow_le; lia).
  assert (G111 : 1 <= bpow radix2 111) by (change 1 with (bpow radix2 0); apply bpow_le; lia).
  destruct (mul_correct S c FV Fc) as [FM EM]; [specialize (PB _ BS); lra|]. destruct (mul_correct C c FW Fc) as [FP EP]; [specialize (PB _ BC); lra|].
  pose proof (PB _ BS) as BSc. pose proof (PB _ BC) as BCc. pose proof (rnd_any (B2R S * B2R c)) as RM. pose proof (rnd_any (B2R C * B2R c)) as RP. rewrite <- EM in RM. rewrite <- EP in RP.
  set (M := mul64 S c) in *. set (P := mul64 C c) in *.
  assert (UB : forall X, Rabs X <= bpow radix2 111 -> unit_roundoff * Rabs X + smallest <= bpow radix2 111).
  { intros X Q. assert (unit_roundoff * Rabs X <= / 1024 * bpow radix2 111) by (apply Rmult_le_compat; [lra|apply Rabs_pos|lra|exact Q]). lra. }
  assert (BM : Rabs (B2R M) <= 2 * bpow radix2 111). { pose proof (UB _ BSc). apply Rabs_le_inv in RM. apply Rabs_le_inv in BSc. apply Rabs_le. lra. }
  assert (BP : Rabs (B2R P) <= 2 * bpow radix2 111). { pose proof (UB _ BCc). apply Rabs_le_inv in RP. apply Rabs_le_inv in BCc. apply Rabs_le. lra. }
  destruct (ofZ_correct 0) as [F0 E0]; [lia|]. destruct (add_correct (ofZ64 0) M F0 FM) as [FZ EZ]; [rewrite E0, Rplus_0_l; lra|].
  rewrite E0, Rplus_0_l, rnd_rep in EZ by apply (generic_format_B2R 53 1024). set (Z0 := add64 (ofZ64 0) M) in *.
  destruct (stored_ok d Z0 FZ) as [FF EF]; [rewrite EZ; lra|]. rewrite EZ in EF. set (F := stored d Z0) in *.
  assert (BF : Rabs (B2R F) <= 3 * bpow radix2 111).
  { assert (bpow radix2 (-24) * Rabs (B2R M) <= / 1024 * (2 * bpow radix2 111)) by (apply Rmult_le_compat; [lra|apply Rabs_pos|change (bpow radix2 (-24)) with (/ 16777216); lra|exact BM]).
    assert (bpow radix2 (-150) <= / 1024) by (change (/ 1024) with (bpow radix2 (-10)); apply bpow_le; lia). apply Rabs_le_inv in EF. apply Rabs_le_inv in BM. apply Rabs_le. lra. }
  destruct (sub_correct F P FF FP) as [FD ED]; [apply Rabs_le_inv in BF; apply Rabs_le_inv in BP; apply Rabs_le; lra|].
  pose proof (rnd_any (B2R F - B2R P)) as RD. rewrite <- ED in RD. set (D := sub64 F P) in *.
  assert (BD : Rabs (B2R D) <= bpow radix2 120).
  { assert (Rabs (B2R F - B2R P) <= 5 * bpow radix2 111) by (apply Rabs_le_inv in BF; apply Rabs_le_inv in BP; apply Rabs_le; lra).
    assert (unit_roundoff * Rabs (B2R F - B2R P) <= / 1024 * (5 * bpow radix2 111)) by (apply Rmult_le_compat; [lra|apply Rabs_pos|lra|assumption]).
    apply Rabs_le_inv in RD. apply Rabs_le_inv in H. apply Rabs_le. lra. }
  assert (CN : B2R c <> 0) by lra.
  assert (BQ : Rabs (B2R D / B2R c) <= bpow radix2 180).
  { unfold Rdiv. rewrite Rabs_mult, (Rabs_pos_eq (/ B2R c)) by (apply Rlt_le, Rinv_0_lt_compat; lra). replace 180%Z with (120 + 60)%Z by lia. rewrite bpow_plus.
    apply Rmult_le_compat; [apply Rabs_pos|apply Rlt_le, Rinv_0_lt_compat; lra|exact BD|]. replace (bpow radix2 60) with (/ bpow radix2 (-60)) by (rewrite <- bpow_opp; reflexivity). apply Rinv_le; lra. }
  destruct (div_correct D c FD CN) as [FR ER]; [apply Rle_trans with (bpow radix2 180); [exact BQ|apply bpow_le; lia]|].
  pose proof (rnd_any (B2R D / B2R c)) as RR. rewrite <- ER in RR. set (r := div64 D c) in *.
  assert (BR : Rabs (B2R r) <= bpow radix2 182).
  { assert (unit_roundoff * Rabs (B2R D / B2R c) <= / 1024 * bpow radix2 180) by (apply Rmult_le_compat; [lra|apply Rabs_pos|lra|exact BQ]).
    replace 182%Z with (2 + 180)%Z by lia. rewrite bpow_plus. change (bpow radix2 2) with 4. assert (1 <= bpow radix2 180) by (change 1 with (bpow radix2 0); apply bpow_le; lia).
    apply Rabs_le_inv in RR. apply Rabs_le_inv in BQ. apply Rabs_le. lra. }
  destruct (mul_correct r c FR Fc) as [FH EH].
  { rewrite Rabs_mult, (Rabs_pos_eq (B2R c)) by lra. apply Rle_trans with (bpow radix2 182 * bpow radix2 60); [apply Rmult_le_compat; [apply Rabs_pos|lra|exact BR|lra]|]. rewrite <- bpow_plus. apply bpow_le. lia. }
  exists r, (mul64 r c). split; [reflexivity|]. split; [exact FR|]. split; [exact FH|]. split; [|rewrite EH, (Rmult_comm (B2R r)); apply rnd_any].
  assert (CP : 0 < B2R c) by lra.
  apply Rle_trans with ((T1 + T2) / 10 ^ 7 + 10 * t).
  - apply (bounds unit_roundoff (bpow radix2 (-24)) t T1 T2 (B2R S) (B2R C) ES EC (B2R M / B2R c) (B2R F / B2R c) (B2R P / B2R c) (B2R D / B2R c) (B2R r)); auto; try lra.
    + pose proof (quot _ _ _ _ CP RM) as Q. replace (B2R S * B2R c / B2R c) with (B2R S) in Q by (field; lra). eapply Rle_trans; [exact Q|].
      rewrite Rdiv_plus_distr, Rabs_mult, (Rabs_pos_eq (B2R c)) by lra. replace (unit_roundoff * (Rabs (B2R S) * B2R c) / B2R c) with (unit_roundoff * Rabs (B2R S)) by (field; lra).
      apply Rplus_le_compat_l. apply tiny_over; [lra|lia].
    + pose proof (quot _ _ _ _ CP EF) as Q. eapply Rle_trans; [exact Q|]. rewrite Rdiv_plus_distr. unfold Rdiv at 3. rewrite Rabs_mult, (Rabs_pos_eq (/ B2R c)) by (apply Rlt_le, Rinv_0_lt_compat; lra).
      apply Rplus_le_compat; [unfold Rdiv; rewrite Rmult_assoc; apply Rle_refl|apply tiny_over; [lra|lia]].
    + pose proof (quot _ _ _ _ CP RP) as Q. replace (B2R C * B2R c / B2R c) with (B2R C) in Q by (field; lra). eapply Rle_trans; [exact Q|].
      rewrite Rdiv_plus_distr, Rabs_mult, (Rabs_pos_eq (B2R c)) by lra. replace (unit_roundoff * (Rabs (B2R C) * B2R c) / B2R c) with (unit_roundoff * Rabs (B2R C)) by (field; lra).
      apply Rplus_le_compat_l. apply tiny_over; [lra|lia].
    + pose proof (quot _ _ _ _ CP RD) as Q. replace ((B2R F - B2R P) / B2R c) with (B2R F / B2R c - B2R P / B2R c) in Q by (field; lra). eapply Rle_trans; [exact Q|].
      rewrite Rdiv_plus_distr. replace (B2R F / B2R c - B2R P / B2R c) with ((B2R F - B2R P) / B2R c) by (field; lra).
      unfold Rdiv at 3. rewrite Rabs_mult, (Rabs_pos_eq (/ B2R c)) by (apply Rlt_le, Rinv_0_lt_compat; lra).
      apply Rplus_le_compat; [unfold Rdiv; rewrite Rmult_assoc; apply Rle_refl|apply tiny_over; [lra|lia]].
  - apply Rplus_le_compat_l. apply Rle_trans with (bpow radix2 4 * t); [apply Rmult_le_compat_r; [lra|change (bpow radix2 4) with 16; lra]|]. unfold t. rewrite <- bpow_plus. apply bpow_le. lia.
Qed.

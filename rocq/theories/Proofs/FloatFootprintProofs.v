(** Rounding of footprints. *)
From Coq Require Import ZArith List.
From Flocq Require Import Core BinarySingleNaN Relative.
From Verif.Base Require Import Float64.
From Verif.Model Require Import Rounding64 FloatInterp.
From Verif.Spec Require Import FloatLoopSpec FloatInterpSpec.
From Verif.Proofs Require Import FloatLoopProofs RoundingProofs FloatInterpProofs FloatInterpCoords.
From Verif.Model Require Import FloatLos.
From Verif.Spec Require Import FloatLosSpec.
From Verif.Proofs Require Import FloatLosFrame.
From Verif.Model Require Import FloatFootprint.
From Verif.Spec Require Import FloatFootprintSpec.
From Coq Require Import Reals Bool Lia Lra.
Import ListNotations.
Local Open Scope R_scope.

(** [x] is the number X, which is at most W, up to k roundings of numbers of the size W *)
Definition medium (W : R) : Prop := bpow radix2 (-500) <= W <= bpow radix2 500.
Definition acc (k W : R) (x : b64) (X : R) : Prop := is_finite x = true /\ Rabs X <= W /\ Rabs (B2R x - X) <= k * (unit_roundoff * W).

Lemma u_tiny : unit_roundoff <= / 10 ^ 15.
Proof. unfold unit_roundoff. change (bpow radix2 (-53)) with (/ IZR (2 ^ 53)). replace (10 ^ 15) with 1000000000000000 by ring. apply Rinv_le; [lra|]. apply IZR_le. vm_compute. discriminate. Qed.
Lemma s_medium W : medium W -> smallest <= / 1000 * (unit_roundoff * W).
Proof.
  intros [L _]. apply Rle_trans with (bpow radix2 (-10) * (bpow radix2 (-53) * bpow radix2 (-500))).
  - unfold smallest. rewrite <- !bpow_plus. apply bpow_le. lia.
  - apply Rmult_le_compat; [apply bpow_ge_0| |change (bpow radix2 (-10)) with (/ 1024); lra|].
    + apply Rmult_le_pos; apply bpow_ge_0.
    + apply Rmult_le_compat_l; [apply bpow_ge_0|exact L].
Qed.
Lemma m_pos W : medium W -> 0 < W. Proof. intros [L _]. pose proof (bpow_gt_0 radix2 (-500)). lra. Qed.
Lemma rounded k W v X : medium W -> 0 <= k <= 2000 -> Rabs X <= W -> Rabs (v - X) <= k * (unit_roundoff * W) ->
  Rabs v <= bpow radix2 1000 /\ Rabs (rnd64 v - X) <= (k + 2) * (unit_roundoff * W).
Proof.
  intros M K HX HV. pose proof (m_pos W M) as P. pose proof u_pos as U. pose proof u_tiny as UT. pose proof (s_medium W M) as S. replace (10 ^ 15) with 1000000000000000 in UT by ring.
  assert (UW : 0 < unit_roundoff * W) by (apply Rmult_lt_0_compat; lra).
  assert (KU : k * (unit_roundoff * W) <= / 1000 * W).
  { rewrite <- Rmult_assoc. apply Rmult_le_compat_r; [lra|]. apply Rle_trans with (2000 * / 1000000000000000); [|lra]. apply Rmult_le_compat; lra. }
  assert (V : Rabs v <= 1001 / 1000 * W).
  { replace v with (v - X + X) by ring. eapply Rle_trans; [apply Rabs_triang|]. lra. }
  split.
  - eapply Rle_trans; [exact V|]. destruct M as [_ M]. assert (B : 2 * bpow radix2 500 <= bpow radix2 1000).
    { change 2 with (bpow radix2 1). rewrite <- bpow_plus. apply bpow_le. lia. }
    lra.
  - replace (rnd64 v - X) with (rnd64 v - v + (v - X)) by ring. eapply Rle_trans; [apply Rabs_triang|]. pose proof (rnd_any v) as R1.
    assert (unit_roundoff * Rabs v <= unit_roundoff * (1001 / 1000 * W)) by (apply Rmult_le_compat_l; lra). lra.
Qed.
Lemma acc_exact W x X : is_finite x = true -> B2R x = X -> Rabs X <= W -> acc 0 W x X.
Proof. intros F E B. split; [exact F|]. split; [exact B|]. rewrite E, Rminus_diag_eq, Rabs_R0 by reflexivity. lra. Qed.
Lemma acc_scale k' V k W x X : acc k W x X -> W <= V -> k * W <= k' * V -> acc k' V x X.
Proof.
  intros (F & B & E) L H. split; [exact F|]. split; [lra|]. eapply Rle_trans; [exact E|]. pose proof u_pos.
  replace (k * (unit_roundoff * W)) with (unit_roundoff * (k * W)) by ring. replace (k' * (unit_roundoff * V)) with (unit_roundoff * (k' * V)) by ring. apply Rmult_le_compat_l; lra.
Qed.
Lemma acc_add k l W x y X Y : medium W -> 0 <= k <= 1000 -> 0 <= l <= 1000 -> acc k W x X -> acc l W y Y -> Rabs (X + Y) <= W -> acc (k + l + 2) W (add64 x y) (X + Y).
Proof.
  intros M K L (FX & BX & EX) (FY & BY & EY) B.
  destruct (rounded (k + l) W (B2R x + B2R y) (X + Y) M) as [BV EV]; [lra|exact B| |].
  { replace (B2R x + B2R y - (X + Y)) with ((B2R x - X) + (B2R y - Y)) by ring. eapply Rle_trans; [apply Rabs_triang|]. lra. }
  destruct (add_correct x y FX FY BV) as [F E]. split; [exact F|]. split; [exact B|]. rewrite E. exact EV.
Qed.
Lemma acc_sub k l W x y X Y : medium W -> 0 <= k <= 1000 -> 0 <= l <= 1000 -> acc k W x X -> acc l W y Y -> Rabs (X - Y) <= W -> acc (k + l + 2) W (sub64 x y) (X - Y).
Proof.
  intros M K L (FX & BX & EX) (FY & BY & EY) B.
  destruct (rounded (k + l) W (B2R x - B2R y) (X - Y) M) as [BV EV]; [lra|exact B| |].
  { replace (B2R x - B2R y - (X - Y)) with ((B2R x - X) - (B2R y - Y)) by ring. unfold Rminus at 1. eapply Rle_trans; [apply Rabs_triang|]. rewrite Rabs_Ropp. lra. }
  destruct (sub_correct x y FX FY BV) as [F E]. split; [exact F|]. split; [exact B|]. rewrite E. exact EV.
Qed.
Lemma acc_mul k l W V x y X Y : medium (W * V) -> 0 < W -> 0 < V -> 0 <= k <= 100 -> 0 <= l <= 100 -> acc k W x X -> acc l V y Y -> acc (k + l + 3) (W * V) (mul64 x y) (X * Y).
Proof.
  intros M PW PV K L (FX & BX & EX) (FY & BY & EY). pose proof u_pos as U. pose proof u_tiny as UT. replace (10 ^ 15) with 1000000000000000 in UT by ring.
  assert (B : Rabs (X * Y) <= W * V) by (rewrite Rabs_mult; apply Rmult_le_compat; auto; apply Rabs_pos).
  assert (PWV : 0 < W * V) by (apply Rmult_lt_0_compat; assumption).
  destruct (rounded (k + l + 1) (W * V) (B2R x * B2R y) (X * Y) M) as [BV EV]; [lra|exact B| |].
  { replace (B2R x * B2R y - X * Y) with ((B2R x - X) * Y + X * (B2R y - Y) + (B2R x - X) * (B2R y - Y)) by ring.
    eapply Rle_trans; [apply Rabs_triang|]. eapply Rle_trans; [apply Rplus_le_compat_r, Rabs_triang|]. rewrite !Rabs_mult.
    assert (A1 : Rabs (B2R x - X) * Rabs Y <= k * (unit_roundoff * W) * V) by (apply Rmult_le_compat; auto; apply Rabs_pos).
    assert (A2 : Rabs X * Rabs (B2R y - Y) <= W * (l * (unit_roundoff * V))) by (apply Rmult_le_compat; auto; apply Rabs_pos).
    assert (A3 : Rabs (B2R x - X) * Rabs (B2R y - Y) <= k * (unit_roundoff * W) * (l * (unit_roundoff * V))) by (apply Rmult_le_compat; auto; apply Rabs_pos).
    assert (KL : k * l * unit_roundoff <= 1).
    { apply Rle_trans with (100 * 100 * / 1000000000000000); [|lra]. apply Rmult_le_compat; [apply Rmult_le_pos; lra|lra| |lra]. apply Rmult_le_compat; lra. }
    assert (A4 : k * l * unit_roundoff * (unit_roundoff * (W * V)) <= 1 * (unit_roundoff * (W * V))) by (apply Rmult_le_compat_r; [apply Rmult_le_pos; lra|exact KL]).
    lra. }
  destruct (mul_correct x y FX FY BV) as [F E]. split; [exact F|]. split; [exact B|]. rewrite E. replace (k + l + 3) with (k + l + 1 + 2) by ring. exact EV.
Qed.
Lemma acc_div k W x X y : medium (W / B2R y) -> 0 < B2R y -> 0 <= k <= 1000 -> acc k W x X -> acc (k + 2) (W / B2R y) (div64 x y) (X / B2R y).
Proof.
  intros M PY K (FX & BX & EX). assert (D : forall a b, Rabs a <= b -> Rabs (a / B2R y) <= b / B2R y).
  { intros a b H. unfold Rdiv. rewrite Rabs_mult, (Rabs_pos_eq (/ B2R y)) by (apply Rlt_le, Rinv_0_lt_compat; lra). apply Rmult_le_compat_r; [apply Rlt_le, Rinv_0_lt_compat; lra|exact H]. }
  destruct (rounded k (W / B2R y) (B2R x / B2R y) (X / B2R y) M) as [BV EV]; [lra|apply D; exact BX| |].
  { replace (B2R x / B2R y - X / B2R y) with ((B2R x - X) / B2R y) by (field; lra). replace (k * (unit_roundoff * (W / B2R y))) with (k * (unit_roundoff * W) / B2R y) by (field; lra). apply D. exact EX. }
  destruct (div_correct x y FX (Rgt_not_eq _ _ PY) BV) as [F E]. split; [exact F|]. split; [apply D; exact BX|]. rewrite E. exact EV.
Qed.
Lemma nonzero_spec x : is_finite x = true -> nonzero64 x = negb (if Req_EM_T (B2R x) 0 then true else false).
Proof.
  intro F. unfold nonzero64. destruct (ofZ_correct 0) as [F0 E0]; [vm_compute; discriminate|]. rewrite (Bcompare_correct _ _ x (ofZ64 0) F F0), E0.
  destruct (Req_EM_T (B2R x) 0) as [Z|N]; [rewrite Rcompare_Eq by exact Z; reflexivity|].
  destruct (Rcompare_spec (B2R x) 0); [reflexivity|contradiction|reflexivity].
Qed.
Lemma acc_div_by k c W x X y : B2R y = c -> medium (W / c) -> 0 < c -> 0 <= k <= 1000 -> acc k W x X -> acc (k + 2) (W / c) (div64 x y) (X / c).
Proof. intros <-. apply acc_div. Qed.

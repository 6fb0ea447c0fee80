(** Lemmas for the whole loop in floating-point arithmetic. *)
From Coq Require Import ZArith List.
From Flocq Require Import Core BinarySingleNaN.
From Verif.Base Require Import Float64.
From Verif.Model Require Import FloatInterp FloatLos FloatLoop FloatDot FloatGradChain FloatDriven.
From Verif.Spec Require Import FloatLoopSpec FloatDotSpec FloatInterpSpec FloatLosSpec FloatFootprintSpec FloatGradSpec FloatGradChainSpec FloatMirrorSpec FloatDrivenSpec.
From Verif.Proofs Require Import FloatLoopProofs FloatDrivenProofs.
From Coq Require Import Reals Bool Lia Lra.
From Verif.Model Require Import FloatWhole.
From Verif.Spec Require Import FloatWholeSpec.
Import ListNotations.
Local Open Scope R_scope.

Lemma rows_ok (slope : meas -> R) (S e : R) : 0 <= e -> forall me s, Forall2 (fun k x => Rabs (B2R x - slope k) <= e /\ Rabs (slope k) <= S) me s -> forall row, length row = length me ->
  Rabs (exact_sum row s - exact_command slope me row) <= weight row * e /\ abs_sum row s <= weight row * (S + e).
Proof.
  intros E0 me s H. induction H as [|k x me s [H1 H2] H IH]; intros [|r row] L; try discriminate L.
  - unfold exact_sum, abs_sum, exact_command, weight. cbn. rewrite Rminus_0_r, Rabs_R0. lra.
  - destruct (IH row) as [I1 I2]; [cbn in L; lia|]. change (exact_sum (r :: row) (x :: s)) with (B2R r * B2R x + exact_sum row s). change (abs_sum (r :: row) (x :: s)) with (Rabs (B2R r * B2R x) + abs_sum row s).
    change (exact_command slope (k :: me) (r :: row)) with (B2R r * slope k + exact_command slope me row). change (weight (r :: row)) with (Rabs (B2R r) + weight row). split.
    + replace (B2R r * B2R x + exact_sum row s - (B2R r * slope k + exact_command slope me row)) with (B2R r * (B2R x - slope k) + (exact_sum row s - exact_command slope me row)) by ring.
      eapply Rle_trans; [apply Rabs_triang|]. rewrite Rmult_plus_distr_r, Rabs_mult. apply Rplus_le_compat; [apply Rmult_le_compat_l; [apply Rabs_pos|exact H1]|exact I1].
    + rewrite Rmult_plus_distr_r, Rabs_mult. apply Rplus_le_compat; [|exact I2]. apply Rmult_le_compat_l; [apply Rabs_pos|]. replace (B2R x) with (slope k + (B2R x - slope k)) by ring. eapply Rle_trans; [apply Rabs_triang|]. lra.
Qed.
Lemma within_mono n t c E F : fl_within n t c E -> E <= F -> fl_within n t c F.
Proof. intros [L H] HF. split; [exact L|]. intros x Hx. destruct (H x Hx) as [F1 H1]. split; [exact F1|lra]. Qed.
Lemma owner_closed lm x m : fl_owner (integrators lm) x = Some m -> fm_closed m = true.
Proof. revert x. induction lm as [|mg lm IH]; intros x H; cbn [integrators map fl_owner fm_acts] in H; [discriminate H|]. destruct (x <? length (mm_infl (fst mg)))%nat; [apply (f_equal (fun o => match o with Some m => fm_closed m | None => true end)) in H; symmetry; exact H|exact (IH _ H)]. Qed.
Lemma slice (c : list b64) : forall n s, (s + n <= length c)%nat -> firstn n (skipn s c) = map (fun i => nth (s + i) c fzero) (seq 0 n).
Proof.
  induction n as [|n IH]; intros s H; [reflexivity|]. assert (E : skipn s c = nth s c fzero :: skipn (Datatypes.S s) c).
  { clear - H. revert s H. induction c as [|a c IH]; intros s H; [cbn in H; lia|]. destruct s; [reflexivity|]. cbn [length] in H. cbn [skipn nth]. apply IH. lia. }
  rewrite E. cbn [firstn seq map]. rewrite Nat.add_0_r. f_equal. rewrite IH by lia. rewrite <- seq_shift, map_map. apply map_ext. intro i. f_equal. lia.
Qed.
Lemma dealt_shares ms c : forall s, (s + fold_right (fun m n => (length (mm_infl m) + n)%nat) 0%nat ms <= length c)%nat -> dealt ms (skipn s c) = shares s ms c.
Proof.
  induction ms as [|m ms IH]; intros s H; [reflexivity|]. cbn [fold_right] in H. cbn [dealt shares]. rewrite slice by lia. f_equal. rewrite <- IH by lia. f_equal. clear. revert s. induction c as [|a c IH]; intro s; [rewrite !skipn_nil; reflexivity|].
  destruct s; [reflexivity|]. cbn [skipn Nat.add]. apply IH.
Qed.
Lemma total_mirrors lm : fl_total (integrators lm) = fold_right (fun m n => (length (mm_infl m) + n)%nat) 0%nat (map fst lm).
Proof. induction lm as [|mg lm IH]; [reflexivity|]. cbn. f_equal. exact IH. Qed.
Lemma optics_ok step theta h G me lm ctrl b range delta eta S e R1 t screens sl :
  let total := fl_total (integrators lm) in
  Forall (fun k => usable (me_sensor k) theta h G (step (me_sensor k))) me -> Forall (fun row => length row = length me /\ weight row <= R1) ctrl -> 0 <= e -> 0 <= S ->
  corrects step theta h G me (map fst lm) ctrl b total range delta eta S e t screens ->
  (forall c, fl_within total t c range -> measured64 me (map fst lm) screens c (sl c)) ->
  slopes_accurate (integrators lm) (length me) ctrl range delta (eta + R1 * e) (R1 * (S + e)) t sl.
Proof.
  intros total HU HC E0 S0 HX HM c E HW HE. pose proof (HM c (within_mono _ _ _ _ _ HW HE)) as HF. destruct (HX c E HW HE) as [HK HR].
  assert (DS : dealt (map fst lm) c = shares 0 (map fst lm) c) by (apply (dealt_shares (map fst lm) c 0); rewrite (proj1 HW); unfold total; rewrite total_mirrors; cbn; lia). unfold measured64 in HF. rewrite DS in HF.
  assert (ALL : Forall2 (fun k x => is_finite x = true /\ Rabs (B2R x - exact_slope step screens (map fst lm) c k) <= e /\ Rabs (exact_slope step screens (map fst lm) c k) <= S) me (sl c)).
  { clear HX HM HR HC. induction HF as [|k x me s (d & xy & H1 & ->) H IH]; constructor.
    - inversion HU as [|? ? U1 U2]; subst. destruct (HK k (or_introl eq_refl)) as (CW & SE & SB). destruct (driven_frame_ok (me_sensor k) theta h G (step (me_sensor k)) d (screens, shares 0 (map fst lm) c) b xy U1 CW H1) as (F1 & F2 & D1 & D2).
      unfold exact_slope in *. unfold slope_error in SE. cbn [fst snd] in D1, D2. destruct (me_x k); (split; [assumption|]); (split; [eapply Rle_trans; [eassumption|exact SE]|exact SB]).
    - inversion HU as [|? ? U1 U2]; subst. apply IH; [exact U2|]. intros k' Hk'. apply HK. right. exact Hk'. }
  split; [clear - ALL; induction ALL as [|k x me s _ _ IH]; [reflexivity|cbn; rewrite IH; reflexivity]|]. split.
  - clear - ALL. induction ALL as [|k x me s [F _] _ IH]; constructor; [exact F|exact IH].
  - intros x m row Ho Hr. rewrite (owner_closed lm x m Ho). destruct (proj1 (Forall_forall _ _) HC row (nth_error_In _ _ Hr)) as [LR WR].
    assert (A2 : Forall2 (fun k y => Rabs (B2R y - exact_slope step screens (map fst lm) c k) <= e /\ Rabs (exact_slope step screens (map fst lm) c k) <= S) me (sl c)) by (clear - ALL; induction ALL as [|k y me s [_ F] _ IH]; constructor; [exact F|exact IH]).
    destruct (rows_ok (exact_slope step screens (map fst lm) c) S e E0 me (sl c) A2 row LR) as [D A]. pose proof (HR x row Hr) as X. assert (W1 : weight row * e <= R1 * e) by (apply Rmult_le_compat_r; lra). assert (W2 : weight row * (S + e) <= R1 * (S + e)) by (apply Rmult_le_compat_r; lra).
    split; [|lra]. match type of X with Rabs (?a - ?w) <= _ => replace (exact_sum row (sl c) - w) with ((exact_sum row (sl c) - a) + (a - w)) by ring end. eapply Rle_trans; [apply Rabs_triang|]. lra.
Qed.

(** Property theorems C202: the progress bar of the GUI. *)
From Coq Require Import String.
From Verif.Base Require Import Vec.
From Verif.Model Require Import GuiProgress.
From Verif.Spec Require Import GuiProgressSpec.
From Verif.Proofs Require Import GuiProgressProofs.
Local Open Scope Z_scope.

(** C202, in part: after k + 1 of n steps of making an interaction matrix or of the loop, the bar shows the share of the k steps before to the
    nearest percent and the label their number; the bar stays between 0 and 100 and never goes back; messages, with or without a number, leave it alone. *)
Theorem C202_counts_partial : forall (m : string) (n : Z) (k : nat) (p : panel), Z.of_nat k < n ->
  let q := panel_after (steps_emit m n (S k)) p in
  shows_share q (Z.of_nat k) n /\ reads q m (Z.of_nat k) n /\ 0 <= bar q <= 100 /\
  (forall j, (j <= k)%nat -> bar (panel_after (steps_emit m n (S j)) p) <= bar q) /\
  forall msg, bar (panel_after (steps_emit m n (S k) ++ message_emit msg :: nil) p) = bar q /\ text (panel_after (steps_emit m n (S k) ++ message_emit msg :: nil) p) = Plain (Str msg) /\
    forall i, panel_after (steps_emit m n (S k) ++ (Str msg, Num i, Str EmptyString) :: nil) p = mkPanel (bar q) (Numbered (Str msg) (Num i)).
Proof.
  intros m n k p Hk. cbv zeta. rewrite (steps_last m n k p) by lia. pose proof (percent_near (Z.of_nat k) n ltac:(lia)) as N.
  unfold shows_share, reads. cbn [bar text]. split; [exact N|]. split; [reflexivity|]. split; [nia|]. split.
  - intros j J. rewrite (steps_last m n j p) by lia. cbn [bar]. destruct (Nat.eq_dec j k) as [->|Ne]; [lia|].
    pose proof (percent_near (Z.of_nat j) n ltac:(lia)) as M. nia.
  - intros msg. rewrite after_snoc, (steps_last m n k p) by lia. split; [reflexivity|]. split; [reflexivity|]. intros i. rewrite after_snoc, (steps_last m n k p) by lia. reflexivity.
Qed.
Print Assumptions C202_counts_partial.

(** C202 is false of the end: when all n steps are done the label reads n - 1 of n, and below 200 steps the bar is below 100. *)
Theorem C202_done_refuted : forall (m : string) (n : nat) (p : panel), (0 < n)%nat ->
  let q := panel_after (steps_emit m (Z.of_nat n) n) p in
  reads q m (Z.of_nat n - 1) (Z.of_nat n) /\ (Z.of_nat n < 200 -> bar q < 100).
Proof.
  intros m n p Hn. destruct n as [|n]; [lia|]. cbv zeta. rewrite steps_last by lia. unfold reads. cbn [text bar]. split; [repeat f_equal; lia|].
  intros L. pose proof (percent_near (Z.of_nat n) (Z.of_nat (S n)) ltac:(lia)) as N. nia.
Qed.
Print Assumptions C202_done_refuted.

(** C202 is false of the Learn: every frame moves the bar forward and back again (for less than 100 frames visibly); and the announcement of the
    covariance matrices is an error, which leaves bar and label as they were. *)
Theorem C202_learn_refuted : forall (n : Z) (k : nat) (p : panel), Z.of_nat k < n ->
  let q := panel_after (learn_emit n k ++ status_emit (Z.of_nat k + 1) n "Performing Learn" :: nil) p in
  let r := panel_after (learn_emit n (S k)) p in
  reads q "Performing Learn" (Z.of_nat k + 1) n /\ reads r "Performing Learn" (Z.of_nat k) n /\ (n < 100 -> bar r < bar q) /\
  progress_update (fst (fst covariance_emit)) (snd (fst covariance_emit)) (snd covariance_emit) r = Err ValueError /\
  panel_after (learn_emit n (S k) ++ covariance_emit :: nil) p = r.
Proof.
  intros n k p Hk. cbv zeta.
  assert (R : panel_after (learn_emit n (S k)) p = mkPanel (percent (Z.of_nat k) n) (Counting (Str "Performing Learn") (Num (Z.of_nat k)) (Num n))).
  { rewrite learn_snoc. replace (learn_emit n k ++ status_emit (Z.of_nat k + 1) n "Performing Learn" :: (Str "Performing Learn", Num (Z.of_nat k), Num n) :: nil) with ((learn_emit n k ++ status_emit (Z.of_nat k + 1) n "Performing Learn" :: nil) ++ (Str "Performing Learn", Num (Z.of_nat k), Num n) :: nil) by (rewrite <- app_assoc; reflexivity). rewrite after_snoc. apply (slot_status (Z.of_nat k) n "Performing Learn"). lia. }
  rewrite after_snoc, (after_snoc (learn_emit n (S k))), R, slot_status by lia.
  unfold reads. cbn [text bar]. split; [reflexivity|]. split; [reflexivity|]. split; [|split; reflexivity].
  intros L. pose proof (percent_near (Z.of_nat k) n ltac:(lia)). pose proof (percent_near (Z.of_nat k + 1) n ltac:(lia)). nia.
Qed.
Print Assumptions C202_learn_refuted.

(** Three actuators: 0, 33, 67, and never 100. *)
Example C202_instance : map (fun k => bar (panel_after (steps_emit "iMat" 3 k) (mkPanel 10 (Plain (Str "Generating DM Shapes..."))))) (0 :: 1 :: 2 :: 3 :: nil)%nat = (10 :: 0 :: 33 :: 67 :: nil) /\
  map (fun e => bar (panel_after e (mkPanel 10 (Plain (Str ""))))) (learn_emit 3 1 :: (learn_emit 3 1 ++ status_emit 2 3 "Performing Learn" :: nil) :: learn_emit 3 2 :: nil) = (0 :: 67 :: 33 :: nil).
Proof. qc_compute; repeat constructor. Qed.

(** The progress bar: proofs. *)
From Coq Require Import String.
From Verif.Base Require Import Vec.
From Verif.Model Require Import GuiProgress.
From Verif.Spec Require Import GuiProgressSpec.
Local Open Scope Z_scope.

Definition percent (k n : Z) : Z := qc_round (qz 100 * (qz k / qz n))%Qc.
Lemma percent_near k n : 0 < n -> 2 * Z.abs (percent k n * n - 100 * k) <= n.
Proof.
  intros Hn. unfold percent. set (x := (qz 100 * (qz k / qz n))%Qc). destruct (qc_round_near x) as [A B].
  assert (P : (0 < qz n)%Qc) by (change 0%Qc with (qz 0); apply (proj2 (qz_lt _ _)); exact Hn).
  assert (E : (x * qz n = qz (100 * k))%Qc).
  { unfold x. rewrite qz_mul. field. intros Z0. rewrite Z0 in P. discriminate P. }
  set (r := qc_round x) in *.
  assert (H2 : (Q2Qc (1 # 2) * qz 2 = 1)%Qc) by (apply Qc_is_canon; reflexivity).
  assert (U : 2 * (r * n - 100 * k) <= n).
  { apply (proj1 (qz_le _ _)). rewrite qz_mul. replace (r * n - 100 * k)%Z with (r * n + - (100 * k))%Z by ring. rewrite (qz_add (r * n)), (qz_mul r n), (qz_opp (100 * k)), <- E.
    assert (Q : ((qz r - x) * qz n <= Q2Qc (1 # 2) * qz n)%Qc) by (apply Qcmult_le_compat_r; [exact A|apply Qclt_le_weak; exact P]).
    assert (Q2 : ((qz r - x) * qz n * qz 2 <= Q2Qc (1 # 2) * qz n * qz 2)%Qc) by (apply Qcmult_le_compat_r; [exact Q|discriminate]).
    replace (qz 2 * (qz r * qz n + - (x * qz n)))%Qc with ((qz r - x) * qz n * qz 2)%Qc by ring.
    replace (qz n) with (Q2Qc (1 # 2) * qz n * qz 2)%Qc at 2; [exact Q2|]. transitivity (Q2Qc (1 # 2) * qz 2 * qz n)%Qc; [ring|]. rewrite H2. ring. }
  assert (L : 2 * (100 * k - r * n) <= n).
  { apply (proj1 (qz_le _ _)). rewrite qz_mul. replace (100 * k - r * n)%Z with (100 * k + - (r * n))%Z by ring. rewrite (qz_add (100 * k)), (qz_opp (r * n)), <- E.
    assert (Q : ((x - qz r) * qz n <= Q2Qc (1 # 2) * qz n)%Qc) by (apply Qcmult_le_compat_r; [exact B|apply Qclt_le_weak; exact P]).
    assert (Q2 : ((x - qz r) * qz n * qz 2 <= Q2Qc (1 # 2) * qz n * qz 2)%Qc) by (apply Qcmult_le_compat_r; [exact Q|discriminate]).
    rewrite (qz_mul r n).
    replace (qz 2 * (x * qz n + - (qz r * qz n)))%Qc with ((x - qz r) * qz n * qz 2)%Qc by ring.
    replace (qz n) with (Q2Qc (1 # 2) * qz n * qz 2)%Qc at 2; [exact Q2|]. transitivity (Q2Qc (1 # 2) * qz 2 * qz n)%Qc; [ring|]. rewrite H2. ring. }
  lia.
Qed.
Lemma slot_status i n m p : n <> 0 -> slot (status_emit i n m) p = mkPanel (percent i n) (Counting (Str m) (Num i) (Num n)).
Proof. intros Hn. unfold slot, status_emit, progress_update. cbn [nonempty andb]. rewrite (proj2 (Z.eqb_neq n 0) Hn). reflexivity. Qed.
Lemma after_snoc es e p : panel_after (es ++ e :: nil) p = slot e (panel_after es p).
Proof. unfold panel_after. rewrite fold_left_app. reflexivity. Qed.
Lemma steps_last m n k p : n <> 0 -> panel_after (steps_emit m n (S k)) p = mkPanel (percent (Z.of_nat k) n) (Counting (Str m) (Num (Z.of_nat k)) (Num n)).
Proof. intros Hn. unfold steps_emit. rewrite seq_S, map_app. cbn [map plus]. rewrite after_snoc. apply slot_status. exact Hn. Qed.
Lemma learn_snoc n k : learn_emit n (S k) = learn_emit n k ++ status_emit (Z.of_nat k + 1) n "Performing Learn" :: (Str "Performing Learn", Num (Z.of_nat k), Num n) :: nil.
Proof. unfold learn_emit. rewrite seq_S, flat_map_app. cbn [flat_map plus app]. reflexivity. Qed.

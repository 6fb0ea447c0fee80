(** Proofs about the tip-tilt mirror under LearnAndApply. *)
From Verif.Base Require Import Vec.
From Verif.Model Require Import Recon Control.
From Verif.Spec Require Import ControlSpec CommonTtSpec.
From Verif.Proofs Require Import ControlProofs ControlUse CommonTtProofs.
From Verif.Spec Require Import TipTiltSpec.
From Coq Require Import Lia.

Lemma shift_mean c (v : vec) : vshift (vmean (map (fun x => x + c)%Qc v)) (map (fun x => x + c)%Qc v) = vshift (vmean v) v.
Proof.
  destruct v as [|a v]; [reflexivity|]. change vmean with mean_of. rewrite mean_plus by discriminate. unfold vshift. rewrite map_map.
  apply map_ext. intros x. ring.
Qed.
Lemma with_tt_add h cx cy (v : vec) : length v = (2 * h)%nat -> with_tt h cx cy v = vadd v (pure_tt h cx cy).
Proof.
  intros L. unfold with_tt, pure_tt.
  assert (G : forall c (w r r' : vec), vadd (w ++ r) (repeat c (length w) ++ r') = map (fun x => x + c)%Qc w ++ vadd r r').
  { intros c w r r'. induction w as [|x w IH]; [reflexivity|]. cbn. change (vmap2 Qcplus) with vadd. now rewrite IH. }
  pose proof (G cx (firstn h v) (skipn h v) (repeat cy h)) as A. pose proof (G cy (skipn h v) [] []) as B.
  rewrite firstn_skipn, firstn_length, Nat.min_l in A by lia. rewrite !app_nil_r, skipn_length in B. replace (length v - h)%nat with h in B by lia.
  rewrite A, B. reflexivity.
Qed.
Lemma tt_split ws ms net acts c s m m' d0 r n h cx cy out out' t t' :
  ms = d0 :: r -> m_tt d0 = true -> first_sh ws n -> n = (2 * h)%nat -> (2 <= length (k_ctrl c))%nat ->
  mvm (k_tomo c) (skipn n m') = with_tt h cx cy (mvm (k_tomo c) (skipn n m)) ->
  frame_of ws ms net LearnAndApply acts c s m = Ok (out, t) -> frame_of ws ms net LearnAndApply acts c s m' = Ok (out', t') ->
  firstn 2 out' = vadd (firstn 2 out) (mvm (firstn 2 (k_ctrl c)) (pure_tt h cx cy)) /\ skipn 2 out' = skipn 2 out.
Proof.
  intros -> T0 HF -> HP HE. cbn [frame_of]. unfold la_reconstruct. rewrite (on_axis_sh _ _ HF). cbn [bind]. unfold dot_chk.
  destruct (length (skipn (2 * h) m) =? _)%nat; cbn [bind]; [|discriminate]. destruct (length (skipn (2 * h) m') =? _)%nat; cbn [bind]; [|discriminate].
  rewrite T0, HE. set (v := mvm (k_tomo c) (skipn (2 * h) m)). replace (2 * h / 2)%nat with h by (rewrite Nat.mul_comm, Nat.div_mul; lia).
  destruct (Nat.eqb_spec (length v) (2 * h)) as [L|]; [|discriminate]. destruct (_ =? _)%nat; [|discriminate].
  intros H H'. injection H as <- <-. injection H' as <- <-.
  assert (L2 : forall w, length (mvm (firstn 2 (k_ctrl c)) w) = 2%nat) by (intros; rewrite mvm_length, firstn_length; lia).
  assert (F : forall w z : vec, length w = 2%nat -> firstn 2 (w ++ z) = w /\ skipn 2 (w ++ z) = z).
  { intros w z E. rewrite <- E. split; [rewrite firstn_app, firstn_all, Nat.sub_diag; cbn; apply app_nil_r|rewrite skipn_app, skipn_all, Nat.sub_diag; reflexivity]. }
  rewrite (proj1 (F _ _ (L2 _))), (proj1 (F _ _ (L2 _))), (proj2 (F _ _ (L2 _))), (proj2 (F _ _ (L2 _))). split.
  - rewrite with_tt_add by exact L. apply mvm_add. unfold pure_tt. rewrite app_length, !repeat_length. lia.
  - f_equal. unfold with_tt.
    assert (F' : forall w z : vec, length w = h -> firstn h (w ++ z) = w /\ skipn h (w ++ z) = z).
    { intros w z <-. split; [rewrite firstn_app, firstn_all, Nat.sub_diag; cbn; apply app_nil_r|rewrite skipn_app, skipn_all, Nat.sub_diag; reflexivity]. }
    destruct (F' (map (fun x => x + cx)%Qc (firstn h v)) (map (fun y => y + cy)%Qc (skipn h v))) as [E1 E2]; [rewrite map_length, firstn_length; lia|].
    rewrite E1, E2, !shift_mean. reflexivity.
Qed.

(** Constant disturbances seen by a loop whose control matrix is a pseudo-inverse. *)
From Verif.Base Require Import Vec.
From Verif.Model Require Import Recon Delay Dm Loop.
From Verif.Spec Require Import ReconSpec LoopSpec RobustSpec.
From Verif.Spec Require Import PinvSpec.
From Verif.Proofs Require Import PinvProofs.
From Verif.Proofs Require Import ReconProofs DelayProofs LoopProofs LoopScalar LoopConv RobustProofs.
Local Open Scope Qc_scope.

Lemma vsub_axpy (b p : vec) : length b = length p -> vsub b p = axpy (-(1)) p b.
Proof.
  revert p. induction b as [|x b IH]; intros [|y p] E; try discriminate; [reflexivity|].
  change (vsub (x :: b) (y :: p)) with (x - y :: vsub b p). rewrite axpy_cons. injection E as E. rewrite IH by exact E. f_equal. ring.
Qed.
Lemma elem_vsub (b p : vec) k : length b = length p -> elem (vsub b p) k = elem b k - elem p k.
Proof. intros E. rewrite vsub_axpy, elem_axpy by congruence. ring. Qed.
Lemma elem_vscale a (v : vec) k : elem (vscale a v) k = a * elem v k.
Proof. unfold elem, vscale. revert k. induction v as [|x v IH]; intros [|k]; cbn [map nth]; try ring; [apply IH]. Qed.
Lemma elem_le (v : vec) k : qc_abs (elem v k) <= vmax_abs v.
Proof.
  unfold elem. revert k. induction v as [|x v IH]; intros [|k]; cbn [nth vmax_abs fold_right]; try (rewrite qc_abs_0; qclra).
  - apply qc_max_l.
  - eapply Qcle_trans; [apply IH|apply qc_max_r].
Qed.
Lemma predicted_scale nmeas imat a (v : vec) : predicted nmeas imat (vscale a v) = vscale a (predicted nmeas imat v).
Proof.
  apply (elem_ext _ _ nmeas); [apply predicted_length|rewrite vscale_length; apply predicted_length|]. intros k Hk. rewrite elem_vscale. unfold predicted.
  rewrite !elem_map_seq by exact Hk. generalize (seq 0 (length imat)). intros l. induction l as [|x l IH]; [change (0 = a * 0); ring|]. cbn [map].
  change (lsum (?h :: ?l)) with (h + lsum l). rewrite IH, elem_vscale. ring.
Qed.
Lemma dot_self_nonneg (v : vec) : 0 <= dot v v.
Proof. induction v as [|x v IH]; [vm_compute; discriminate|]. rewrite dot_cons. pose proof (sq_nonneg x). qclra. Qed.
Lemma dot_plus_l (u v w : vec) : length u = length v -> dot (vadd u v) w = dot u w + dot v w.
Proof. intros E. rewrite dot_comm, dot_add_r by exact E. rewrite (dot_comm u), (dot_comm v). reflexivity. Qed.
Lemma dot_pyth (r q : vec) a : length r = length q -> dot r q = 0 -> dot (vadd r (vscale a q)) (vadd r (vscale a q)) = dot r r + a * a * dot q q.
Proof.
  intros E H. assert (E' : length r = length (vscale a q)) by (rewrite vscale_length; exact E).
  rewrite dot_plus_l, !dot_add_r, !dot_scale_r by assumption. rewrite (dot_comm (vscale a q) r), (dot_comm (vscale a q) q), !dot_scale_r, H. ring.
Qed.
Lemma err_scale g t d n : err g t d n = t * err g 1 d n.
Proof.
  induction n as [n IH] using lt_wf_ind. destruct (le_lt_dec n d) as [Hn|Hn]; [rewrite !err_start by exact Hn; ring|].
  assert (E : n = S ((n - S d) + d)) by lia. rewrite E, !err_step. rewrite (IH (n - S d + d)%nat), (IH (n - S d)%nat) by lia. ring.
Qed.
Lemma err_left_over g d : left_over g d (err g 1 d).
Proof. split; [intros n Hn; apply err_start; exact Hn|]. intros k. apply err_step. Qed.
Lemma err_none g t n : err g t 0 n = (1 - g) ^ n * t.
Proof.
  induction n; [rewrite err_start by lia; cbn [Qcpower]; ring|].
  replace (S n) with (S (n + 0)) by lia. rewrite err_step, Nat.add_0_r, IHn. cbn [Qcpower]. ring.
Qed.

Section Static.
  Variable fit : nat -> vec -> vec.
  Variables npix npx nmeas : nat.
  Variable wfss : list (list vec -> vec).
  Variables ds0 ds : list dm.
  Variables imat ctrl : mat.
  Hypothesis HS : projecting_system fit npix npx nmeas wfss ds0 ds imat ctrl.
  Variable g : Qc.
  Hypothesis HC : all_closed_at g ds.
  Let total := actuators ds.
  Notation P := (predicted nmeas imat).

  Lemma static_run dl base N outs n o : length base = nmeas -> system_run fit npx nmeas wfss ds ctrl dl (repeat base N) = Ok outs -> nth_error outs n = Some o ->
    applied o = vscale (1 - err g 1 dl n) (mvm ctrl base) /\ measured o = vadd (vsub base (P (mvm ctrl base))) (vscale (err g 1 dl n) (P (mvm ctrl base))).
  Proof.
    intros Hb HR Ho. assert (HB : Forall (fun b : vec => length b = nmeas) (repeat base N)) by (apply Forall_forall; intros b Hi; apply repeat_spec in Hi; rewrite Hi; exact Hb).
    destruct (projecting_law fit npix npx nmeas wfss ds0 ds imat ctrl HS g HC dl _ HB) as (outs' & R1 & R2 & (u & U0 & U) & R4).
    assert (outs' = outs) by congruence. subst outs'. rewrite repeat_length in R2.
    pose proof (ctrl_len fit npix npx nmeas wfss ds0 ds imat ctrl HS) as CL. fold total in CL, U0, U.
    set (K := mvm ctrl base) in *. assert (LK : length K = total) by (unfold K; rewrite mvm_length; exact CL).
    assert (NB : forall k, (k < N)%nat -> exists ok, nth_error outs k = Some ok /\ nth_error (repeat base N) k = Some base).
    { intros k Hk. destruct (nth_error outs k) as [ok|] eqn:Ek; [|apply nth_error_None in Ek; lia]. exists ok. split; [reflexivity|]. apply nth_error_repeat, Hk. }
    assert (HU : forall k, (k < N)%nat -> u k = vscale (1 - err g 1 dl (k + dl)) K).
    { induction k as [k IH] using lt_wf_ind. intros Hk. destruct k as [|k].
      - rewrite U0, err_start by lia. replace (1 - 1) with 0 by ring. rewrite vscale_0, LK. reflexivity.
      - destruct (NB k ltac:(lia)) as (ok & O1 & O2). destruct (U k base ok O2 O1) as (C1 & C2 & C3). rewrite C3, (IH k) by lia. rewrite C1. fold K.
        apply (elem_ext _ _ total).
        + rewrite axpy_length; [rewrite vscale_length; exact LK|]. rewrite axpy_length; [rewrite vscale_length; reflexivity|].
          destruct (k <? dl)%nat eqn:Ek; [rewrite vzero_length, LK; reflexivity|]. apply Nat.ltb_ge in Ek. rewrite (IH (k - dl)%nat) by lia. apply vscale_length.
        + rewrite vscale_length. exact LK.
        + intros x Hx. assert (LA : length (if (k <? dl)%nat then vzero total else u (k - dl)%nat) = length K).
          { destruct (k <? dl)%nat eqn:Ek; [rewrite vzero_length, LK; reflexivity|]. apply Nat.ltb_ge in Ek. rewrite (IH (k - dl)%nat) by lia. apply vscale_length. }
          fold K. rewrite elem_axpy by (rewrite axpy_length by exact LA; rewrite vscale_length; reflexivity). rewrite elem_axpy by exact LA. rewrite !elem_vscale.
          replace (S k + dl)%nat with (S (k + dl)) by lia. rewrite err_step. destruct (k <? dl)%nat eqn:Ek.
          * apply Nat.ltb_lt in Ek. rewrite (err_start g 1 dl k) by lia. replace (elem (vzero total) x) with 0 by (unfold elem; symmetry; apply (nth_error_nth (vzero total)); apply nth_error_repeat; exact Hx). ring.
          * apply Nat.ltb_ge in Ek. rewrite (IH (k - dl)%nat) by lia. rewrite elem_vscale. replace (k - dl + dl)%nat with k by lia. ring. }
    assert (Hn : (n < N)%nat) by (rewrite <- R2; apply nth_error_Some; congruence).
    assert (A : applied o = vscale (1 - err g 1 dl n) K).
    { destruct (U n base o (nth_error_repeat _ Hn) Ho) as (C1 & _ & _). rewrite C1. destruct (n <? dl)%nat eqn:En.
      - apply Nat.ltb_lt in En. rewrite err_start by lia. replace (1 - 1) with 0 by ring. rewrite vscale_0, LK. reflexivity.
      - apply Nat.ltb_ge in En. rewrite HU by lia. replace (n - dl + dl)%nat with n by lia. reflexivity. }
    split; [exact A|]. destruct (R4 n base o (nth_error_repeat _ Hn) Ho) as (_ & M & _). rewrite M, A, predicted_scale.
    assert (LP : length (P K) = nmeas) by apply predicted_length.
    apply (elem_ext _ _ nmeas); [rewrite axpy_length; [exact Hb|rewrite vscale_length; congruence]|rewrite vadd_length; rewrite vsub_length; rewrite ?vscale_length; congruence|].
    intros k Hk. rewrite elem_axpy by (rewrite vscale_length; congruence). rewrite elem_vadd by (rewrite vsub_length; rewrite ?vscale_length; congruence).
    rewrite elem_vsub by congruence. rewrite !elem_vscale. ring.
  Qed.
  Lemma blind base : length base = nmeas -> mvm ctrl (vsub base (P (mvm ctrl base))) = vzero total.
  Proof.
    intros Hb. pose proof (ctrl_len fit npix npx nmeas wfss ds0 ds imat ctrl HS) as CL. destruct HS as [_ _ _ _ _ _ [_ HP]].
    rewrite vsub_axpy by (rewrite predicted_length; exact Hb). rewrite mvm_axpy by (rewrite predicted_length; congruence). rewrite HP by exact Hb.
    rewrite axpy_self, mvm_length. f_equal. exact CL.
  Qed.
  Lemma pinv_settles dl base e : length base = nmeas -> 0 < g -> g <= 1 -> g * qz (Z.of_nat dl) < 1 -> 0 < e ->
    exists N0, forall N outs n o, system_run fit npx nmeas wfss ds ctrl dl (repeat base N) = Ok outs -> nth_error outs n = Some o -> (N0 <= n)%nat ->
      (forall x, qc_abs (elem (mvm ctrl base) x - elem (applied o) x) <= e) /\
      (forall k, qc_abs (elem (measured o) k - elem (vsub base (P (mvm ctrl base))) k) <= e).
  Proof.
    intros Hb G0 G1 Gd He. set (B := vmax_abs (mvm ctrl base) + vmax_abs (P (mvm ctrl base)) + 1).
    pose proof (vmax_abs_nonneg (mvm ctrl base)) as B1. pose proof (vmax_abs_nonneg (P (mvm ctrl base))) as B2.
    assert (BP : 0 < B) by (unfold B; qclra). assert (BN : B <> 0) by (intros E; rewrite E in BP; revert BP; qclra).
    pose proof (Qcmult_inv_r _ BN) as BI. assert (IP : 0 < / B). { destruct (Qclt_le_dec 0 (/ B)); auto. exfalso. clearbody B. qcnra. }
    destruct (delay_converges g dl (err g 1 dl) G0 G1 Gd (err_step _ _ _) (e * / B)) as [N0 H0]; [clearbody B; qcnra|].
    exists N0. intros N outs n o HR Ho Hn. destruct (static_run dl base N outs n o Hb HR Ho) as [A M]. specialize (H0 n Hn).
    assert (Z : forall v, qc_abs v <= B -> qc_abs (err g 1 dl n * v) <= e).
    { intros v Hv. rewrite qc_abs_mul. pose proof (qc_abs_nonneg v). pose proof (qc_abs_nonneg (err g 1 dl n)). remember (qc_abs (err g 1 dl n)) as a. remember (qc_abs v) as b. remember (/ B) as i.
      assert (a * b <= a * B) by (clearbody B; qcnra). assert (a * B <= e * i * B) by (clearbody B; qcnra). assert (E : e * i * B = e * (B * i)) by ring. rewrite BI in E. qclra. }
    split.
    - intros x. rewrite A, elem_vscale. replace (elem (mvm ctrl base) x - (1 - err g 1 dl n) * elem (mvm ctrl base) x) with (err g 1 dl n * elem (mvm ctrl base) x) by ring.
      apply Z. eapply Qcle_trans; [apply elem_le|]. unfold B. qclra.
    - intros k. rewrite M. rewrite elem_vadd by (rewrite vsub_length; rewrite ?vscale_length, ?predicted_length; congruence). rewrite elem_vscale.
      match goal with |- qc_abs (?a + ?b - ?a) <= _ => replace (a + b - a) with b by ring end.
      apply Z. eapply Qcle_trans; [apply elem_le|]. unfold B. qclra.
  Qed.
  Lemma pinv_squares dl base N outs n o : least_squares nmeas imat ctrl -> length base = nmeas -> system_run fit npx nmeas wfss ds ctrl dl (repeat base N) = Ok outs -> nth_error outs n = Some o ->
    dot (measured o) (measured o) = dot (vsub base (P (mvm ctrl base))) (vsub base (P (mvm ctrl base))) + err g 1 dl n * err g 1 dl n * dot (P (mvm ctrl base)) (P (mvm ctrl base)).
  Proof.
    intros HQ Hb HR Ho. destruct (static_run dl base N outs n o Hb HR Ho) as [_ M]. rewrite M. apply dot_pyth; [rewrite vsub_length; rewrite ?predicted_length; congruence|].
    apply HQ; exact Hb.
  Qed.
  Lemma least base c : least_squares nmeas imat ctrl -> length base = nmeas -> length c = total -> P (mvm ctrl (P c)) = P c ->
    dot (vsub base (P (mvm ctrl base))) (vsub base (P (mvm ctrl base))) <= dot (vsub base (P c)) (vsub base (P c)).
  Proof.
    intros HQ Hb Hc HP. pose proof (ctrl_len fit npix npx nmeas wfss ds0 ds imat ctrl HS) as CL.
    set (q := P (axpy (-(1)) c (mvm ctrl base))).
    assert (LP : forall v, length (P v) = nmeas) by (intros; apply predicted_length).
    assert (LC : length c = length (mvm ctrl base)) by (rewrite mvm_length, CL; exact Hc).
    assert (E : vsub base (P c) = vadd (vsub base (P (mvm ctrl base))) (vscale 1 q)).
    { apply (elem_ext _ _ nmeas); [rewrite vsub_length; rewrite ?LP; exact Hb|rewrite vadd_length; rewrite vsub_length; rewrite ?vscale_length, ?LP; unfold q; rewrite ?LP; congruence|].
      intros k Hk. rewrite elem_vadd by (rewrite vsub_length; rewrite ?vscale_length, ?LP; unfold q; rewrite ?LP; congruence).
      rewrite !elem_vsub by (rewrite LP; exact Hb). rewrite elem_vscale. unfold q. rewrite predicted_axpy by exact LC. rewrite elem_axpy by (rewrite !LP; reflexivity). ring. }
    rewrite E, dot_pyth; [pose proof (dot_self_nonneg q); qclra|rewrite vsub_length; unfold q; rewrite ?LP; exact Hb|].
    unfold q. replace (P (axpy (-(1)) c (mvm ctrl base))) with (P (mvm ctrl (axpy (-(1)) (P c) base))).
    - apply HQ; [exact Hb|]. rewrite axpy_length; [exact Hb|rewrite LP; congruence].
    - rewrite mvm_axpy by (rewrite LP; congruence). rewrite (predicted_axpy nmeas imat (-(1)) (mvm ctrl (P c))) by (rewrite !mvm_length; reflexivity). rewrite (predicted_axpy nmeas imat (-(1)) c) by exact LC. rewrite HP. reflexivity.
  Qed.
  Lemma never_worse base N outs n o o' : least_squares nmeas imat ctrl -> 0 <= g -> g <= 1 + 1 -> length base = nmeas -> system_run fit npx nmeas wfss ds ctrl 0 (repeat base N) = Ok outs ->
    nth_error outs n = Some o -> nth_error outs (S n) = Some o' -> dot (measured o') (measured o') <= dot (measured o) (measured o).
  Proof.
    intros HQ G0 G2 Hb HR Ho Ho'. rewrite (pinv_squares 0 base N outs n o HQ Hb HR Ho), (pinv_squares 0 base N outs (S n) o' HQ Hb HR Ho'). rewrite !err_none.
    cbn [Qcpower]. set (p := (1 - g) ^ n). pose proof (dot_self_nonneg (P (mvm ctrl base))) as D. set (q := dot (P (mvm ctrl base)) (P (mvm ctrl base))) in *.
    assert (W : (1 - g) * (1 - g) <= 1) by (clear - G0 G2; qcnra). pose proof (sq_nonneg p) as SP.
    assert (W2 : (1 - g) * (1 - g) * (p * p * q) <= 1 * (p * p * q)).
    { assert (0 <= p * p * q) by (remember (p * p) as pp; clear - SP D; qcnra). remember (p * p * q) as z. remember ((1 - g) * (1 - g)) as w. clear - W H. qcnra. }
    replace ((1 - g) * p * 1 * ((1 - g) * p * 1) * q) with ((1 - g) * (1 - g) * (p * p * q)) by ring. replace (p * 1 * (p * 1) * q) with (1 * (p * p * q)) by ring. qclra.
  Qed.
End Static.

(** Proofs about a loop whose control matrix is a pseudo-inverse. *)
From Verif.Base Require Import Vec.
From Verif.Model Require Import Recon Delay Dm Loop.
From Verif.Spec Require Import ReconSpec LoopSpec RobustSpec.
From Verif.Spec Require Import PinvSpec.
From Verif.Proofs Require Import ReconProofs DelayProofs LoopProofs LoopScalar RobustProofs.

Lemma elem_ext (u v : vec) n : length u = n -> length v = n -> (forall x, (x < n)%nat -> elem u x = elem v x) -> u = v.
Proof. intros Hu Hv H. apply (nth_ext _ _ 0%Qc 0%Qc); [congruence|]. intros x Hx. apply H. congruence. Qed.
Lemma predicted_length nmeas imat c : length (predicted nmeas imat c) = nmeas.
Proof. unfold predicted. rewrite map_length, seq_length. reflexivity. Qed.
Lemma elem_map_seq (f : nat -> Qc) n k : (k < n)%nat -> elem (map f (seq 0 n)) k = f k.
Proof.
  intros Hk. unfold elem. rewrite (nth_indep _ 0%Qc (f 0%nat)) by (rewrite map_length, seq_length; exact Hk).
  rewrite map_nth, seq_nth by exact Hk. reflexivity.
Qed.
Lemma lsum_axpy {A} (a : Qc) (f g h : A -> Qc) l : (forall x, In x l -> h x = a * f x + g x)%Qc -> lsum (map h l) = (a * lsum (map f l) + lsum (map g l))%Qc.
Proof.
  induction l as [|x l IH]; intros H; [change (0 = a * 0 + 0)%Qc; ring|].
  change (h x + lsum (map h l) = a * (f x + lsum (map f l)) + (g x + lsum (map g l)))%Qc.
  rewrite IH by (intros; apply H; right; auto). rewrite (H x) by (left; auto). ring.
Qed.
Lemma predicted_axpy nmeas imat a u v : length u = length v ->
  predicted nmeas imat (axpy a u v) = axpy a (predicted nmeas imat u) (predicted nmeas imat v).
Proof.
  intros E. apply (elem_ext _ _ nmeas); [apply predicted_length|rewrite axpy_length; rewrite !predicted_length; reflexivity|].
  intros k Hk. rewrite elem_axpy by (rewrite !predicted_length; reflexivity). unfold predicted. rewrite !elem_map_seq by exact Hk.
  apply lsum_axpy. intros x _. rewrite elem_axpy by exact E. ring.
Qed.
Lemma lsum_single (f : nat -> Qc) y : forall m s, lsum (map (fun x => (if (x =? y)%nat then 1 else 0) * f x)%Qc (seq s m))
   = if (s <=? y)%nat && (y <? s + m)%nat then f y else 0%Qc.
Proof.
  induction m as [|m IH]; intros s.
  - cbn [seq map]. change (lsum []) with 0%Qc. destruct (Nat.leb_spec s y), (Nat.ltb_spec y (s + 0)); try reflexivity; lia.
  - cbn [seq map]. change (lsum (?a :: ?l)) with (a + lsum l)%Qc. rewrite IH. destruct (Nat.eqb_spec s y) as [->|Ne].
    + rewrite Nat.leb_refl. replace (S y <=? y)%nat with false by (symmetry; apply Nat.leb_gt; lia).
      replace (y <? y + S m)%nat with true by (symmetry; apply Nat.ltb_lt; lia). cbn [andb]. ring.
    + destruct (Nat.leb_spec (S s) y), (Nat.leb_spec s y), (Nat.ltb_spec y (S s + m)), (Nat.ltb_spec y (s + S m)); cbn [andb]; try lia; ring.
Qed.
Lemma predicted_unit nmeas imat y row : nth_error imat y = Some row -> length row = nmeas -> predicted nmeas imat (unit_vec (length imat) y) = row.
Proof.
  intros Hy HL. assert (Y : (y < length imat)%nat) by (apply nth_error_Some; congruence).
  apply (elem_ext _ _ nmeas); [apply predicted_length|exact HL|]. intros k Hk. unfold predicted. rewrite elem_map_seq by exact Hk.
  etransitivity; [|apply (f_equal (fun r => elem r k) (nth_error_nth imat y [] Hy))].
  rewrite (map_ext (fun x => elem (unit_vec (length imat) y) x * elem (nth x imat []) k)%Qc (fun x => (if (x =? y)%nat then 1 else 0) * elem (nth x imat []) k)%Qc).
  - rewrite (lsum_single (fun x => elem (nth x imat []) k)). destruct (Nat.leb_spec 0 y); [|lia]. match goal with |- context [Nat.ltb y ?m] => destruct (Nat.ltb_spec y m) as [|Hge] end; [reflexivity|]. exfalso. unfold vec in *. cbn [Nat.add] in Hge. lia.
  - intros x. rewrite elem_unit by exact Y. reflexivity.
Qed.

Section System.
  Variable fit : nat -> vec -> vec.
  Variables npix npx nmeas : nat.
  Variable wfss : list (list vec -> vec).
  Variables ds0 ds : list dm.
  Variables imat ctrl : mat.
  Hypothesis HS : projecting_system fit npix npx nmeas wfss ds0 ds imat ctrl.
  Let total := actuators ds.
  Notation surfs c := (LoopProofs.surfaces fit npix npx (fun _ => true) 0 0 ds c).

  Lemma facts : length ds = length ds0 /\ length imat = total /\ Forall (driven npix) ds.
  Proof.
    destruct HS as [HF HI HL HT HW HN HR].
    destruct (calibration_matches_operation fit npx wfss (fun k n => proj1 (proj2 (HT k)) n) npix ds0 ds imat HF HI HL) as [E1 _].
    unfold make_imat in HI. destruct (make_imat_from fit npx wfss (length ds0) 0 ds0) as [ds1 [Ms|e]] eqn:Em; simpl in HI; [|discriminate].
    injection HI as E0 _. rewrite E0 in *. clear E0 ds1.
    destruct (make_imat_from_ok fit npx wfss npix _ _ _ _ _ HF Em) as (L1 & L2 & H).
    split; [auto|]. split; [exact E1|].
    apply nth_all. intros i d' Hd'.
    assert (Hi : (i < length ds0)%nat) by (rewrite <- L1; apply nth_error_Some; congruence).
    destruct (nth_error ds0 i) as [d|] eqn:Ed; [|apply nth_error_None in Ed; lia].
    destruct (H i d Ed) as (d2 & M & E2 & E3 & E4). assert (d2 = d') by congruence. subst d2.
    destruct (calibrated_lengths _ _ _ _ _ _ _ _ E4) as [G1 G2].
    destruct E4 as (flags & _ & Es & _).
    rewrite Forall_forall in HF. destruct (HF d (nth_error_In _ _ Ed)) as [HS0 _].
    split; [|split].
    - unfold dm_shaped in *. rewrite Es. apply Forall_forall. intros s Hs. rewrite Forall_forall in HS0. apply HS0. eapply pick_In; eauto.
    - rewrite G1, G2. reflexivity.
    - rewrite Forall_forall in HL. destruct (HL d' (nth_error_In _ _ Hd')) as [n Hn]. rewrite G1 in Hn. inversion Hn.
      intros E. rewrite E in G2. simpl in G2. lia.
  Qed.
  Lemma fit_len k v : length v = npix -> length (fit k v) = npx.
  Proof. destruct HS as [_ _ _ HT _ _ _]. apply (HT k). Qed.
  Lemma surfs_stack c : stack_ok (length ds0) npx (surfs c).
  Proof. destruct facts as (Hl & _ & HG). rewrite <- Hl. apply (RobustProofs.surfaces_stack fit npix npx fit_len). exact HG. Qed.
  Lemma surfs_axpy a u v : length u = length v -> surfs (axpy a u v) = stack_axpy a (surfs u) (surfs v).
  Proof.
    intros E. destruct facts as (_ & _ & HD). destruct HS as [_ _ _ HT _ _ _].
    assert (G : forall l k o, Forall (driven npix) l ->
      LoopProofs.surfaces fit npix npx (fun _ => true) k o l (axpy a u v)
      = stack_axpy a (LoopProofs.surfaces fit npix npx (fun _ => true) k o l u) (LoopProofs.surfaces fit npix npx (fun _ => true) k o l v)).
    { intros l k o HG. revert k o. induction HG as [|d l Hd HG IH]; intros k o; [reflexivity|].
      cbn [LoopProofs.surfaces]. unfold stack_axpy. cbn [combine map fst snd]. f_equal; [|apply IH].
      unfold LoopProofs.sframe. rewrite seg_axpy by auto. rewrite lincomb_axpy; [|apply Hd|unfold seg; rewrite !firstn_length, !skipn_length; lia].
      apply (HT k); apply (RobustProofs.stack_lincomb_ok npix); auto. }
    apply G. exact HD.
  Qed.
  Lemma slopes_lin a s t : stack_ok (length ds0) npx s -> stack_ok (length ds0) npx t ->
    all_slopes wfss (stack_axpy a s t) = axpy a (all_slopes wfss s) (all_slopes wfss t).
  Proof.
    intros Hs Ht. destruct HS as [_ _ _ _ HW _ _]. clear HS. unfold all_slopes.
    induction HW as [|w ws [[m Hm] Hw] HW IH]; auto. cbn [map concat]. rewrite Hw, IH by auto.
    rewrite axpy_app; auto. rewrite (Hm s Hs), (Hm t Ht). reflexivity.
  Qed.
  (** what the mirrors do to the measurements *)
  Lemma slopes_predicted c : length c = total -> all_slopes wfss (surfs c) = vneg (predicted nmeas imat c).
  Proof.
    intros Hc. destruct facts as (Hl & Hi & HG). pose proof HS as [HF HI HL HT HW HN HR].
    apply (elem_ext _ _ nmeas); [apply HN, surfs_stack|rewrite vneg_length; apply predicted_length|]. intros k Hk. rewrite elem_vneg.
    apply (linear_ext total (fun c => elem (all_slopes wfss (surfs c)) k) (fun c => (- elem (predicted nmeas imat c) k)%Qc)); auto.
    - intros a u v Hu Hv. rewrite surfs_axpy by congruence. rewrite slopes_lin by apply surfs_stack. apply elem_axpy. rewrite !HN by apply surfs_stack. reflexivity.
    - intros a u v Hu Hv. rewrite predicted_axpy by congruence. rewrite elem_axpy by (rewrite !predicted_length; reflexivity). ring.
    - intros y Hy. destruct (calibration_matches_operation fit npx wfss (fun k n => proj1 (proj2 (HT k)) n) npix ds0 ds imat HF HI HL) as [_ E2].
      destruct (nth_error imat y) as [row|] eqn:Er; [|apply nth_error_None in Er; lia].
      destruct (E2 y row Er) as (frames & R1 & R2 & R3). unfold run_dms in R1. rewrite Hi in *.
      rewrite (RobustProofs.run_dms_surfaces fit npix npx ds ctrl) in R1; auto.
      2: apply fit_len. 2: (destruct HR as [HR _]; rewrite HR; exact Hi). 2: (rewrite unit_vec_length; unfold total, actuators; lia).
      injection R1 as R1. rewrite <- R1 in R3. unfold wfs_row in R3. rewrite concat_vneg in R3. fold (all_slopes wfss (surfs (unit_vec total y))) in R3.
      assert (LR : length row = nmeas) by (rewrite R3, vneg_length; apply HN, surfs_stack).
      pose proof (predicted_unit nmeas imat y row Er LR) as PU. unfold vec in PU, Hi. rewrite Hi in PU.
      rewrite PU, R3, elem_vneg. ring.
  Qed.
  Lemma recon_predicted c : length c = total -> mvm ctrl (all_slopes wfss (surfs c)) = vneg (mvm ctrl (predicted nmeas imat c)).
  Proof. intros Hc. rewrite slopes_predicted by exact Hc. rewrite (vneg_scale (predicted nmeas imat c)), mvm_scale, <- vneg_scale. reflexivity. Qed.

  Variable g : Qc.
  Hypothesis HC : all_closed_at g ds.
  Lemma ctrl_len : length ctrl = total.
  Proof. destruct facts as (_ & Hi & _). destruct HS as [_ _ _ _ _ _ [HR _]]. congruence. Qed.
  Lemma uniform_gains A new : length A = total -> length new = total -> gains ds A new = axpy g new A.
  Proof.
    intros HA Hn. destruct facts as (_ & _ & HG). apply (elem_ext _ _ total); [rewrite gains_length; congruence|rewrite axpy_length; congruence|].
    intros x Hx. destruct (belongs_any npix ds HG x Hx) as (d & B & Id). rewrite (gains_elem ds A new x d HA Hn B).
    unfold all_closed_at in HC. rewrite Forall_forall in HC. destruct (HC d Id) as [C1 C2]. rewrite C1, C2, elem_axpy by congruence. ring.
  Qed.
  (** commands that the control matrix can make *)
  Definition made (c : vec) : Prop := length c = total /\ mvm ctrl (predicted nmeas imat c) = c.
  Lemma made_zero : made (vzero total).
  Proof.
    split; [apply vzero_length|]. assert (E : predicted nmeas imat (vzero total) = vzero nmeas).
    { rewrite <- (axpy_zero (-(1)) total). rewrite predicted_axpy by reflexivity. rewrite axpy_self, predicted_length. reflexivity. }
    rewrite E, mvm_zero. f_equal. exact ctrl_len.
  Qed.
  Lemma made_recon s : length s = nmeas -> made (mvm ctrl s).
  Proof. intros H. split; [rewrite mvm_length; exact ctrl_len|]. destruct HS as [_ _ _ _ _ _ [_ HP]]. apply HP, H. Qed.
  Lemma made_axpy a u v : made u -> made v -> made (axpy a u v).
  Proof.
    intros [U1 U2] [V1 V2]. split; [rewrite axpy_length; congruence|]. rewrite predicted_axpy by congruence.
    rewrite mvm_axpy by (rewrite !predicted_length; reflexivity). congruence.
  Qed.

  Theorem projecting_law dl (bases : list vec) : Forall (fun b => length b = nmeas) bases ->
    exists outs, system_run fit npx nmeas wfss ds ctrl dl bases = Ok outs /\ length outs = length bases /\
      (exists u : nat -> vec, u 0%nat = vzero total /\
        forall n base o, nth_error bases n = Some base -> nth_error outs n = Some o ->
          applied o = (if (n <? dl)%nat then vzero total else u (n - dl)%nat) /\ length (u n) = total /\
          u (S n) = axpy g (axpy (-(1)) (applied o) (mvm ctrl base)) (u n)) /\
      (forall n base o, nth_error bases n = Some base -> nth_error outs n = Some o ->
         made (applied o) /\ measured o = axpy (-(1)) (predicted nmeas imat (applied o)) base /\ run_dms fit ds (applied o) = Ok (science o)).
  Proof.
    intros HB. destruct facts as (Hl & Hi & HG). pose proof HS as [HF HI HL HT HW HN [HR HP]].
    assert (HSs : Forall (fun f : list vec -> vec => forall s, stack_ok (length ds) npx s -> length (f s) = nmeas) (map (with_turbulence wfss) bases)).
    { apply Forall_forall. intros f Hf. apply in_map_iff in Hf. destruct Hf as (b & <- & Hb). intros s Hs. unfold with_turbulence. rewrite Hl in Hs.
      rewrite Forall_forall in HB. rewrite vadd_length; rewrite (HB b Hb); auto. rewrite HN; auto. }
    destruct (RobustProofs.loop_run_ok fit npix npx nmeas ds ctrl HG fit_len ctrl_len dl _ _ (RobustProofs.init_inv npx nmeas ds ctrl ctrl_len dl) HSs)
      as (L' & outs & As & R1 & R2 & R3 & R4 & R5 & R6 & R7 & R8).
    rewrite map_length in R2, R3, R4. exists outs. unfold system_run. rewrite R1. split; auto. split; auto.
    assert (DLY : forall n A o, nth_error outs n = Some o -> (n < length bases)%nat -> nth_error As n = Some A ->
      applied o = if (n <? dl)%nat then vzero total else match nth_error As (n - dl) with Some A' => A' | None => [] end).
    { intros n A o Ho Hn HA. cbn [l_buf loop_init] in R4. pose proof (@run_delay_const vec zero_like_vec dl (firstn (length bases) As)) as [_ DL].
      rewrite R4 in DL. specialize (DL n A). rewrite nth_error_firstn_lt in DL by auto. specialize (DL HA).
      rewrite nth_error_map, Ho in DL. cbn [option_map] in DL.
      destruct (n <? dl)%nat eqn:Ed.
      - injection DL as DL. rewrite DL. unfold zero_like_vec. f_equal. rewrite Forall_forall in R6. apply R6. eapply nth_error_In; eauto.
      - apply Nat.ltb_ge in Ed. rewrite nth_error_firstn_lt in DL by lia.
        destruct (nth_error As (n - dl)) as [A'|] eqn:EA'; cbn [option_map] in DL; [|discriminate]. injection DL as DL. exact DL. }
    assert (SEE : forall n base o, nth_error bases n = Some base -> nth_error outs n = Some o -> length (applied o) = total /\
      measured o = axpy (-(1)) (predicted nmeas imat (applied o)) base).
    { intros n base o Hn Ho. assert (Ha : length (applied o) = total) by (rewrite Forall_forall in R7; apply (R7 o); eapply nth_error_In; eauto). split; [exact Ha|].
      assert (Hnl : (n < length bases)%nat) by (apply nth_error_Some; congruence).
      destruct (nth_error As n) as [A|] eqn:EA; [|apply nth_error_None in EA; fold vec in *; lia].
      assert (Hf : nth_error (map (with_turbulence wfss) bases) n = Some (with_turbulence wfss base)) by (rewrite nth_error_map, Hn; reflexivity).
      destruct (R8 n _ A o Hf EA Ho) as [M1 _]. rewrite M1. rewrite (RobustProofs.all_closed fit npix npx ds) by (unfold all_closed_at in HC; eapply Forall_impl; [|exact HC]; cbn; intros d [C1 _]; exact C1).
      unfold with_turbulence. rewrite slopes_predicted by exact Ha. assert (HbL : length base = nmeas) by (rewrite Forall_forall in HB; apply HB; eapply nth_error_In; eauto).
      apply (elem_ext _ _ nmeas); [rewrite vadd_length; rewrite ?vneg_length, ?predicted_length; congruence|rewrite axpy_length; rewrite ?predicted_length; congruence|].
      intros k Hk. rewrite elem_vadd by (rewrite vneg_length, predicted_length; exact HbL). rewrite elem_axpy by (rewrite predicted_length; congruence). rewrite elem_vneg. ring. }
    assert (MK : forall n, (forall j A, (j <= n)%nat -> nth_error As j = Some A -> made A)).
    { induction n as [|n IH]; intros j A Hj HA.
      - assert (j = 0%nat) by lia. subst j. rewrite R5 in HA. injection HA as <-. unfold next_commands, loop_init. cbn [l_recon l_slopes commands].
        fold (actuators ds). fold total. rewrite uniform_gains; [|apply vzero_length|rewrite mvm_length; exact ctrl_len]. apply made_axpy; [apply made_recon, vzero_length|apply made_zero].
      - destruct (Nat.eq_dec j (S n)) as [->|Ne]; [|apply (IH j A); auto; lia].
        assert (Hn : (n < length bases)%nat).
        { assert (Hlt : (S n < length As)%nat) by (apply nth_error_Some; unfold vec in *; congruence). fold vec in *. lia. }
        destruct (nth_error bases n) as [base|] eqn:Eb; [|apply nth_error_None in Eb; lia].
        destruct (nth_error outs n) as [o|] eqn:Eo; [|apply nth_error_None in Eo; lia].
        destruct (nth_error As n) as [B|] eqn:EB; [|apply nth_error_None in EB; fold vec in *; lia].
        assert (Hf : nth_error (map (with_turbulence wfss) bases) n = Some (with_turbulence wfss base)) by (rewrite nth_error_map, Eb; reflexivity).
        destruct (R8 n _ B o Hf EB Eo) as [_ M2]. rewrite M2 in HA. injection HA as <-.
        pose proof (IH n B (Nat.le_refl _) EB) as MB. destruct (SEE n base o Eb Eo) as [_ S2].
        rewrite uniform_gains; [|apply MB|rewrite mvm_length; exact ctrl_len]. apply made_axpy; [|exact MB]. apply made_recon.
        rewrite S2. rewrite axpy_length; [|rewrite predicted_length; symmetry]; rewrite Forall_forall in HB; apply HB; eapply nth_error_In; eauto. }
    assert (MA : forall n base o, nth_error bases n = Some base -> nth_error outs n = Some o -> made (applied o)).
    { intros n base o Hn Ho. assert (Hnl : (n < length bases)%nat) by (apply nth_error_Some; congruence).
      destruct (nth_error As n) as [A|] eqn:EA; [|apply nth_error_None in EA; fold vec in *; lia].
      rewrite (DLY n A o Ho Hnl EA). destruct (n <? dl)%nat; [apply made_zero|].
      destruct (nth_error As (n - dl)) as [A'|] eqn:EA'; [apply (MK (n - dl)%nat (n - dl)%nat A'); auto|apply nth_error_None in EA'; fold vec in *; lia]. }
    split.
    - exists (fun n => match nth_error As n with Some A => A | None => [] end). split.
      + rewrite R5. unfold next_commands, loop_init. cbn [l_recon l_slopes commands]. fold (actuators ds). fold total.
        rewrite uniform_gains; [|apply vzero_length|rewrite mvm_length; exact ctrl_len]. rewrite mvm_zero, ctrl_len. apply axpy_zero.
      + intros n base o Hn Ho. assert (Hnl : (n < length bases)%nat) by (apply nth_error_Some; congruence).
        destruct (nth_error As n) as [A|] eqn:EA; [|apply nth_error_None in EA; fold vec in *; lia].
        split; [apply (DLY n A o Ho Hnl EA)|].
        assert (LA : length A = total) by (rewrite Forall_forall in R6; apply R6; eapply nth_error_In; eauto). split; [exact LA|].
        assert (Hf : nth_error (map (with_turbulence wfss) bases) n = Some (with_turbulence wfss base)) by (rewrite nth_error_map, Hn; reflexivity).
        destruct (R8 n _ A o Hf EA Ho) as [_ M2]. rewrite M2. destruct (SEE n base o Hn Ho) as [S1 S2]. destruct (MA n base o Hn Ho) as [_ M3].
        rewrite uniform_gains; [|exact LA|rewrite mvm_length; exact ctrl_len]. rewrite S2.
        rewrite mvm_axpy by (rewrite predicted_length; symmetry; rewrite Forall_forall in HB; apply HB; eapply nth_error_In; eauto). rewrite M3. reflexivity.
    - intros n base o Hn Ho. destruct (SEE n base o Hn Ho) as [S1 S2]. split; [exact (MA n base o Hn Ho)|]. split; [exact S2|].
      rewrite Forall_forall in R7. destruct (R7 o (nth_error_In _ _ Ho)) as [S3 S4]. rewrite S4. unfold run_dms.
      apply (RobustProofs.run_dms_surfaces fit npix npx ds ctrl); auto; try exact ctrl_len; [apply fit_len|]. rewrite S3. lia.
  Qed.
End System.

From Verif.Base Require Import Vec.
From Verif.Model Require Import Recon.
From Verif.Spec Require Import ReconSpec.

Lemma fold_add_shift l : forall t, fold_left Nat.add l t = (t + fold_left Nat.add l 0)%nat.
Proof. induction l as [|x l IH]; intros t; simpl; [lia|]. rewrite IH, (IH x). lia. Qed.
Lemma total_acts_cons n l : total_acts (n :: l) = (n + total_acts l)%nat.
Proof. unfold total_acts. simpl. apply fold_add_shift. Qed.

(** ** pick *)
Lemma pick_nil_l {A} (l : list A) : pick [] l = [].
Proof. reflexivity. Qed.
Lemma pick_cons {A} b f (x : A) l : pick (b :: f) (x :: l) = if b then x :: pick f l else pick f l.
Proof. unfold pick. simpl. destruct b; reflexivity. Qed.
Lemma pick_length {A} f (l : list A) : length l = length f -> length (pick f l) = count_true f.
Proof.
  revert l; induction f as [|b f IH]; intros [|x l] E; simpl in E; try discriminate; auto.
  rewrite pick_cons. unfold count_true in *. destruct b; simpl; rewrite IH; auto.
Qed.
Lemma pick_index f : forall j, (j < count_true f)%nat ->
  exists i, (i < length f)%nat /\ nth_error f i = Some true /\
    forall A (l : list A), length l = length f -> nth_error (pick f l) j = nth_error l i.
Proof.
  induction f as [|b f IH]; intros j Hj; [unfold count_true in Hj; simpl in Hj; lia|].
  destruct b.
  - destruct j as [|j].
    + exists 0%nat. simpl. split; [lia|]. split; auto.
      intros A [|x l] E; simpl in E; try discriminate. rewrite pick_cons. reflexivity.
    + destruct (IH j) as (i & H1 & H2 & H3). { unfold count_true in *. simpl in Hj. lia. }
      exists (S i). simpl. split; [lia|]. split; auto.
      intros A [|x l] E; simpl in E; try discriminate. rewrite pick_cons. simpl. apply H3. lia.
  - destruct (IH j) as (i & H1 & H2 & H3). { unfold count_true in *. simpl in Hj. lia. }
    exists (S i). simpl. split; [lia|]. split; auto.
    intros A [|x l] E; simpl in E; try discriminate. rewrite pick_cons. simpl. apply H3. lia.
Qed.
Lemma pick_all {A} f (l : list A) : length l = length f -> Forall (fun b => b = true) f -> pick f l = l.
Proof.
  revert l; induction f as [|b f IH]; intros [|x l] E HF; simpl in E; try discriminate; auto.
  inversion HF; subst. rewrite pick_cons. f_equal. apply IH; auto.
Qed.
Lemma count_all f : Forall (fun b => b = true) f -> count_true f = length f.
Proof. induction 1; simpl; auto. subst. unfold count_true in *. simpl. now f_equal. Qed.
Lemma count_le f : (count_true f <= length f)%nat.
Proof. unfold count_true. induction f as [|[] f IH]; simpl; lia. Qed.
Lemma count_lt f : In false f -> (count_true f < length f)%nat.
Proof.
  induction f as [|b f IH]; intros H; [inversion H|].
  pose proof (count_le f) as C. unfold count_true in *. destruct b; simpl.
  - destruct H as [H|H]; [discriminate|]. specialize (IH H). lia.
  - lia.
Qed.
Lemma pick_In {A} f (l : list A) x : In x (pick f l) -> In x l.
Proof.
  revert l; induction f as [|b f IH]; intros [|y l] H; try (inversion H; fail).
  rewrite pick_cons in H. destruct b; [destruct H as [->|H]|]; simpl; auto.
Qed.
Lemma pick_incl_flag {A} (P : A -> bool) l : pick (map P l) l = filter P l.
Proof. induction l as [|x l IH]; auto. cbn [map]. rewrite pick_cons, IH. simpl. reflexivity. Qed.

(** ** linear combinations with a unit vector *)
Lemma lincomb_zero npix n sh : Forall (fun s => length s = npix) sh -> lincomb npix (vzero n) sh = vzero npix.
Proof.
  unfold lincomb. revert sh; induction n as [|n IH]; intros [|s sh] HF; auto.
  inversion HF; subst. cbn [vzero repeat combine fold_right fst snd].
  change (repeat 0%Qc n) with (vzero n). rewrite IH by auto. rewrite vscale_0. apply vadd_0_l. apply vzero_length.
Qed.

Lemma unit_vec_length n k : length (unit_vec n k) = n.
Proof. unfold unit_vec. rewrite map_length, seq_length. reflexivity. Qed.

Lemma unit_vec_S_0 n : unit_vec (S n) 0 = 1%Qc :: vzero n.
Proof.
  unfold unit_vec. simpl. f_equal. unfold vzero. rewrite <- seq_shift, map_map.
  transitivity (map (fun _ : nat => 0%Qc) (seq 0 n)); [apply map_ext; intros; reflexivity|].
  generalize 0%nat. induction n; intros; simpl; auto. f_equal. apply IHn.
Qed.
Lemma unit_vec_S_S n k : unit_vec (S n) (S k) = 0%Qc :: unit_vec n k.
Proof. unfold unit_vec. simpl. f_equal. rewrite <- seq_shift, map_map. apply map_ext. intros. reflexivity. Qed.
Lemma unit_vec_out n k : (n <= k)%nat -> unit_vec n k = vzero n.
Proof.
  revert k; induction n as [|n IH]; intros k H; auto. destruct k; [lia|].
  rewrite unit_vec_S_S, IH by lia. reflexivity.
Qed.
Lemma unit_vec_app n m k : unit_vec (n + m) k = unit_vec n k ++ (if (k <? n)%nat then vzero m else unit_vec m (k - n)).
Proof.
  revert k; induction n as [|n IH]; intros k; cbn [Nat.add].
  - simpl. rewrite Nat.sub_0_r. reflexivity.
  - destruct k.
    + rewrite !unit_vec_S_0. simpl. f_equal. unfold vzero. apply repeat_app.
    + rewrite !unit_vec_S_S, IH. simpl. reflexivity.
Qed.

Lemma lincomb_unit npix k : forall sh s, Forall (fun s => length s = npix) sh -> nth_error sh k = Some s ->
  lincomb npix (unit_vec (length sh) k) sh = s.
Proof.
  induction k as [|k IH]; intros [|s0 sh] s HF H; simpl in H; try discriminate; inversion HF; subst; cbn [length].
  - inversion H; subst. rewrite unit_vec_S_0. unfold lincomb. simpl.
    fold (lincomb (length s) (vzero (length sh)) sh). rewrite lincomb_zero by auto.
    rewrite vscale_1. apply vadd_0_r. reflexivity.
  - rewrite unit_vec_S_S. unfold lincomb. cbn [combine fold_right fst snd].
    fold (lincomb (length s0) (unit_vec (length sh) k) sh). rewrite (IH sh s) by auto.
    rewrite vscale_0. apply vadd_0_l.
    rewrite Forall_forall in *. match goal with H : forall x, In x sh -> _ |- _ => apply H end. eapply nth_error_In; eauto.
Qed.

Lemma make_dm_frame_unit d npix k s : dm_shaped d npix -> nth_error (shapes d) k = Some s ->
  make_dm_frame (shapes d) (unit_vec (length (shapes d)) k) = Ok s.
Proof.
  intros HS H. unfold make_dm_frame. destruct (shapes d) as [|s0 sh] eqn:E.
  - destruct k; discriminate.
  - rewrite unit_vec_length, Nat.eqb_refl. f_equal. unfold dm_shaped in HS. rewrite E in HS.
    inversion HS; subst. apply lincomb_unit; auto.
Qed.
Lemma make_dm_frame_zero d npix : dm_shaped d npix -> shapes d <> [] ->
  make_dm_frame (shapes d) (vzero (length (shapes d))) = Ok (vzero npix).
Proof.
  intros HS H. unfold make_dm_frame. destruct (shapes d) as [|s0 sh] eqn:E; [congruence|].
  rewrite vzero_length, Nat.eqb_refl. f_equal. unfold dm_shaped in HS. rewrite E in HS.
  inversion HS; subst. apply lincomb_zero; auto.
Qed.

(** ** mapM *)
Lemma mapM_ok {A B} (f : A -> result B) (g : A -> B) l : (forall x, In x l -> f x = Ok (g x)) -> mapM f l = Ok (map g l).
Proof.
  induction l as [|x l IH]; intros H; simpl; auto.
  rewrite (H x (or_introl eq_refl)). simpl. rewrite IH; auto. intros; apply H; right; auto.
Qed.
Lemma mapM_nth {A B} (f : A -> result B) l ys : mapM f l = Ok ys -> forall i x, nth_error l i = Some x ->
  exists y, nth_error ys i = Some y /\ f x = Ok y.
Proof.
  revert ys; induction l as [|a l IH]; intros ys E i x Hi; destruct i; simpl in Hi; try discriminate; simpl in E;
  destruct (f a) as [y|e] eqn:Ef; simpl in E; try discriminate;
  destruct (mapM f l) as [ys'|e] eqn:Em; simpl in E; try discriminate; inversion E; subst.
  - inversion Hi; subst. exists y. auto.
  - simpl. apply (IH ys' eq_refl i x Hi).
Qed.
Lemma mapM_length {A B} (f : A -> result B) l ys : mapM f l = Ok ys -> length ys = length l.
Proof.
  revert ys; induction l as [|a l IH]; intros ys E; simpl in E; [inversion E; auto|].
  destruct (f a); simpl in E; [|discriminate]. destruct (mapM f l) as [ys'|]; simpl in E; [|discriminate].
  inversion E; subst. simpl. f_equal. apply IH; auto.
Qed.
Lemma seq_nth_error n k i : (i < n)%nat -> nth_error (seq k n) i = Some (k + i)%nat.
Proof.
  revert k i; induction n; intros k [|i] H; simpl; try lia; [f_equal; lia|].
  rewrite IHn by lia. f_equal. lia.
Qed.

Lemma set_valid_ok d flags : length flags = length (shapes d) ->
  set_valid d flags = (mkDm (n_acts d) (pick flags (shapes d)) flags (Some (count_true flags)) (closed d) (gain d), Ok tt).
Proof. intros E. unfold set_valid. rewrite <- E, skipn_all. reflexivity. Qed.

(** ** Thresholding *)
Lemma mat_max_abs_nonneg M : (0 <= mat_max_abs M)%Qc.
Proof. induction M; simpl; [qclra|]. eapply Qcle_trans; [apply IHM | apply qc_max_r]. Qed.
Lemma mat_max_abs_ge M r y : In r M -> In y r -> (qc_abs y <= mat_max_abs M)%Qc.
Proof.
  induction M as [|r0 M IH]; simpl; [tauto|]. intros [->|H] Hy.
  - eapply Qcle_trans; [apply vmax_abs_ge, Hy | apply qc_max_l].
  - eapply Qcle_trans; [apply IH; auto | apply qc_max_r].
Qed.
Lemma mat_max_abs_attained M : Exists (fun r => r <> []) M -> exists r y, In r M /\ In y r /\ qc_abs y = mat_max_abs M.
Proof.
  induction M as [|r M IH]; intros H; [inversion H|]. simpl.
  destruct (Qclt_le_dec (vmax_abs r) (mat_max_abs M)) as [L|L].
  - assert (E : qc_max (vmax_abs r) (mat_max_abs M) = mat_max_abs M).
    { unfold qc_max. destruct (Qclt_le_dec _ _); auto. exfalso; qclra. }
    rewrite E.
    assert (HE : Exists (fun r => r <> []) M).
    { clear -L. induction M as [|r1 M IH]; simpl in L.
      - exfalso. pose proof (vmax_abs_nonneg r). qclra.
      - destruct r1 as [|x r1]; [|left; congruence]. right. apply IH.
        simpl in L. unfold qc_max in L. destruct (Qclt_le_dec 0 (mat_max_abs M)); auto.
        pose proof (vmax_abs_nonneg r). exfalso. qclra. }
    destruct (IH HE) as (r' & y & H1 & H2 & H3). exists r', y. auto.
  - assert (E : qc_max (vmax_abs r) (mat_max_abs M) = vmax_abs r).
    { unfold qc_max. destruct (Qclt_le_dec _ _); auto. exfalso; qclra. }
    rewrite E. destruct r as [|x r].
    + simpl in *. inversion H as [? ? Hr|? ? Hr]; subst; [congruence|].
      destruct (IH Hr) as (r' & y & H1 & H2 & H3). exists r', y. repeat split; auto.
      rewrite H3. pose proof (mat_max_abs_nonneg M). apply Qcle_antisym; auto.
    + destruct (vmax_abs_attained (x :: r)) as (y & Hy & Ey); [congruence|]. exists (x :: r), y. auto.
Qed.

Lemma flag_responds M r : In r M -> (qc_ltb (act_threshold M) (vmax_abs r) = true <-> responds M r).
Proof.
  intros HM. rewrite qc_ltb_true. unfold act_threshold, responds.
  assert (P : (0 < qfrac 1 1000)%Qc) by reflexivity. set (t := qfrac 1 1000) in *. clearbody t. split.
  - intros H. destruct r as [|x r].
    + exfalso. simpl in H. pose proof (mat_max_abs_nonneg M). qcnra.
    + destruct (vmax_abs_attained (x :: r)) as (y & Hy & Ey); [congruence|]. exists y. split; auto.
      intros row z Hrow Hz. rewrite Ey. eapply Qcle_lt_trans; [|exact H].
      apply Qcmult_le_compat_r; [eapply mat_max_abs_ge; eauto | apply Qclt_le_weak; auto].
  - intros (x & Hx & H).
    destruct (mat_max_abs_attained M) as (r' & y & H1 & H2 & H3).
    { apply Exists_exists. exists r. split; auto. intros ->. inversion Hx. }
    rewrite <- H3. eapply Qclt_le_trans; [apply (H r' y); auto|]. apply vmax_abs_ge; auto.
Qed.

(** ** Calibration of one DM *)
Section CalibProofs.
  Variable fit : nat -> vec -> vec.
  Variable npx : nat.
  Variable wfss : list (list vec -> vec).

  Notation raw_imat := (raw_imat fit npx wfss).
  Notation make_dm_imat := (make_dm_imat fit npx wfss).
  Notation make_imat_from := (make_imat_from fit npx wfss).
  Notation make_imat := (make_imat fit npx wfss).
  Notation wfs_row := (wfs_row wfss).
  Notation phase_stack := (phase_stack npx).

  Lemma raw_imat_fresh ndm k d npix : dm_shaped d npix -> n_acts d = length (shapes d) ->
    raw_imat ndm k d = Ok (map (fun s => wfs_row (phase_stack ndm k (fit k s))) (shapes d)).
  Proof.
    intros HS HN. unfold Recon.raw_imat. rewrite HN.
    rewrite (mapM_ok _ (fun i => wfs_row (phase_stack ndm k (fit k (nth i (shapes d) []))))).
    - f_equal. apply nth_error_ext. intros i.
      rewrite !nth_error_map.
      destruct (Nat.lt_ge_cases i (length (shapes d))) as [H|H].
      + rewrite seq_nth_error by auto. simpl.
        destruct (nth_error (shapes d) i) as [s|] eqn:E; [|apply nth_error_None in E; lia].
        simpl. rewrite (nth_error_nth (shapes d) i [] E). reflexivity.
      + rewrite (proj2 (nth_error_None (shapes d) i)) by auto.
        rewrite (proj2 (nth_error_None (seq 0 (length (shapes d))) i)) by (rewrite seq_length; auto). reflexivity.
    - intros i Hi. apply in_seq in Hi. simpl in Hi. unfold dm_frame.
      destruct (nth_error (shapes d) i) as [s|] eqn:E; [|apply nth_error_None in E; lia].
      rewrite (make_dm_frame_unit d npix i s) by auto. simpl.
      rewrite (nth_error_nth (shapes d) i [] E). reflexivity.
  Qed.

  Lemma make_dm_imat_ok ndm k d d' M : make_dm_imat ndm k d = (d', Ok M) ->
    exists raw, raw_imat ndm k d = Ok raw /\ length raw = n_acts d /\
      set_valid d (valid_flags raw) = (d', Ok tt) /\ M = pick (valid_flags raw) raw.
  Proof.
    unfold Recon.make_dm_imat. destruct (raw_imat ndm k d) as [raw|e] eqn:E; [|discriminate].
    destruct (existsb (fun r => negb (length r =? 0)%nat) raw); [|discriminate].
    destruct (set_valid d (valid_flags raw)) as [d1 [[]|e]] eqn:Es; [|discriminate].
    intros H. inversion H; subst. exists raw. repeat split; auto.
    unfold Recon.raw_imat in E. apply mapM_length in E. rewrite seq_length in E. exact E.
  Qed.

  Lemma make_dm_imat_threshold ndm k d npix d' M :
    dm_shaped d npix -> n_acts d = length (shapes d) -> make_dm_imat ndm k d = (d', Ok M) ->
    exists raw,
      raw_imat ndm k d = Ok raw /\
      length (valid d') = n_acts d /\
      (forall i r, nth_error raw i = Some r -> exists b, nth_error (valid d') i = Some b /\ (b = true <-> responds raw r)) /\
      M = pick (valid d') raw /\ shapes d' = pick (valid d') (shapes d) /\
      n_valid d' = Some (length M) /\ length (shapes d') = length M.
  Proof.
    intros HS HN E. destruct (make_dm_imat_ok _ _ _ _ _ E) as (raw & Er & Hl & Esv & EM).
    exists raw. split; auto.
    assert (HF : length (valid_flags raw) = length (shapes d)) by (unfold valid_flags; rewrite map_length; congruence).
    rewrite set_valid_ok in Esv by auto. inversion Esv; subst d'; clear Esv. simpl.
    split; [unfold valid_flags; rewrite map_length; auto|]. split.
    - intros i r Hi. exists (qc_ltb (act_threshold raw) (vmax_abs r)). split.
      + unfold valid_flags. apply (map_nth_error (fun r => qc_ltb (act_threshold raw) (vmax_abs r)) i raw Hi).
      + apply flag_responds. eapply nth_error_In; eauto.
    - subst M. split; auto. split; auto. split.
      + f_equal. symmetry. apply pick_length. congruence.
      + rewrite !pick_length; auto; congruence.
  Qed.

  Lemma unseen_keeps_none ndm k d npix d' M :
    dm_shaped d npix -> n_acts d = length (shapes d) -> make_dm_imat ndm k d = (d', Ok M) ->
    (forall raw, raw_imat ndm k d = Ok raw -> forall r x, In r raw -> In x r -> x = 0%Qc) ->
    M = [] /\ n_valid d' = Some 0%nat.
  Proof.
    intros HS HN E HZ. destruct (make_dm_imat_threshold _ _ _ _ _ _ HS HN E) as (raw & Er & HL & HR & EM & _ & En & _).
    assert (EMn : M = []).
    { rewrite EM. destruct (pick (valid d') raw) as [|r M'] eqn:Ep; auto. exfalso.
      assert (Hc : (0 < count_true (valid d'))%nat).
      { assert (HL2 : length raw = length (valid d')).
        { rewrite HL. unfold Recon.raw_imat in Er. apply mapM_length in Er. rewrite seq_length in Er. auto. }
        rewrite <- (pick_length (valid d') raw HL2), Ep. simpl. lia. }
      destruct (pick_index (valid d') 0 Hc) as (i & Hi & Hf & _).
      destruct (nth_error raw i) as [ri|] eqn:Ei.
      - destruct (HR i ri Ei) as (b & Hb & Hbr). assert (b = true) by congruence. subst b.
        destruct (proj1 Hbr eq_refl) as (x & Hx & Hx2).
        assert (In ri raw) by (eapply nth_error_In; eauto).
        pose proof (Hx2 ri x H Hx) as Hlt. rewrite (HZ raw Er ri x H Hx) in Hlt. vm_compute in Hlt. discriminate.
      - apply nth_error_None in Ei. unfold Recon.raw_imat in Er. apply mapM_length in Er. rewrite seq_length in Er. lia. }
    split; auto. rewrite En, EMn. reflexivity.
  Qed.

  (** ** Calibration of all DMs *)
  (** description of a successful calibration *)
  Definition calibrated (ndm k : nat) (d d' : dm) (M : mat) : Prop :=
    exists flags, length flags = length (shapes d) /\
      shapes d' = pick flags (shapes d) /\ n_valid d' = Some (count_true flags) /\
      valid d' = flags /\
      n_acts d' = n_acts d /\ closed d' = closed d /\ gain d' = gain d /\
      M = pick flags (map (fun s => wfs_row (phase_stack ndm k (fit k s))) (shapes d)).

  Lemma make_dm_imat_calibrated ndm k d npix d' M : fresh npix d -> make_dm_imat ndm k d = (d', Ok M) ->
    calibrated ndm k d d' M.
  Proof.
    intros [HS HN] E. destruct (make_dm_imat_ok _ _ _ _ _ E) as (raw & Er & Hl & Esv & EM).
    rewrite (raw_imat_fresh _ _ _ _ HS HN) in Er. inversion Er; subst raw; clear Er.
    assert (HF : length (valid_flags (map (fun s => wfs_row (phase_stack ndm k (fit k s))) (shapes d))) = length (shapes d))
      by (unfold valid_flags; rewrite !map_length; auto).
    rewrite set_valid_ok in Esv by auto. inversion Esv; subst d'; clear Esv.
    exists (valid_flags (map (fun s => wfs_row (phase_stack ndm k (fit k s))) (shapes d))). simpl. repeat split; auto.
  Qed.

  Lemma make_imat_from_ok npix ndm ds : forall k ds' Ms, Forall (fresh npix) ds -> make_imat_from ndm k ds = (ds', Ok Ms) ->
    length ds' = length ds /\ length Ms = length ds /\
    forall i d, nth_error ds i = Some d -> exists d' M, nth_error ds' i = Some d' /\ nth_error Ms i = Some M /\
      calibrated ndm (k + i) d d' M.
  Proof.
    induction ds as [|d ds IH]; intros k ds' Ms HF E; simpl in E.
    - inversion E; subst. repeat split; auto. intros [|i] d H; discriminate.
    - inversion HF; subst.
      destruct (make_dm_imat ndm k d) as [d' [M|e]] eqn:Ed; [|discriminate].
      destruct (make_imat_from ndm (S k) ds) as [r' [x|e]] eqn:Er; simpl in E; [|discriminate].
      inversion E; subst. destruct (IH (S k) r' x) as (L1 & L2 & H); auto.
      split; [simpl; f_equal; auto|]. split; [simpl; f_equal; auto|].
      intros [|i] d0 Hi; simpl in Hi.
      + inversion Hi; subst. exists d', M. rewrite Nat.add_0_r. split; auto. split; auto.
        eapply make_dm_imat_calibrated; eauto.
      + replace (k + S i)%nat with (S k + i)%nat by lia. apply (H i d0 Hi).
  Qed.

  Lemma calibrated_lengths ndm k d d' M : calibrated ndm k d d' M ->
    n_valid d' = Some (length M) /\ length (shapes d') = length M.
  Proof.
    intros (flags & HL & HS & HV & _ & _ & _ & _ & HM). subst M. rewrite HS, HV.
    rewrite !pick_length by (rewrite ?map_length; auto). auto.
  Qed.

  (** ** Operating the calibrated system *)
  (** frames of all DMs when only command element j of DM q (of the list from index k on) is 1 *)
  Definition unit_frames (k : nat) (ds' : list dm) (q : nat) (f : vec) : list vec :=
    map (fun i => if (i =? q)%nat then f else vzero npx) (seq k (length ds')).

  Hypothesis fit_zero : forall k n, fit k (vzero n) = vzero npx.

  Lemma pyslice_app_mid (a b c : vec) : pyslice (a ++ b ++ c) (Z.of_nat (length a)) (Z.of_nat (length a) + Z.of_nat (length b)) = b.
  Proof.
    rewrite pyslice_in by (rewrite ?app_length; lia). rewrite !Nat2Z.id.
    rewrite skipn_app, skipn_all, Nat.sub_diag. simpl.
    rewrite firstn_app, firstn_all, Nat.sub_diag. simpl. apply app_nil_r.
  Qed.

  (** run_dms on a concatenation of per-DM commands *)
  Lemma run_dms_concat ds' : forall k cs fs pre post,
    length cs = length ds' ->
    (forall i d c, nth_error ds' i = Some d -> nth_error cs i = Some c ->
        n_valid d = Some (length c) /\ exists f, nth_error fs i = Some f /\ dm_frame fit (k + i) d c = Ok f) ->
    length fs = length ds' ->
    run_dms_from fit k ds' (dm_offsets (length pre) (nvalids ds')) (pre ++ concat cs ++ post) = Ok fs.
  Proof.
    induction ds' as [|d ds' IH]; intros k cs fs pre post HL H HLf; destruct cs as [|c cs]; try discriminate;
      destruct fs as [|f fs]; try discriminate; auto.
    simpl in HL, HLf.
    destruct (H 0%nat d c eq_refl eq_refl) as (Hv & f0 & Hf0 & Hfr). simpl in Hf0. inversion Hf0; subst f0.
    rewrite Nat.add_0_r in Hfr.
    cbn [nvalids map dm_offsets run_dms_from]. rewrite Hv.
    cbn [concat]. rewrite <- app_assoc. rewrite pyslice_app_mid, Hfr. cbn [bind].
    rewrite app_assoc. replace (length pre + length c)%nat with (length (pre ++ c)) by (rewrite app_length; auto).
    fold (nvalids ds'). rewrite (IH (S k) cs fs (pre ++ c) post); auto.
    intros i d0 c0 Hd Hc. destruct (H (S i) d0 c0 Hd Hc) as (G1 & f1 & G2 & G3). split; auto. exists f1. split; auto.
    replace (S k + i)%nat with (k + S i)%nat by lia. exact G3.
  Qed.

  (** Splitting a global index into (dm, local index). *)
  Lemma locate_index (ns : list nat) : forall x, (x < fold_left Nat.add ns 0)%nat ->
    exists q j n, nth_error ns q = Some n /\ (j < n)%nat /\ x = (fold_left Nat.add (firstn q ns) 0 + j)%nat.
  Proof.
    induction ns as [|n ns IH]; intros x Hx; simpl in Hx; [lia|].
    rewrite fold_add_shift in Hx.
    destruct (Nat.lt_ge_cases x n).
    - exists 0%nat, x, n. simpl. auto.
    - destruct (IH (x - n)%nat ltac:(lia)) as (q & j & m & H1 & H2 & H3).
      exists (S q), j, m. simpl. split; auto. split; auto. rewrite fold_add_shift. lia.
  Qed.
  Lemma concat_nth_block {A} (Ms : list (list A)) : forall q j M, nth_error Ms q = Some M -> (j < length M)%nat ->
    nth_error (concat Ms) (fold_left Nat.add (firstn q (map (@length A) Ms)) 0 + j)%nat = nth_error M j.
  Proof.
    induction Ms as [|M0 Ms IH]; intros [|q] j M H Hj; simpl in H; try discriminate.
    - inversion H; subst. simpl. apply nth_error_app1; auto.
    - simpl. rewrite fold_add_shift. rewrite nth_error_app2 by lia.
      replace (length M0 + fold_left Nat.add (firstn q (map (@length A) Ms)) 0 + j - length M0)%nat
        with (fold_left Nat.add (firstn q (map (@length A) Ms)) 0 + j)%nat by lia.
      apply IH; auto.
  Qed.
  Lemma unit_vec_concat (ns : list nat) q j n : nth_error ns q = Some n -> (j < n)%nat ->
    unit_vec (fold_left Nat.add ns 0%nat) (fold_left Nat.add (firstn q ns) 0 + j)%nat
    = concat (map (fun p => if (fst p =? q)%nat then unit_vec (snd p) j else vzero (snd p)) (combine (seq 0 (length ns)) ns)).
  Proof.
    (* generalise the starting index *)
    assert (Z : forall ms s r, (forall i, (i < length ms)%nat -> (s + i)%nat <> r) ->
       concat (map (fun p => if (fst p =? r)%nat then unit_vec (snd p) j else vzero (snd p)) (combine (seq s (length ms)) ms))
       = vzero (fold_left Nat.add ms 0%nat)).
    { induction ms as [|m ms IHm]; intros s r Hne; simpl; auto.
      destruct (Nat.eqb_spec s r) as [E|E]; [exfalso; apply (Hne 0%nat); simpl; lia|].
      rewrite fold_add_shift. rewrite (IHm (S s) r) by (intros i Hi; specialize (Hne (S i)); simpl in Hne; lia).
      unfold vzero. rewrite repeat_app. reflexivity. }
    assert (G : forall ns s q, nth_error ns q = Some n -> (j < n)%nat ->
      unit_vec (fold_left Nat.add ns 0%nat) (fold_left Nat.add (firstn q ns) 0 + j)%nat
      = concat (map (fun p => if (fst p =? s + q)%nat then unit_vec (snd p) j else vzero (snd p)) (combine (seq s (length ns)) ns))).
    { clear ns q. induction ns as [|m ns IH]; intros s [|q] Hq Hj; simpl in Hq; try discriminate.
      - inversion Hq; subst. simpl. rewrite fold_add_shift, unit_vec_app.
        destruct (Nat.ltb_spec j n); [|lia]. rewrite Nat.add_0_r, Nat.eqb_refl. f_equal.
        symmetry. apply Z. intros; lia.
      - simpl. rewrite fold_add_shift, (fold_add_shift (firstn q ns)), unit_vec_app.
        destruct (Nat.ltb_spec (m + fold_left Nat.add (firstn q ns) 0 + j)%nat m); [lia|].
        destruct (Nat.eqb_spec s (s + S q)); [lia|]. f_equal.
        + apply unit_vec_out. lia.
        + replace (m + fold_left Nat.add (firstn q ns) 0 + j - m)%nat with (fold_left Nat.add (firstn q ns) 0 + j)%nat by lia.
          rewrite (IH (S s) q Hq Hj). replace (S s + q)%nat with (s + S q)%nat by lia. reflexivity. }
    intros Hq Hj. rewrite (G ns 0%nat q Hq Hj). reflexivity.
  Qed.

  Lemma combine_seq_nth {A} (l : list A) : forall s i x, nth_error l i = Some x ->
    nth_error (combine (seq s (length l)) l) i = Some ((s + i)%nat, x).
  Proof.
    induction l as [|y l IH]; intros s [|i] x H; simpl in *; try discriminate.
    - inversion H; subst. f_equal. f_equal. lia.
    - rewrite (IH (S s) i x H). f_equal. f_equal. lia.
  Qed.

  Lemma pick_Forall {A} (P : A -> Prop) flags l : Forall P l -> Forall P (pick flags l).
  Proof. intros H. apply Forall_forall. intros x Hx. rewrite Forall_forall in H. apply H. eapply pick_In; eauto. Qed.

  Theorem calibration_matches_operation npix ds ds' imat :
    Forall (fresh npix) ds ->
    make_imat ds = (ds', Ok imat) ->
    Forall (fun d => exists n, n_valid d = Some (S n)) ds' ->
    length imat = total_acts (nvalids ds') /\
    forall x row, nth_error imat x = Some row ->
      exists frames, run_dms fit ds' (unit_vec (length imat) x) = Ok frames /\
        length frames = length ds /\ row = wfs_row frames.
  Proof.
    intros HF E HV. unfold Recon.make_imat in E. unfold mat in *.
    destruct (make_imat_from (length ds) 0 ds) as [ds1 [Ms|e]] eqn:Em; simpl in E; [|discriminate].
    inversion E; subst ds1 imat; clear E.
    destruct (make_imat_from_ok _ _ _ _ _ _ HF Em) as (L1 & L2 & H). unfold mat in *.
    assert (HN : nvalids ds' = map (@length vec) Ms).
    { unfold nvalids. apply nth_error_ext. intros i. rewrite !nth_error_map.
      destruct (nth_error ds i) as [d|] eqn:Ed.
      - destruct (H i d Ed) as (d' & M & E1 & E2 & E3). rewrite E1, E2. simpl.
        destruct (calibrated_lengths _ _ _ _ _ E3) as [-> _]. reflexivity.
      - apply nth_error_None in Ed.
        rewrite (proj2 (nth_error_None ds' i)) by lia. rewrite (proj2 (nth_error_None Ms i)) by lia. reflexivity. }
    assert (CL : forall (X : list mat), length (concat X) = fold_left Nat.add (map (@length vec) X) 0%nat).
    { induction X as [|x0 X IHX]; simpl; auto. rewrite app_length, IHX, fold_add_shift. symmetry. apply fold_add_shift. }
    assert (LI : length (concat Ms) = total_acts (nvalids ds')).
    { rewrite HN. unfold total_acts. apply CL. }
    split; auto.
    intros x row Hx.
    assert (Hxl : (x < length (concat Ms))%nat) by (apply nth_error_Some; congruence).
    rewrite LI in Hxl. unfold total_acts in Hxl.
    destruct (locate_index _ x Hxl) as (q & j & n & Hq & Hj & Ex).
    assert (exists M, nth_error Ms q = Some M /\ length M = n) as (M & HM & HMn).
    { rewrite HN, nth_error_map in Hq. destruct (nth_error Ms q) as [M|]; simpl in Hq; [|discriminate].
      inversion Hq. exists M. auto. }
    assert (Hql : (q < length ds)%nat) by (rewrite <- L2; apply nth_error_Some; congruence).
    destruct (nth_error ds q) as [d|] eqn:Ed; [|apply nth_error_None in Ed; lia].
    destruct (H q d Ed) as (d' & M' & E1 & E2 & E3). assert (M' = M) by congruence. subst M'.
    rewrite Nat.add_0_l in E3.
    assert (Hrow : nth_error M j = Some row).
    { rewrite Ex in Hx. rewrite HN in Hx. rewrite (concat_nth_block Ms q j M HM) in Hx by lia. exact Hx. }
    pose proof E3 as (flags & HFl & HS & HV' & _ & _ & _ & _ & HM').
    destruct (calibrated_lengths _ _ _ _ _ E3) as [Hnv Hsl].
    assert (Hjc : (j < count_true flags)%nat).
    { rewrite HM' in HMn. rewrite pick_length in HMn by (rewrite map_length; auto). lia. }
    destruct (pick_index flags j Hjc) as (i & Hi & Hfi & Hp).
    pose proof Hrow as Hrow2. rewrite HM' in Hrow2. rewrite (Hp vec) in Hrow2 by (rewrite map_length; auto).
    rewrite nth_error_map in Hrow2. destruct (nth_error (shapes d) i) as [s|] eqn:Es; simpl in Hrow2; [|discriminate].
    inversion Hrow2 as [Erow]; clear Hrow2.
    assert (Hs' : nth_error (shapes d') j = Some s) by (rewrite HS, (Hp vec) by auto; exact Es).
    exists (phase_stack (length ds) q (fit q s)). split; [|split; auto].
    2: { unfold Recon.phase_stack. rewrite map_length, seq_length. reflexivity. }
    unfold run_dms. rewrite LI, Ex. unfold total_acts.
    rewrite (unit_vec_concat (nvalids ds') q j n Hq Hj).
    set (cs := map (fun p => if (fst p =? q)%nat then unit_vec (snd p) j else vzero (snd p))
                   (combine (seq 0 (length (nvalids ds'))) (nvalids ds'))).
    rewrite <- (app_nil_l (concat cs)), <- (app_nil_r (concat cs)).
    assert (HLn : length (nvalids ds') = length ds') by (unfold nvalids; apply map_length).
    apply (run_dms_concat ds' 0 cs (phase_stack (length ds) q (fit q s)) [] []).
    - unfold cs. rewrite map_length, combine_length, seq_length. lia.
    - intros p dp cp Hdp Hcp. rewrite Nat.add_0_l.
      assert (Hpl : (p < length ds)%nat) by (rewrite <- L1; apply nth_error_Some; congruence).
      assert (Hnp : exists np, n_valid dp = Some np /\ nth_error (nvalids ds') p = Some np).
      { rewrite Forall_forall in HV. destruct (HV dp) as [m Em2]; [eapply nth_error_In; eauto|].
        exists (S m). split; auto. unfold nvalids. rewrite nth_error_map, Hdp. simpl. rewrite Em2. reflexivity. }
      destruct Hnp as (np & Hnp1 & Hnp2).
      unfold cs in Hcp. rewrite nth_error_map, (combine_seq_nth _ 0 p np Hnp2) in Hcp. simpl in Hcp.
      inversion Hcp; subst cp; clear Hcp.
      assert (Hlc : length (if (p =? q)%nat then unit_vec np j else vzero np) = np)
        by (destruct (p =? q)%nat; [apply unit_vec_length | apply vzero_length]).
      split; [etransitivity; [exact Hnp1 | f_equal; symmetry; exact Hlc]|].
      destruct (nth_error ds p) as [d0|] eqn:Ed0; [|apply nth_error_None in Ed0; lia].
      destruct (H p d0 Ed0) as (dp' & Mp & F1 & F2 & F3). assert (dp' = dp) by congruence. subst dp'.
      destruct (calibrated_lengths _ _ _ _ _ F3) as [G1 G2].
      assert (np = length (shapes dp)) by congruence. subst np.
      assert (HSp : dm_shaped dp npix).
      { destruct F3 as (fl & _ & Esh & _). unfold dm_shaped. rewrite Esh. apply pick_Forall.
        rewrite Forall_forall in HF. destruct (HF d0) as [HSd _]; [eapply nth_error_In; eauto|]. exact HSd. }
      exists (if (p =? q)%nat then fit q s else vzero npx). split.
      + unfold Recon.phase_stack. rewrite nth_error_map, seq_nth_error by lia. reflexivity.
      + unfold dm_frame. destruct (Nat.eqb_spec p q) as [->|Hne].
        * assert (dp = d') by congruence. subst dp. rewrite (make_dm_frame_unit d' npix j s); auto.
        * rewrite (make_dm_frame_zero dp npix); auto.
          -- simpl. rewrite fit_zero. reflexivity.
          -- intros Hnil. rewrite Forall_forall in HV. destruct (HV dp) as [m Em2]; [eapply nth_error_In; eauto|].
             rewrite Hnil in *. simpl in *. congruence.
    - unfold Recon.phase_stack. rewrite map_length, seq_length. auto.
  Qed.

  (** ** Recalibration *)
  Lemma valid_flags_length M : length (valid_flags M) = length M.
  Proof. apply map_length. Qed.

  Lemma recalibrate_none_dropped_dm ndm k d npix d' M : fresh npix d -> make_dm_imat ndm k d = (d', Ok M) ->
    Forall (fun b => b = true) (valid d') -> make_dm_imat ndm k d' = (d', Ok M).
  Proof.
    intros HFr E HV. pose proof HFr as [HS HN].
    destruct (make_dm_imat_ok _ _ _ _ _ E) as (raw & Er & Hl & Esv & EM).
    assert (HFl : length (valid_flags raw) = length (shapes d)) by (rewrite valid_flags_length; congruence).
    rewrite set_valid_ok in Esv by auto. injection Esv as Ed'.
    rewrite <- Ed' in HV. simpl in HV.
    rewrite pick_all in Ed' by auto.
    unfold Recon.make_dm_imat in *.
    assert (Er' : raw_imat ndm k d' = Ok raw). { rewrite <- Ed'. exact Er. }
    rewrite Er in E. rewrite Er'.
    destruct (existsb (fun r => negb (length r =? 0)%nat) raw); [|discriminate].
    rewrite set_valid_ok by (rewrite <- Ed'; simpl; auto). subst M.
    rewrite <- Ed'. simpl. rewrite !pick_all by auto. reflexivity.
  Qed.

  Lemma recalibrate_none_dropped ds : forall npix ndm k ds' Ms, Forall (fresh npix) ds -> make_imat_from ndm k ds = (ds', Ok Ms) ->
    Forall (fun d => Forall (fun b => b = true) (valid d)) ds' -> make_imat_from ndm k ds' = (ds', Ok Ms).
  Proof.
    induction ds as [|d ds IH]; intros npix ndm k ds' Ms HF E HV; simpl in E.
    - inversion E; subst. reflexivity.
    - inversion HF; subst.
      destruct (make_dm_imat ndm k d) as [d' [M|e]] eqn:Ed; [|discriminate].
      destruct (make_imat_from ndm (S k) ds) as [r' [x|e]] eqn:Er; simpl in E; [|discriminate].
      inversion E; subst. inversion HV; subst. cbn [Recon.make_imat_from].
      rewrite (recalibrate_none_dropped_dm ndm k d npix d' M); auto.
      rewrite (IH npix ndm (S k) r' x); auto.
  Qed.

  Lemma recalibrate_same npix ds ds' imat : Forall (fresh npix) ds -> make_imat ds = (ds', Ok imat) ->
    Forall (fun d => Forall (fun b => b = true) (valid d)) ds' -> make_imat ds' = (ds', Ok imat).
  Proof.
    intros HF E HV. unfold Recon.make_imat in *.
    destruct (make_imat_from (length ds) 0 ds) as [ds1 [Ms|e]] eqn:Em; simpl in E; [|discriminate].
    inversion E; subst ds1 imat; clear E.
    destruct (make_imat_from_ok _ _ _ _ _ _ HF Em) as (L1 & L2 & H).
    rewrite L1. rewrite (recalibrate_none_dropped ds npix (length ds) 0 ds' Ms); auto.
  Qed.

  (** an influence function count differing from n_acts, both at least 2: every poke raises *)
  Lemma raw_imat_mismatch ndm k d : length (shapes d) <> n_acts d -> (2 <= length (shapes d))%nat -> (2 <= n_acts d)%nat ->
    raw_imat ndm k d = Err ValueError.
  Proof.
    intros H1 H2 H3. unfold Recon.raw_imat. destruct (n_acts d) as [|n] eqn:En; [lia|]. simpl.
    unfold dm_frame, make_dm_frame.
    destruct (shapes d) as [|s0 [|s1 sh]] eqn:Esh; simpl in H2; try lia.
    rewrite unit_vec_length.
    destruct (Nat.eqb_spec (length (s0 :: s1 :: sh)) (S n)) as [G|G]; [congruence|].
    destruct n as [|n]; [lia|]. reflexivity.
  Qed.

  Lemma recalibrate_dropped npix ds ds' imat :
    Forall (fresh npix) ds -> make_imat ds = (ds', Ok imat) ->
    (exists d', nth_error ds' 0 = Some d' /\ In false (valid d') /\ (2 <= length (shapes d'))%nat) ->
    snd (make_imat ds') = Err ValueError.
  Proof.
    intros HF E (d' & H0 & Hfalse & H2). unfold Recon.make_imat in *.
    destruct (make_imat_from (length ds) 0 ds) as [ds1 [Ms|e]] eqn:Em; simpl in E; [|discriminate].
    inversion E; subst ds1 imat; clear E.
    destruct (make_imat_from_ok _ _ _ _ _ _ HF Em) as (L1 & L2 & H).
    destruct ds as [|d ds]; [destruct ds'; [discriminate|simpl in L1; lia]|].
    destruct (H 0%nat d eq_refl) as (d1 & M & E1 & E2 & (flags & HFl & HS & HV & HVf & HNa & _)).
    assert (d1 = d') by congruence. subst d1.
    destruct ds' as [|x ds']; [discriminate|]. inversion H0; subst x. cbn [Recon.make_imat_from].
    unfold Recon.make_dm_imat at 1.
    rewrite raw_imat_mismatch; [reflexivity| |auto|].
    - rewrite HNa. inversion HF as [|? ? [_ HN] _]; subst. rewrite HN. rewrite HS, pick_length by auto.
      pose proof (count_lt _ Hfalse). lia.
    - rewrite HNa. inversion HF as [|? ? [_ HN] _]; subst. rewrite HN. rewrite HS, pick_length in H2 by auto.
      pose proof (count_le (valid d')). lia.
  Qed.

  (** ** Sub-matrices *)
  Lemma dm_offsets_nth ns : forall t i n, nth_error ns i = Some n ->
    nth_error (dm_offsets t ns) i = Some (t + fold_left Nat.add (firstn i ns) 0)%nat.
  Proof.
    induction ns as [|m ns IH]; intros t [|i] n H; simpl in *; try discriminate.
    - f_equal. lia.
    - rewrite (IH _ i n H). f_equal. rewrite (fold_add_shift (firstn i ns) m). lia.
  Qed.

  Lemma concat_slice {A} (Ms : list (list A)) q M : nth_error Ms q = Some M ->
    pyslice (concat Ms) (Z.of_nat (fold_left Nat.add (firstn q (map (@length A) Ms)) 0%nat))
            (Z.of_nat (fold_left Nat.add (firstn q (map (@length A) Ms)) 0%nat) + Z.of_nat (length M)) = M.
  Proof.
    intros H. apply nth_error_split in H as (l1 & l2 & -> & <-).
    assert (CL : forall (X : list (list A)), length (concat X) = fold_left Nat.add (map (@length A) X) 0%nat).
    { induction X as [|x0 X IHX]; simpl; auto. rewrite app_length, IHX. symmetry. apply fold_add_shift. }
    rewrite map_app. rewrite firstn_app, map_length, Nat.sub_diag. rewrite firstn_all2 by (rewrite map_length; lia).
    simpl. rewrite app_nil_r, <- CL. rewrite concat_app. simpl.
    rewrite pyslice_in by (rewrite ?app_length; lia). rewrite !Nat2Z.id.
    rewrite skipn_app, skipn_all, Nat.sub_diag. simpl.
    rewrite firstn_app, firstn_all, Nat.sub_diag. simpl. apply app_nil_r.
  Qed.

  Lemma sub_matrix_ok npix ds ds' Ms q : Forall (fresh npix) ds ->
    make_imat_from (length ds) 0 ds = (ds', Ok Ms) -> (q < length ds)%nat ->
    (forall p d', (p <= q)%nat -> nth_error ds' p = Some d' -> Forall (fun b => b = true) (valid d')) ->
    exists M, nth_error Ms q = Some M /\ forall w1 nw, get_dm_imat ds' (concat Ms) q w1 nw
      = Ok (map (fun r : vec => pyslice r (Z.of_nat w1) (Z.of_nat w1 + Z.of_nat nw)) M).
  Proof.
    intros HF Em Hq HV. destruct (make_imat_from_ok _ _ _ _ _ _ HF Em) as (L1 & L2 & H).
    assert (HLE : forall p d' M, (p <= q)%nat -> nth_error ds' p = Some d' -> nth_error Ms p = Some M -> n_acts d' = length M).
    { intros p d' M Hp Hd HM.
      destruct (nth_error ds p) as [d|] eqn:Ed; [|apply nth_error_None in Ed; assert (p < length ds')%nat by (apply nth_error_Some; congruence); lia].
      destruct (H p d Ed) as (d1 & M1 & E1 & E2 & E3). assert (d1 = d') by congruence. assert (M1 = M) by congruence. subst.
      pose proof (calibrated_lengths _ _ _ _ _ E3) as [G1 G2].
      destruct E3 as (fl & HFl & HS & HVv & Hval & HNa & _). rewrite HNa.
      assert (fresh npix d) as [_ HN] by (rewrite Forall_forall in HF; apply HF; eapply nth_error_In; eauto).
      rewrite HN. rewrite G1 in HVv. inversion HVv as [HL]. rewrite HL. rewrite count_all; auto.
      rewrite <- Hval. apply (HV p d'); auto. }
    unfold mat in *.
    destruct (nth_error Ms q) as [M|] eqn:EM; [|apply nth_error_None in EM; lia].
    exists M. split; auto. intros w1 nw. unfold get_dm_imat, first_acts.
    destruct (nth_error ds' q) as [dq|] eqn:Edq; [|apply nth_error_None in Edq; lia].
    rewrite (dm_offsets_nth (map n_acts ds') 0 q (n_acts dq)) by (rewrite nth_error_map, Edq; reflexivity).
    rewrite Nat.add_0_l. rewrite (HLE q dq M) by auto.
    replace (firstn q (map n_acts ds')) with (firstn q (map (@length vec) Ms)).
    - do 2 f_equal. apply concat_slice. exact EM.
    - apply nth_error_ext. intros i. destruct (Nat.lt_ge_cases i q).
      + rewrite !nth_error_firstn_lt by auto. rewrite !nth_error_map.
        destruct (nth_error ds' i) as [di|] eqn:Edi; [|apply nth_error_None in Edi; lia].
        destruct (nth_error Ms i) as [Mi|] eqn:EMi; [|apply nth_error_None in EMi; lia].
        simpl. f_equal. symmetry. apply (HLE i di Mi); auto. lia.
      + rewrite !(proj2 (nth_error_None _ _)); auto; rewrite firstn_length; lia.
  Qed.

  (** columns of WFS j are that WFS's response *)
  Lemma wfs_row_slice_gen (ws : list (list vec -> vec)) ph : forall j w, nth_error ws j = Some w ->
    forall o, o = fold_left Nat.add (firstn j (map (fun w => length (w ph)) ws)) 0%nat ->
    pyslice (concat (map (fun w => vneg (w ph)) ws)) (Z.of_nat o) (Z.of_nat o + Z.of_nat (length (w ph))) = vneg (w ph).
  Proof.
    intros j w Hj o ->.
    pose proof (concat_slice (map (fun w => vneg (w ph)) ws) j (vneg (w ph))) as C.
    rewrite nth_error_map, Hj in C. specialize (C eq_refl).
    assert (EL : map (@length Qc) (map (fun w => vneg (w ph)) ws) = map (fun w => length (w ph)) ws).
    { rewrite map_map. apply map_ext. intros a. apply vneg_length. }
    rewrite EL, vneg_length in C. exact C.
  Qed.

  Lemma sub_matrix_entries npix ds ds' imat q d (ns : list nat) j w n :
    Forall (fresh npix) ds -> make_imat ds = (ds', Ok imat) -> nth_error ds q = Some d ->
    (forall p d', (p <= q)%nat -> nth_error ds' p = Some d' -> Forall (fun b => b = true) (valid d')) ->
    (forall ph, map (fun w => length (w ph)) wfss = ns) ->
    nth_error wfss j = Some w -> nth_error ns j = Some n ->
    get_dm_imat ds' imat q (fold_left Nat.add (firstn j ns) 0%nat) n
    = Ok (map (fun s => vneg (w (phase_stack (length ds) q (fit q s)))) (shapes d)).
  Proof.
    intros HF E Hq HV HW Hw Hn. unfold Recon.make_imat in *.
    destruct (make_imat_from (length ds) 0 ds) as [ds1 [Ms|e]] eqn:Em; simpl in E; [|discriminate].
    inversion E; subst ds1 imat; clear E.
    destruct (make_imat_from_ok _ _ _ _ _ _ HF Em) as (L1 & L2 & H).
    destruct (sub_matrix_ok npix ds ds' Ms q HF Em) as (M & EM & G); auto.
    { apply nth_error_Some. congruence. }
    rewrite G. f_equal.
    destruct (H q d Hq) as (d' & M1 & E1 & E2 & (fl & HFl & HS & HVv & Hval & HNa & _ & _ & HM)).
    assert (EQ : M = M1) by congruence. rewrite EQ. clear EQ. rewrite Nat.add_0_l in HM.
    rewrite pick_all in HM; [| rewrite map_length; auto | rewrite <- Hval; apply (HV q d'); auto].
    rewrite HM, map_map. apply map_ext. intros s.
    assert (En : n = length (w (phase_stack (length ds) q (fit q s)))).
    { pose proof (map_nth_error (fun w : list vec -> vec => length (w (phase_stack (length ds) q (fit q s)))) j wfss Hw) as Q.
      assert (Q2 : nth_error ns j = Some (length (w (phase_stack (length ds) q (fit q s))))).
      { rewrite <- (HW (phase_stack (length ds) q (fit q s))). exact Q. }
      rewrite Hn in Q2. inversion Q2. reflexivity. }
    rewrite En. apply (wfs_row_slice_gen wfss _ j w Hw). rewrite HW. reflexivity.
  Qed.

  (** a dropped actuator: the sub-matrix of the first DM has too many rows *)
  Lemma sub_matrix_too_big npix ds ds' imat d0 :
    Forall (fresh npix) ds -> make_imat ds = (ds', Ok imat) -> nth_error ds' 0 = Some d0 ->
    In false (valid d0) -> (length (shapes d0) < length imat)%nat ->
    forall w1 nw, exists M, get_dm_imat ds' imat 0 w1 nw = Ok M /\ (length (shapes d0) < length M)%nat.
  Proof.
    intros HF E H0 Hfalse Hlen w1 nw. unfold get_dm_imat, first_acts.
    destruct ds' as [|x ds']; [discriminate|]. inversion H0; subst x. cbn [map dm_offsets nth_error].
    eexists. split; [reflexivity|]. rewrite map_length.
    unfold Recon.make_imat in E.
    destruct (make_imat_from (length ds) 0 ds) as [ds1 [Ms|e]] eqn:Em; simpl in E; [|discriminate].
    inversion E; subst ds1 imat; clear E.
    destruct (make_imat_from_ok _ _ _ _ _ _ HF Em) as (L1 & L2 & H).
    destruct ds as [|d ds]; [simpl in L1; lia|].
    destruct (H 0%nat d eq_refl) as (d1 & M & E1 & E2 & (flags & HFl & HS & HV & HVf & HNa & _)).
    inversion E1; subst d1. inversion HF as [|? ? [_ HN] _]; subst.
    assert (HC : (length (shapes d0) < n_acts d0)%nat).
    { rewrite HNa, HN, HS, pick_length by auto. pose proof (count_lt _ Hfalse). lia. }
    destruct (Nat.le_ge_cases (n_acts d0) (length (concat Ms))) as [Hle|Hle].
    - rewrite pyslice_in by lia. rewrite firstn_length. simpl skipn. lia.
    - unfold pyslice, norm_ix.
      assert (Hz : (Z.of_nat 0 + Z.of_nat (n_acts d0) <? 0) = false) by (apply Z.ltb_ge; lia).
      rewrite Hz. change (Z.of_nat 0 <? 0) with false. cbv iota.
      rewrite firstn_length, skipn_length. lia.
  Qed.

  Lemma make_imat_from_err ds : forall ndm k i d, nth_error ds i = Some d ->
    (exists e, raw_imat ndm (k + i) d = Err e) -> exists e, snd (make_imat_from ndm k ds) = Err e.
  Proof.
    induction ds as [|d0 ds IH]; intros ndm k [|i] d Hi [e He]; simpl in Hi; try discriminate; cbn [Recon.make_imat_from].
    - inversion Hi; subst d0. rewrite Nat.add_0_r in He.
      unfold Recon.make_dm_imat. rewrite He. exists e. reflexivity.
    - destruct (make_dm_imat ndm k d0) as [d1 [M|e1]] eqn:Ed; [|exists e1; reflexivity].
      destruct (IH ndm (S k) i d Hi) as [e2 He2].
      { exists e. replace (S k + i)%nat with (k + S i)%nat by lia. exact He. }
      destruct (make_imat_from ndm (S k) ds) as [r' x] eqn:Er. simpl in He2. subst x. exists e2. reflexivity.
  Qed.

  Lemma recalibrate_dropped_any npix ds ds' imat i d' :
    Forall (fresh npix) ds -> make_imat ds = (ds', Ok imat) ->
    nth_error ds' i = Some d' -> In false (valid d') -> (2 <= length (shapes d'))%nat ->
    exists e, snd (make_imat ds') = Err e.
  Proof.
    intros HF E H0 Hfalse H2. unfold Recon.make_imat in *.
    destruct (make_imat_from (length ds) 0 ds) as [ds1 [Ms|e]] eqn:Em; simpl in E; [|discriminate].
    inversion E; subst ds1 imat; clear E.
    destruct (make_imat_from_ok _ _ _ _ _ _ HF Em) as (L1 & L2 & H).
    destruct (nth_error ds i) as [d|] eqn:Ed; [|apply nth_error_None in Ed; assert (i < length ds')%nat by (apply nth_error_Some; congruence); lia].
    destruct (H i d Ed) as (d1 & M & E1 & E2 & (flags & HFl & HS & HV & HVf & HNa & _)).
    assert (d1 = d') by congruence. subst d1.
    assert (HN : n_acts d = length (shapes d)) by (rewrite Forall_forall in HF; apply (HF d); eapply nth_error_In; eauto).
    assert (HC : (length (shapes d') < n_acts d')%nat).
    { rewrite HNa, HN, HS, pick_length by auto. subst flags. pose proof (count_lt _ Hfalse). lia. }
    destruct (make_imat_from_err ds' (length ds') 0 i d' H0) as [e He].
    { exists ValueError. apply raw_imat_mismatch; lia. }
    destruct (make_imat_from (length ds') 0 ds') as [y z]. simpl in He. subst z. exists e. reflexivity.
  Qed.
End CalibProofs.

(** ** The split of the command vector *)
Lemma dm_offsets_length ns : forall t, length (dm_offsets t ns) = length ns.
Proof. induction ns; intros; simpl; auto. Qed.

Lemma fold_firstn_S ns i n : nth_error ns i = Some n ->
  fold_left Nat.add (firstn (S i) ns) 0%nat = (fold_left Nat.add (firstn i ns) 0 + n)%nat.
Proof.
  revert i; induction ns as [|m ns IH]; intros [|i] H; simpl in H; try discriminate.
  - inversion H; subst. reflexivity.
  - cbn [firstn fold_left]. rewrite Nat.add_0_l. rewrite (fold_add_shift (firstn (S i) ns)), (fold_add_shift (firstn i ns) m).
    rewrite (IH i H). lia.
Qed.

Lemma prefix_mono ns : forall i j, (i <= j)%nat ->
  (fold_left Nat.add (firstn i ns) 0 <= fold_left Nat.add (firstn j ns) 0)%nat.
Proof.
  induction ns as [|m ns IH]; intros [|i] [|j] H; simpl; try lia.
  rewrite (fold_add_shift (firstn i ns)), (fold_add_shift (firstn j ns)). specialize (IH i j ltac:(lia)). lia.
Qed.

Lemma split_covers ns x : (x < total_acts ns)%nat ->
  exists! i, exists o n, nth_error (dm_offsets 0 ns) i = Some o /\ nth_error ns i = Some n /\ (o <= x < o + n)%nat.
Proof.
  intros Hx. destruct (locate_index ns x Hx) as (q & j & n & Hq & Hj & Ex).
  exists q. split.
  - exists (fold_left Nat.add (firstn q ns) 0%nat), n. rewrite (dm_offsets_nth ns 0 q n Hq). repeat split; auto; lia.
  - intros q' (o' & n' & Ho' & Hn' & Hr). rewrite (dm_offsets_nth ns 0 q' n' Hn') in Ho'. inversion Ho' as [Eo]. clear Ho'.
    pose proof (fold_firstn_S ns q n Hq) as F1. pose proof (fold_firstn_S ns q' n' Hn') as F2.
    destruct (Nat.lt_trichotomy q q') as [L|[L|L]]; auto; exfalso.
    + pose proof (prefix_mono ns (S q) q' L). lia.
    + pose proof (prefix_mono ns (S q') q L). lia.
Qed.

Lemma split_contiguous ns : (forall o, nth_error (dm_offsets 0 ns) 0 = Some o -> o = 0%nat) /\
  (forall i o n, nth_error (dm_offsets 0 ns) i = Some o -> nth_error ns i = Some n ->
     nth_error (dm_offsets 0 ns) (S i) = Some (o + n)%nat \/ (S i = length ns /\ (o + n)%nat = total_acts ns)).
Proof.
  split.
  - destruct ns; simpl; congruence.
  - intros i o n Ho Hn. rewrite (dm_offsets_nth ns 0 i n Hn) in Ho. inversion Ho; subst o; clear Ho.
    destruct (nth_error ns (S i)) as [n2|] eqn:E2.
    + left. rewrite (dm_offsets_nth ns 0 (S i) n2 E2). rewrite (fold_firstn_S ns i n Hn). reflexivity.
    + right. assert (HL : S i = length ns).
      { apply nth_error_None in E2. assert (i < length ns)%nat by (apply nth_error_Some; congruence). lia. }
      split; auto. unfold total_acts. etransitivity; [symmetry; apply (fold_firstn_S ns i n Hn)|]. rewrite HL, firstn_all. reflexivity.
Qed.

(** ** Gain law *)
Definition law (d : dm) (a n : vec) : vec :=
  if closed d then vadd a (vscale (gain d) n) else vadd (vscale (gain d) n) (vscale (1 - gain d) a).
Definition nv (d : dm) : nat := match n_valid d with Some n => n | None => 0%nat end.
Fixpoint gains (ds : list dm) (a new : vec) : vec :=
  match ds with
  | [] => a
  | d :: r => law d (firstn (nv d) a) (firstn (nv d) new) ++ gains r (skipn (nv d) a) (skipn (nv d) new)
  end.

Lemma law_length d a n : length a = length n -> length (law d a n) = length a.
Proof. intros E. unfold law. destruct (closed d); rewrite vadd_length; rewrite ?vscale_length; auto. Qed.

Lemma nvalids_nv ds : nvalids ds = map nv ds.
Proof. reflexivity. Qed.

Lemma gains_length ds : forall a new, length a = length new -> length (gains ds a new) = length a.
Proof.
  induction ds as [|d ds IH]; intros a new E; simpl; auto.
  rewrite app_length, law_length, IH by (rewrite ?firstn_length, ?skipn_length; lia).
  rewrite firstn_length, skipn_length. lia.
Qed.

Lemma apply_gain_from_eq ds : forall pre a npre new, Forall has_valid ds ->
  length pre = length npre -> length a = length new -> length a = total_acts (nvalids ds) ->
  apply_gain_from (length pre) ds (pre ++ a) (npre ++ new) = Ok (pre ++ gains ds a new).
Proof.
  induction ds as [|d ds IH]; intros pre a npre new HF Hp Ha Ht; simpl; auto.
  inversion HF as [|? ? Hd HF']; subst. unfold has_valid in Hd.
  destruct (n_valid d) as [n|] eqn:En; [|congruence].
  assert (SK : forall (u v : vec) k, k = length u -> skipn k (u ++ v) = v).
  { intros u v k ->. rewrite skipn_app, skipn_all, Nat.sub_diag. reflexivity. }
  pose proof (SK pre a (length pre) eq_refl) as SK1. pose proof (SK npre new (length pre) Hp) as SK2.
  unfold vec in *. rewrite SK1, SK2.
  cbn [nvalids map] in Ht. rewrite En, total_acts_cons in Ht. fold (nvalids ds) in Ht.
  unfold bcast. rewrite !firstn_length, Ha, Nat.eqb_refl. simpl.
  assert (Env : nv d = n) by (unfold nv; rewrite En; reflexivity).
  set (seg := if closed d then vadd (firstn n a) (vscale (gain d) (firstn n new))
              else vadd (vscale (gain d) (firstn n new)) (vscale (1 - gain d) (firstn n a))).
  assert (Eseg : seg = law d (firstn n a) (firstn n new)) by reflexivity.
  assert (Lseg : length seg = n). { rewrite Eseg, law_length; rewrite !firstn_length; lia. }
  assert (Esp : splice (pre ++ a) (length pre) seg = (pre ++ seg) ++ skipn n a).
  { unfold splice. rewrite firstn_app, Nat.sub_diag, firstn_all. simpl. rewrite app_nil_r, <- app_assoc. f_equal. f_equal.
    rewrite Lseg. rewrite skipn_app, skipn_all2 by lia. simpl. f_equal. lia. }
  transitivity (apply_gain_from (length pre + n) ds (splice (pre ++ a) (length pre) seg) (npre ++ new)); [reflexivity|].
  clearbody seg. rewrite Esp.
  replace (length pre + n)%nat with (length (pre ++ seg)) by (rewrite app_length; lia).
  replace (npre ++ new) with ((npre ++ firstn n new) ++ skipn n new) by (rewrite <- app_assoc, firstn_skipn; reflexivity).
  rewrite IH; auto.
  - rewrite <- app_assoc, Env, Eseg. reflexivity.
  - rewrite !app_length, firstn_length. lia.
  - rewrite !skipn_length. lia.
  - rewrite skipn_length. lia.
Qed.

Lemma apply_gain_eq ds a new : Forall has_valid ds -> length a = length new -> length a = total_acts (nvalids ds) ->
  apply_gain ds a new = Ok (gains ds a new).
Proof. intros H1 H2 H3. apply (apply_gain_from_eq ds [] a [] new); auto. Qed.

Lemma skipn_add {A} (l : list A) : forall a b, skipn (a + b) l = skipn b (skipn a l).
Proof.
  induction l as [|x l IH]; intros [|a] b; simpl; auto. destruct b; reflexivity.
Qed.

Definition seg (o n : nat) (v : vec) : vec := firstn n (skipn o v).

Lemma gains_seg ds : forall a new i d, length a = length new -> length a = total_acts (nvalids ds) ->
  nth_error ds i = Some d ->
  seg (fold_left Nat.add (firstn i (nvalids ds)) 0%nat) (nv d) (gains ds a new)
  = law d (seg (fold_left Nat.add (firstn i (nvalids ds)) 0%nat) (nv d) a)
          (seg (fold_left Nat.add (firstn i (nvalids ds)) 0%nat) (nv d) new).
Proof.
  induction ds as [|d0 ds IH]; intros a new [|i] d Ha Ht Hi; simpl in Hi; try discriminate.
  - inversion Hi; subst d0. simpl. unfold seg. simpl.
    cbn [nvalids map] in Ht. rewrite total_acts_cons in Ht. fold (nv d) in Ht.
    rewrite firstn_app. rewrite law_length by (rewrite !firstn_length; lia). rewrite firstn_length.
    rewrite Nat.min_l by lia. rewrite Nat.sub_diag. simpl. rewrite app_nil_r.
    apply firstn_all2. rewrite law_length by (rewrite !firstn_length; lia). rewrite firstn_length. lia.
  - cbn [nvalids map] in Ht |- *. rewrite total_acts_cons in Ht. fold (nv d0) in Ht |- *. fold (nvalids ds) in Ht |- *.
    cbn [firstn fold_left]. rewrite Nat.add_0_l, fold_add_shift. cbn [gains].
    assert (Lx : length (law d0 (firstn (nv d0) a) (firstn (nv d0) new)) = nv d0).
    { rewrite law_length by (rewrite !firstn_length; lia). rewrite firstn_length. lia. }
    set (x := fold_left Nat.add (firstn i (nvalids ds)) 0%nat).
    unfold seg. rewrite skipn_app. rewrite skipn_all2 by lia. rewrite Lx. simpl app.
    replace (nv d0 + x - nv d0)%nat with x by lia.
    rewrite !skipn_add.
    apply (IH (skipn (nv d0) a) (skipn (nv d0) new) i d); auto; rewrite !skipn_length; lia.
Qed.

Lemma fold_prefix_le ns i n : nth_error ns i = Some n ->
  (fold_left Nat.add (firstn i ns) 0 + n <= fold_left Nat.add ns 0)%nat.
Proof.
  revert i; induction ns as [|m ns IH]; intros [|i] H; simpl in *; try discriminate.
  - inversion H; subst. rewrite (fold_add_shift ns n). lia.
  - rewrite (fold_add_shift ns m), (fold_add_shift (firstn i ns) m). specialize (IH i H). lia.
Qed.

Lemma seg_length o n v : (o + n <= length v)%nat -> length (seg o n v) = n.
Proof. intros H. unfold seg. rewrite firstn_length, skipn_length. lia. Qed.

Lemma seg_pyslice o n (v : vec) : (o + n <= length v)%nat -> pyslice v (Z.of_nat o) (Z.of_nat o + Z.of_nat n) = seg o n v.
Proof. intros H. rewrite pyslice_in by lia. rewrite !Nat2Z.id. reflexivity. Qed.

Section Control.
  Variable ds : list dm.
  Variables nmeas total : nat.
  Variable ctrl : mat.
  Hypothesis Hvalid : Forall has_valid ds.
  Hypothesis Hctrl : length ctrl = total.
  Hypothesis Htotal : total = total_acts (nvalids ds).

  Definition inv (s : recon_state) (ms : list vec) : Prop :=
    match s with
    | None => ms = []
    | Some a => length a = total /\
        forall i d, nth_error ds i = Some d ->
          let o := fold_left Nat.add (firstn i (nvalids ds)) 0%nat in
          seg o (nv d) a =
            (if closed d then integrator (nv d) (gain d) (map (fun m => seg o (nv d) (mvm ctrl m)) ms)
             else exp_filter (nv d) (gain d) (map (fun m => seg o (nv d) (mvm ctrl m)) ms))
    end.

  Lemma skipn_rep {A} (x : A) : forall k o, skipn o (repeat x k) = repeat x (k - o).
  Proof. induction k as [|k IH]; intros [|o]; simpl; auto. Qed.
  Lemma firstn_rep {A} (x : A) : forall n k, (n <= k)%nat -> firstn n (repeat x k) = repeat x n.
  Proof. induction n as [|n IH]; intros [|k] H; simpl; auto; try lia. f_equal. apply IH. lia. Qed.
  Lemma seg_zero o n k : (o + n <= k)%nat -> seg o n (vzero k) = vzero n.
  Proof. intros H. unfold seg, vzero. rewrite skipn_rep. apply firstn_rep. lia. Qed.

  Lemma off_le i d : nth_error ds i = Some d ->
    (fold_left Nat.add (firstn i (nvalids ds)) 0 + nv d <= total)%nat.
  Proof.
    intros H. rewrite Htotal. apply fold_prefix_le. unfold nvalids. rewrite nth_error_map, H. reflexivity.
  Qed.

  Lemma reconstruct_inv s ms m : inv s ms -> length m = nmeas ->
    exists a, reconstruct ds nmeas total ctrl s m = Ok a /\ inv (Some a) (ms ++ [m]).
  Proof.
    intros HI Hm. unfold reconstruct. rewrite Hm, Nat.eqb_refl.
    set (a0 := match s with None => vzero total | Some a => a end).
    assert (La : length a0 = total).
    { unfold a0. destruct s as [a|]; [apply HI | apply vzero_length]. }
    rewrite apply_gain_eq; auto; try (rewrite mvm_length; congruence); try congruence.
    eexists. split; [reflexivity|]. split.
    - rewrite gains_length by (rewrite mvm_length; congruence). exact La.
    - intros i d Hi o. pose proof (off_le i d Hi) as Ho.
      unfold o at 1. rewrite (gains_seg ds a0 (mvm ctrl m) i d); auto; try (rewrite mvm_length; congruence); try congruence.
      fold o. rewrite map_app. cbn [map].
      set (r := seg o (nv d) (mvm ctrl m)).
      assert (Hseg : seg o (nv d) a0 =
         (if closed d then integrator (nv d) (gain d) (map (fun m => seg o (nv d) (mvm ctrl m)) ms)
          else exp_filter (nv d) (gain d) (map (fun m => seg o (nv d) (mvm ctrl m)) ms))).
      { unfold a0. destruct s as [a|].
        - apply HI; auto.
        - simpl in HI. subst ms. simpl. rewrite seg_zero by (unfold o; lia).
          unfold integrator, exp_filter; simpl. rewrite vscale_zero. destruct (closed d); reflexivity. }
      unfold law. rewrite Hseg. unfold integrator, exp_filter.
      destruct (closed d); rewrite fold_left_app; simpl; auto.
      symmetry. apply vscale_add.
  Qed.

  Lemma recon_reset_inv s ms : inv s ms -> inv (recon_reset s) [].
  Proof.
    destruct s as [a|]; simpl; auto. intros [La _]. split; [rewrite vzero_length; auto|].
    intros i d Hi. rewrite La, seg_zero by (apply off_le; auto).
    unfold integrator, exp_filter; simpl. rewrite vscale_zero. destruct (closed d); reflexivity.
  Qed.

  Lemma recon_run_inv ops : forall s ms, inv s ms -> slopes_ok nmeas ops ->
    exists s', recon_run ds nmeas total ctrl s ops = Ok s' /\ inv s' (since_reset ms ops).
  Proof.
    induction ops as [|o ops IH]; intros s ms HI HS; simpl.
    - exists s. auto.
    - apply Forall_cons_iff in HS as [Hm HS]. destruct o as [m|].
      + destruct (reconstruct_inv s ms m HI) as (a & Ea & Ha); auto. rewrite Ea. simpl. apply IH; auto.
      + apply IH; auto. eapply recon_reset_inv; eauto.
  Qed.

  Lemma gain_law ops a : slopes_ok nmeas ops -> recon_run ds nmeas total ctrl None ops = Ok (Some a) ->
    length a = total /\
    forall i d o, nth_error ds i = Some d -> nth_error (dm_offsets 0 (nvalids ds)) i = Some o ->
      let mine (v : vec) := pyslice v (Z.of_nat o) (Z.of_nat o + Z.of_nat (nv d)) in
      mine a = (if closed d then integrator (nv d) (gain d) (map (fun m => mine (mvm ctrl m)) (since_reset [] ops))
                else exp_filter (nv d) (gain d) (map (fun m => mine (mvm ctrl m)) (since_reset [] ops))).
  Proof.
    intros HS E. destruct (recon_run_inv ops None [] eq_refl HS) as (s' & E' & HI).
    rewrite E in E'. inversion E'; subst s'. destruct HI as [La HI]. split; auto.
    intros i d o Hi Ho mine.
    assert (Hn : nth_error (nvalids ds) i = Some (nv d)) by (unfold nvalids; rewrite nth_error_map, Hi; reflexivity).
    rewrite (dm_offsets_nth (nvalids ds) 0 i (nv d) Hn) in Ho. rewrite Nat.add_0_l in Ho. inversion Ho; subst o.
    pose proof (off_le i d Hi) as Hle.
    unfold mine. rewrite seg_pyslice by lia. rewrite (HI i d Hi).
    assert (EM : map (fun m => pyslice (mvm ctrl m) (Z.of_nat (fold_left Nat.add (firstn i (nvalids ds)) 0%nat))
                  (Z.of_nat (fold_left Nat.add (firstn i (nvalids ds)) 0%nat) + Z.of_nat (nv d))) (since_reset [] ops)
             = map (fun m => seg (fold_left Nat.add (firstn i (nvalids ds)) 0%nat) (nv d) (mvm ctrl m)) (since_reset [] ops)).
    { apply map_ext. intros m. apply seg_pyslice. rewrite mvm_length. lia. }
    rewrite EM. reflexivity.
  Qed.

  Lemma gain_law_runs ops : slopes_ok nmeas ops -> exists s, recon_run ds nmeas total ctrl None ops = Ok s.
  Proof. intros HS. destruct (recon_run_inv ops None [] eq_refl HS) as (s' & E' & _). eauto. Qed.

  (** ** Linearity *)
  Definition lc (al be : Qc) (x y : vec) : vec := vadd (vscale al x) (vscale be y).

  Lemma lc_length al be x y : length x = length y -> length (lc al be x y) = length x.
  Proof. intros. unfold lc. rewrite vadd_length; rewrite !vscale_length; auto. Qed.

  Lemma law_linear al be d a1 a2 n1 n2 :
    length a1 = length n1 -> length a2 = length n2 -> length a1 = length a2 ->
    law d (lc al be a1 a2) (lc al be n1 n2) = lc al be (law d a1 n1) (law d a2 n2).
  Proof.
    revert a2 n1 n2. induction a1 as [|x a1 IH]; intros [|y a2] [|z n1] [|w n2] E1 E2 E3; try discriminate;
      unfold law, lc in *; simpl.
    - destruct (closed d); reflexivity.
    - unfold vadd, vscale in *. specialize (IH a2 n1 n2 ltac:(simpl in *; lia) ltac:(simpl in *; lia) ltac:(simpl in *; lia)).
      destruct (closed d); cbn [map vmap2]; (apply f_equal2; [ring | exact IH]).
  Qed.

  Lemma lc_firstn al be n x y : firstn n (lc al be x y) = lc al be (firstn n x) (firstn n y).
  Proof. unfold lc. rewrite firstn_vadd, !firstn_vscale. reflexivity. Qed.
  Lemma lc_skipn al be n x y : length x = length y -> skipn n (lc al be x y) = lc al be (skipn n x) (skipn n y).
  Proof. intros. unfold lc. rewrite skipn_vadd by (rewrite !vscale_length; auto). rewrite !skipn_vscale. reflexivity. Qed.
  Lemma lc_app al be x1 x2 y1 y2 : length x1 = length y1 -> lc al be (x1 ++ x2) (y1 ++ y2) = lc al be x1 y1 ++ lc al be x2 y2.
  Proof.
    revert y1; induction x1 as [|x x1 IH]; intros [|y y1] E; try discriminate; auto.
    unfold lc, vadd, vscale in *. cbn [app map vmap2]. f_equal. apply IH. simpl in E; lia.
  Qed.

  Lemma gains_linear al be ds0 : forall a1 a2 n1 n2,
    length a1 = length n1 -> length a2 = length n2 -> length a1 = length a2 ->
    gains ds0 (lc al be a1 a2) (lc al be n1 n2) = lc al be (gains ds0 a1 n1) (gains ds0 a2 n2).
  Proof.
    induction ds0 as [|d ds0 IH]; intros a1 a2 n1 n2 E1 E2 E3; simpl; auto.
    rewrite !lc_firstn, !lc_skipn by congruence.
    rewrite law_linear by (rewrite !firstn_length; lia).
    rewrite IH by (rewrite !skipn_length; lia).
    rewrite lc_app; auto. rewrite !law_length; rewrite !firstn_length; lia.
  Qed.

  Lemma mvm_lc al be M x y : length x = length y -> mvm M (lc al be x y) = lc al be (mvm M x) (mvm M y).
  Proof. intros. unfold lc. rewrite mvm_add by (rewrite !vscale_length; auto). rewrite !mvm_scale. reflexivity. Qed.

  Lemma linear_run al be o1 o2 o3 : combined al be o1 o2 o3 -> slopes_ok nmeas o1 -> slopes_ok nmeas o2 ->
    forall s1 s2 s3,
    length (commands total s1) = total -> length (commands total s2) = total ->
    commands total s3 = lc al be (commands total s1) (commands total s2) ->
    exists t1 t2 t3, recon_run ds nmeas total ctrl s1 o1 = Ok t1 /\ recon_run ds nmeas total ctrl s2 o2 = Ok t2 /\
      recon_run ds nmeas total ctrl s3 o3 = Ok t3 /\
      commands total t3 = lc al be (commands total t1) (commands total t2).
  Proof.
    induction 1 as [|m1 m2 o1 o2 o3 HC IH|o1 o2 o3 HC IH]; intros HS1 HS2 s1 s2 s3 L1 L2 E.
    - exists s1, s2, s3. auto.
    - apply Forall_cons_iff in HS1 as [Hm1 HS1]. apply Forall_cons_iff in HS2 as [Hm2 HS2]. simpl.
      assert (R : forall s m, length (commands total s) = total -> length m = nmeas ->
        reconstruct ds nmeas total ctrl s m = Ok (gains ds (commands total s) (mvm ctrl m))).
      { intros s m Ls Lm. unfold reconstruct. rewrite Lm, Nat.eqb_refl. fold (commands total s).
        apply apply_gain_eq; auto; rewrite ?mvm_length; congruence. }
      rewrite (R s1 m1), (R s2 m2) by auto.
      rewrite (R s3).
      2: { rewrite E. rewrite lc_length; congruence. }
      2: { rewrite vadd_length; rewrite !vscale_length; congruence. }
      simpl. apply IH; auto.
      + simpl. rewrite gains_length; auto. rewrite mvm_length. congruence.
      + simpl. rewrite gains_length; auto. rewrite mvm_length. congruence.
      + simpl. rewrite E. fold (lc al be m1 m2). rewrite mvm_lc by congruence.
        apply gains_linear; rewrite ?mvm_length; congruence.
    - apply Forall_cons_iff in HS1 as [Hm1 HS1]. apply Forall_cons_iff in HS2 as [Hm2 HS2]. simpl. apply IH; auto.
      + destruct s1; simpl in *; auto. rewrite vzero_length; auto.
      + destruct s2; simpl in *; auto. rewrite vzero_length; auto.
      + assert (Z : forall s, length (commands total s) = total -> commands total (recon_reset s) = vzero total).
        { intros [a|] HL; simpl in *; congruence. }
        rewrite !Z; auto.
        * unfold lc. rewrite !vscale_zero. symmetry. apply vadd_0_l. apply vzero_length.
        * rewrite E, lc_length; congruence.
  Qed.

  Lemma linear_from_start al be o1 o2 o3 : combined al be o1 o2 o3 -> slopes_ok nmeas o1 -> slopes_ok nmeas o2 ->
    exists t1 t2 t3, recon_run ds nmeas total ctrl None o1 = Ok t1 /\ recon_run ds nmeas total ctrl None o2 = Ok t2 /\
      recon_run ds nmeas total ctrl None o3 = Ok t3 /\
      commands total t3 = vadd (vscale al (commands total t1)) (vscale be (commands total t2)).
  Proof.
    intros HC H1 H2. apply (linear_run al be o1 o2 o3 HC H1 H2 None None None); simpl; auto.
    - apply vzero_length.
    - apply vzero_length.
    - unfold lc. rewrite !vscale_zero. symmetry. apply vadd_0_l. apply vzero_length.
  Qed.
End Control.

(** The gain law on a command vector given DM by DM. *)
Lemma apply_gain_concat ds : forall az ns,
  length az = length ds -> length ns = length ds ->
  (forall i d a n, nth_error ds i = Some d -> nth_error az i = Some a -> nth_error ns i = Some n ->
     n_valid d = Some (length a) /\ length n = length a) ->
  apply_gain ds (concat az) (concat ns)
  = Ok (concat (map (fun p => control_law (fst p) (fst (snd p)) (snd (snd p))) (combine ds (combine az ns)))).
Proof.
  intros az ns L1 L2 H.
  assert (G : forall ds az ns, length az = length ds -> length ns = length ds ->
    (forall i d a n, nth_error ds i = Some d -> nth_error az i = Some a -> nth_error ns i = Some n ->
       n_valid d = Some (length a) /\ length n = length a) ->
    length (concat az) = length (concat ns) /\ length (concat az) = total_acts (nvalids ds) /\
    gains ds (concat az) (concat ns)
    = concat (map (fun p => control_law (fst p) (fst (snd p)) (snd (snd p))) (combine ds (combine az ns)))).
  { clear. induction ds as [|d ds IH]; intros [|a az] [|n ns] L1 L2 H; try discriminate; [repeat split; auto|].
    destruct (H 0%nat d a n eq_refl eq_refl eq_refl) as [Hv Hl].
    destruct (IH az ns) as (A1 & A2 & A3); [simpl in *; lia|simpl in *; lia| |].
    { intros i d0 a0 n0 H1 H2 H3. apply (H (S i)); auto. }
    cbn [concat combine map fst snd gains].
    assert (Env : nv d = length a) by (unfold nv; rewrite Hv; reflexivity).
    unfold vec in *.
    rewrite !app_length. split; [lia|]. split.
    - cbn [nvalids map]. rewrite Hv, total_acts_cons. fold (nvalids ds). lia.
    - rewrite Env, !firstn_app, !skipn_app, !firstn_all, !skipn_all, !Nat.sub_diag. simpl firstn. simpl skipn.
      assert (E1 : firstn (length a) n = n) by (apply firstn_all2; lia).
      assert (E2 : skipn (length a) n = []) by (apply skipn_all2; lia).
      replace (length a - length n)%nat with 0%nat by lia. simpl firstn. simpl skipn.
      rewrite E1, E2, !app_nil_r. simpl app. rewrite A3. reflexivity. }
  destruct (G ds az ns L1 L2 H) as (A1 & A2 & A3).
  rewrite apply_gain_eq; auto; [rewrite A3; reflexivity|].
  apply Forall_forall. intros d Hd. apply In_nth_error in Hd as [i Hi].
  assert (Hil : (i < length ds)%nat) by (apply nth_error_Some; congruence).
  destruct (nth_error az i) as [a|] eqn:Ea; [|apply nth_error_None in Ea; lia].
  destruct (nth_error ns i) as [n|] eqn:En; [|apply nth_error_None in En; lia].
  destruct (H i d a n Hi Ea En) as [Hv _]. unfold has_valid. congruence.
Qed.

(** ** Noise settings *)
Lemma frame_conf_restores {A} b c (body : wfs_conf -> result A) a c' : frame_conf b c body = (c', Ok a) -> c' = c.
Proof.
  unfold frame_conf. destruct b.
  - destruct (body _); intros H; inversion H; subst. destruct c; reflexivity.
  - intros H; inversion H; auto.
Qed.
Lemma imat_wfs_conf_restores {A} b c (body : wfs_conf -> result A) a c' : imat_wfs_conf b c body = (c', Ok a) -> c' = c.
Proof.
  unfold imat_wfs_conf. destruct b.
  - apply frame_conf_restores.
  - unfold frame_conf. destruct (body _); intros H; inversion H; subst. destruct c; reflexivity.
Qed.
Lemma imat_confs_restores {A} b (bodies : list (wfs_conf -> result A)) : forall c c' l,
  imat_confs b c bodies = (c', Ok l) -> c' = c.
Proof.
  induction bodies as [|f r IH]; intros c c' l H; simpl in H; [inversion H; auto|].
  destruct (imat_wfs_conf b c f) as [c1 [a|e]] eqn:E; [|inversion H].
  apply imat_wfs_conf_restores in E. subst c1.
  destruct (imat_confs b c r) as [c2 [x|e]] eqn:E2; simpl in H; inversion H; subst. eapply IH; eauto.
Qed.
(** during an iMat frame the noise is off whatever imat_noise says *)
Lemma imat_noise_ignored {A} b c (body : wfs_conf -> result A) :
  snd (imat_wfs_conf b c body) = body (mkConf false 0 false).
Proof. unfold imat_wfs_conf, frame_conf. destruct b; destruct (body _); reflexivity. Qed.

(** ** Statements in the form used by Props *)
Lemma gain_law_closed ds nmeas total ctrl ops a i d n o :
  Forall has_valid ds -> length ctrl = total -> total = total_acts (nvalids ds) -> slopes_ok nmeas ops ->
  recon_run ds nmeas total ctrl None ops = Ok (Some a) ->
  nth_error ds i = Some d -> n_valid d = Some n -> nth_error (dm_offsets 0 (nvalids ds)) i = Some o ->
  pyslice a (Z.of_nat o) (Z.of_nat o + Z.of_nat n)
  = (if closed d then integrator n (gain d) else exp_filter n (gain d))
      (map (fun m => pyslice (mvm ctrl m) (Z.of_nat o) (Z.of_nat o + Z.of_nat n)) (since_reset [] ops)).
Proof.
  intros HV HC HT HS E Hi Hn Ho.
  destruct (gain_law ds nmeas total ctrl HV HC HT ops a HS E) as [_ H].
  assert (En : nv d = n) by (unfold nv; rewrite Hn; reflexivity).
  pose proof (H i d o Hi Ho) as G. cbv zeta in G. rewrite En in G. rewrite G. destruct (closed d); reflexivity.
Qed.

Lemma run_dms_split fit ds cs fs :
  length cs = length ds -> length fs = length ds ->
  (forall i d c f, nth_error ds i = Some d -> nth_error cs i = Some c -> nth_error fs i = Some f ->
      n_valid d = Some (length c) /\ dm_frame fit i d c = Ok f) ->
  run_dms fit ds (concat cs) = Ok fs.
Proof.
  intros L1 L2 H. unfold run_dms.
  pose proof (run_dms_concat fit ds 0 cs fs [] [] L1) as R. simpl in R. rewrite app_nil_r in R. apply R; auto.
  intros i d c Hd Hc.
  assert (Hl : (i < length fs)%nat) by (rewrite L2; apply nth_error_Some; congruence).
  destruct (nth_error fs i) as [f|] eqn:Ef; [|apply nth_error_None in Ef; lia].
  destruct (H i d c f Hd Hc Ef) as [H1 H2]. split; auto. exists f. auto.
Qed.

Lemma threshold_spec fit npx wfss ndm k d npix d' M :
  fresh npix d -> make_dm_imat fit npx wfss ndm k d = (d', Ok M) ->
  exists raw,
    raw_imat fit npx wfss ndm k d = Ok raw /\ length (valid d') = n_acts d /\ length raw = n_acts d /\
    (forall i r, nth_error raw i = Some r -> exists b, nth_error (valid d') i = Some b /\ (b = true <-> responds raw r)) /\
    M = pick (valid d') raw /\ shapes d' = pick (valid d') (shapes d) /\
    n_valid d' = Some (length M) /\ length (shapes d') = length M.
Proof.
  intros [HS HN] E. destruct (make_dm_imat_threshold fit npx wfss ndm k d npix d' M HS HN E) as (raw & H1 & H2 & H3 & H4 & H5 & H6 & H7).
  exists raw. repeat split; auto. unfold raw_imat in H1. apply mapM_length in H1. rewrite seq_length in H1. exact H1.
Qed.

From Verif.Base Require Import Vec.
From Verif.Model Require Import Recon Persist.
From Verif.Spec Require Import ReconSpec PersistSpec.
From Verif.Proofs Require Import ReconProofs.

Lemma run_steps_app a b s : run_steps (a ++ b) s = run_steps b (run_steps a s).
Proof. apply fold_left_app. Qed.

(** ** Invariants of saving *)
Lemma steps_inv (P : fsys -> Prop) ss : (forall st, In st ss -> forall s, P s -> P (st s)) ->
  forall k s, P s -> P (run_steps (firstn k ss) s).
Proof.
  induction ss as [|f ss IH]; intros H k s Hs; [rewrite firstn_nil; exact Hs|].
  destruct k; [exact Hs|]. simpl. apply IH.
  - intros st Hi. apply H. right; auto.
  - apply H; [left; auto|auto].
Qed.

Lemma only_put_imat ha hs ds M x fs : (forall f, x = Data f -> f = mkImatFile ha hs M) ->
  only_files_of ha hs ds M fs -> only_files_of ha hs ds M (put_imat x fs).
Proof. intros Hx (A & B & C). split; [exact Hx|]. split; [exact B|exact C]. Qed.
Lemma only_put_acts ha hs ds M i x fs : (forall d flags, nth_error ds i = Some d -> x = Data flags -> flags = valid d) ->
  only_files_of ha hs ds M fs -> only_files_of ha hs ds M (put_acts i x fs).
Proof.
  intros Hx (A & B & C). split; [exact A|]. split; [|exact C].
  intros j d flags Hj. simpl. destruct (Nat.eqb_spec j i) as [->|]; [apply Hx; auto | apply B; auto].
Qed.

Lemma save_acts_only ha hs DS M : forall ds i, (forall j d, nth_error ds j = Some d -> nth_error DS (i + j) = Some d) ->
  forall st, In st (save_acts_steps i ds) -> forall fs, only_files_of ha hs DS M fs -> only_files_of ha hs DS M (st fs).
Proof.
  induction ds as [|d ds IH]; intros i HD st Hst fs Hfs; [inversion Hst|].
  cbn [save_acts_steps] in Hst. apply in_app_or in Hst. destruct Hst as [Hst|Hst].
  - assert (Hi : nth_error DS i = Some d). { specialize (HD 0%nat d eq_refl). rewrite Nat.add_0_r in HD. exact HD. }
    simpl in Hst. destruct Hst as [<-|[<-|[<-|[]]]]; apply only_put_acts; auto; intros d0 flags Hd0 E; try discriminate.
    inversion E; subst. congruence.
  - apply (IH (S i)); auto. intros j d0 Hj. replace (S i + j)%nat with (i + S j)%nat by lia. apply HD. exact Hj.
Qed.

Lemma save_only ha hs ds M st : In st (save_imat_steps ha hs ds M) ->
  forall fs, only_files_of ha hs ds M fs -> only_files_of ha hs ds M (st fs).
Proof.
  intros Hst fs Hfs. unfold save_imat_steps in Hst. apply in_app_or in Hst. destruct Hst as [Hst|Hst].
  - simpl in Hst. destruct Hst as [<-|[<-|[<-|[]]]]; apply only_put_imat; auto; intros f E; inversion E; auto.
  - revert fs Hfs. apply (save_acts_only ha hs ds M ds 0); auto.
Qed.

(** ** The directory after a complete save *)
Lemma save_acts_effect : forall ds i s,
  (forall j d, nth_error ds j = Some d -> f_acts (run_steps (save_acts_steps i ds) s) (i + j) = Data (valid d)) /\
  (forall j, (j < i)%nat -> f_acts (run_steps (save_acts_steps i ds) s) j = f_acts s j) /\
  f_imat (run_steps (save_acts_steps i ds) s) = f_imat s /\
  f_shapes (run_steps (save_acts_steps i ds) s) = f_shapes s /\
  f_cmat (run_steps (save_acts_steps i ds) s) = f_cmat s.
Proof.
  induction ds as [|d ds IH]; intros i s.
  - repeat split; auto. intros [|j] d H; discriminate.
  - cbn [save_acts_steps]. rewrite run_steps_app.
    set (s1 := run_steps (write_steps (put_acts i) (valid d)) s).
    destruct (IH (S i) s1) as (A & B & C & D & E).
    assert (S1 : f_acts s1 i = Data (valid d)) by (simpl; rewrite Nat.eqb_refl; reflexivity).
    split; [|split; [|split; [|split]]].
    + intros [|j] d0 Hj; simpl in Hj.
      * inversion Hj; subst. rewrite Nat.add_0_r, B by lia. exact S1.
      * replace (i + S j)%nat with (S i + j)%nat by lia. apply A; auto.
    + intros j Hj. rewrite B by lia. simpl. destruct (Nat.eqb_spec j i); [lia|reflexivity].
    + rewrite C. reflexivity.
    + rewrite D. reflexivity.
    + rewrite E. reflexivity.
Qed.

Lemma save_effect ha hs ds M s :
  let s' := run_steps (save_imat_steps ha hs ds M) s in
  f_imat s' = Data (mkImatFile ha hs M) /\
  (forall j d, nth_error ds j = Some d -> f_acts s' j = Data (valid d)) /\
  f_shapes s' = f_shapes s /\ f_cmat s' = f_cmat s.
Proof.
  intros s'. unfold s', save_imat_steps. rewrite run_steps_app.
  destruct (save_acts_effect ds 0 (run_steps (write_steps put_imat (mkImatFile ha hs M)) s)) as (A & B & C & D & E).
  rewrite C, D, E. repeat split; auto.
Qed.

(** ** Loading *)
(** d' is what d becomes when the flags are set *)
Definition filtered (d d' : dm) : Prop :=
  length (valid d') = length (shapes d) /\
  d' = mkDm (n_acts d) (pick (valid d') (shapes d)) (valid d') (Some (count_true (valid d'))) (closed d) (gain d).

Lemma calibrated_filtered fit npx wfss ndm k d d' M : calibrated fit npx wfss ndm k d d' M -> filtered d d'.
Proof.
  intros (fl & H1 & H2 & H3 & H4 & H5 & H6 & H7 & _). split; [congruence|].
  rewrite H4. destruct d'; simpl in *. congruence.
Qed.

Lemma load_dms_ok : forall ds ds' i fs, length ds' = length ds ->
  (forall j d d', nth_error ds j = Some d -> nth_error ds' j = Some d' -> filtered d d' /\ f_acts fs (i + j) = Data (valid d')) ->
  no_shape_files fs -> load_dms i ds fs = (ds', Ok (total_acts (nvalids ds'))).
Proof.
  induction ds as [|d ds IH]; intros [|d' ds'] i fs L H NS; try discriminate; auto.
  destruct (H 0%nat d d' eq_refl eq_refl) as [[F1 F2] F3]. rewrite Nat.add_0_r in F3.
  cbn [load_dms]. rewrite F3. cbn [read_file]. rewrite set_valid_ok by auto. rewrite NS, <- F2.
  rewrite (IH ds' (S i) fs); auto.
  - f_equal. cbn [bind]. f_equal. cbn [nvalids map]. rewrite total_acts_cons. fold (nvalids ds'). f_equal.
    rewrite F2. reflexivity.
  - intros j d0 d0' A B. destruct (H (S j) d0 d0' A B) as [C D]. split; auto.
    replace (S i + j)%nat with (i + S j)%nat by lia. exact D.
Qed.

Lemma load_dms_missing : forall ds i fs j, (j < length ds)%nat -> (forall flags, f_acts fs (i + j) <> Data flags) ->
  exists e, snd (load_dms i ds fs) = Err e.
Proof.
  induction ds as [|d ds IH]; intros i fs j Hj HN; simpl in Hj; [lia|]. cbn [load_dms].
  destruct (f_acts fs i) as [| |flags] eqn:E; cbn [read_file]; [eexists; reflexivity|eexists; reflexivity|].
  destruct (set_valid d flags) as [d1 [[]|e]]; [|eexists; reflexivity].
  destruct j as [|j]; [rewrite Nat.add_0_r in HN; exfalso; apply (HN flags E)|].
  destruct (IH (S i) fs j) as [e He]; [lia| |].
  { intros fl. replace (S i + j)%nat with (i + S j)%nat by lia. apply HN. }
  destruct (load_dms (S i) ds fs) as [r' t]. simpl in He. subst t. eexists; reflexivity.
Qed.

Lemma file_shape_ok M m : has_columns m M -> file_shape M = Ok (length M, m).
Proof.
  intros (H1 & H2 & H3). destruct M as [|r M]; [congruence|]. inversion H3; subst.
  destruct r; simpl in H2; [lia|]. reflexivity.
Qed.

(** what is needed of a pair of states before/after a calibration *)
Definition same_system (ds ds' : list dm) (imat : mat) : Prop :=
  length ds' = length ds /\ length imat = total_acts (nvalids ds') /\
  forall j d d', nth_error ds j = Some d -> nth_error ds' j = Some d' -> filtered d d'.

Lemma make_imat_same_system fit npx wfss npix ds ds' imat : Forall (fresh npix) ds ->
  make_imat fit npx wfss ds = (ds', Ok imat) -> same_system ds ds' imat.
Proof.
  intros HF E. unfold make_imat in E.
  destruct (make_imat_from fit npx wfss (length ds) 0 ds) as [ds1 [Ms|e]] eqn:Em; simpl in E; [|discriminate].
  inversion E; subst ds1 imat; clear E.
  destruct (make_imat_from_ok _ _ _ _ _ _ _ _ _ HF Em) as (L1 & L2 & H). split; auto. split.
  - assert (G : forall (Ms : list mat) ds', length ds' = length Ms ->
       (forall i d' M, nth_error ds' i = Some d' -> nth_error Ms i = Some M -> n_valid d' = Some (length M)) ->
       length (concat Ms) = total_acts (nvalids ds')).
    { induction Ms0 as [|M Ms0 IH]; intros [|d' ds0] L G; try discriminate; auto.
      cbn [concat nvalids map]. rewrite app_length, total_acts_cons, (G 0%nat d' M eq_refl eq_refl). f_equal.
      apply IH; [simpl in L; lia|]. intros i d0 M0 A B. apply (G (S i)); auto. }
    apply G; [congruence|]. intros i d' M A B.
    destruct (nth_error ds i) as [d|] eqn:Ed; [|apply nth_error_None in Ed; assert (i < length ds')%nat by (apply nth_error_Some; congruence); lia].
    destruct (H i d Ed) as (d1 & M1 & E1 & E2 & E3). assert (d1 = d') by congruence. assert (M1 = M) by congruence. subst.
    apply (calibrated_lengths _ _ _ _ _ _ _ _ E3).
  - intros j d d' A B. destruct (H j d A) as (d1 & M1 & E1 & E2 & E3). assert (d1 = d') by congruence. subst.
    eapply calibrated_filtered; eauto.
Qed.

Lemma load_complete total nmeas ds ds' imat M fs : same_system ds ds' imat -> has_columns nmeas M -> length M = length imat ->
  f_imat fs = Data (mkImatFile total nmeas M) ->
  (forall j d, nth_error ds' j = Some d -> f_acts fs j = Data (valid d)) -> no_shape_files fs ->
  load_imat total nmeas ds fs = (ds', Ok M).
Proof.
  intros (L & LI & HF) HC LM FI FA NS. unfold load_imat. rewrite FI. cbn [read_file h_dmnactu h_nslop im_data].
  rewrite !Nat.eqb_refl. cbn [andb negb].
  rewrite (load_dms_ok ds ds' 0 fs); auto.
  - rewrite (file_shape_ok M nmeas HC). cbn [bind fst snd]. rewrite LM, LI, !Nat.eqb_refl. reflexivity.
  - intros j d d' A B. split; [eapply HF; eauto|apply FA; auto].
Qed.

Theorem save_load_roundtrip fit npx wfss npix ds ds' imat nmeas fs0 :
  Forall (fresh npix) ds -> make_imat fit npx wfss ds = (ds', Ok imat) -> has_columns nmeas imat -> no_shape_files fs0 ->
  load_imat (all_acts ds) nmeas ds (run_steps (save_imat_steps (all_acts ds) nmeas ds' imat) fs0) = (ds', Ok imat).
Proof.
  intros HF E HC NS.
  destruct (save_effect (all_acts ds) nmeas ds' imat fs0) as (A & B & C & D).
  apply (load_complete _ _ _ _ imat imat); auto.
  - eapply make_imat_same_system; eauto.
  - intros i. rewrite C. apply NS.
Qed.

(** ** Crash points *)
Lemma load_only_files total nmeas ds ds' imat fs : same_system ds ds' imat -> has_columns nmeas imat ->
  only_files_of total nmeas ds' imat fs ->
  load_imat total nmeas ds fs = (ds', Ok imat) \/ exists e, snd (load_imat total nmeas ds fs) = Err e.
Proof.
  intros HS HC (A & B & NS).
  destruct (f_imat fs) as [| |f] eqn:EI.
  - right. unfold load_imat. rewrite EI. eexists; reflexivity.
  - right. unfold load_imat. rewrite EI. eexists; reflexivity.
  - pose proof (A f eq_refl). subst f.
    assert (DEC : (forall j d, nth_error ds' j = Some d -> f_acts fs j = Data (valid d)) \/
                  exists j, (j < length ds')%nat /\ forall fl, f_acts fs j <> Data fl).
    { assert (G : forall n, (n <= length ds')%nat -> (forall j d, (j < n)%nat -> nth_error ds' j = Some d -> f_acts fs j = Data (valid d)) \/
                  exists j, (j < length ds')%nat /\ forall fl, f_acts fs j <> Data fl).
      { induction n as [|n IHn]; intros Hn; [left; intros; lia|].
        destruct IHn as [IHn|IHn]; [lia| |right; auto].
        destruct (f_acts fs n) as [| |fl] eqn:En; [right; exists n; split; [lia|congruence] | right; exists n; split; [lia|congruence] |].
        left. intros j d Hj Hd. destruct (Nat.eq_dec j n) as [->|Hne]; [|apply IHn; auto; lia].
        rewrite En. f_equal. eapply B; eauto. }
      destruct (G (length ds') (le_n _)) as [G1|G1]; [left|right; auto].
      intros j d Hd. apply G1; auto. apply nth_error_Some. congruence. }
    destruct DEC as [DEC|(j & Hj & Hn)].
    + left. eapply load_complete; eauto.
    + right. unfold load_imat. rewrite EI. cbn [read_file h_dmnactu h_nslop]. rewrite !Nat.eqb_refl. cbn [andb negb].
      destruct HS as (L & _ & _). destruct (load_dms_missing ds 0 fs j) as [e He]; [lia|exact Hn|].
      destruct (load_dms 0 ds fs) as [r t]. simpl in He. subst t. eexists; reflexivity.
Qed.

Theorem crash_first_save fit npx wfss npix ds ds' imat nmeas fs0 k :
  Forall (fresh npix) ds -> make_imat fit npx wfss ds = (ds', Ok imat) -> has_columns nmeas imat ->
  only_files_of (all_acts ds) nmeas ds' imat fs0 ->
  let fs := run_steps (firstn k (save_imat_steps (all_acts ds) nmeas ds' imat)) fs0 in
  load_imat (all_acts ds) nmeas ds fs = (ds', Ok imat) \/
  exists e, snd (load_imat (all_acts ds) nmeas ds fs) = Err e.
Proof.
  intros HF E HC HO fs. apply load_only_files; auto.
  - eapply make_imat_same_system; eauto.
  - unfold fs. apply steps_inv; auto. intros st Hst s Hs. eapply save_only; eauto.
Qed.

(** the crash after iMat.fits has been replaced *)
Theorem crash_mixture fit npx wfss1 wfss2 npix ds ds1 M1 ds2 M2 nmeas fs0 :
  Forall (fresh npix) ds ->
  make_imat fit npx wfss1 ds = (ds1, Ok M1) -> make_imat fit npx wfss2 ds = (ds2, Ok M2) ->
  has_columns nmeas M2 -> length M1 = length M2 -> no_shape_files fs0 ->
  let old := run_steps (save_imat_steps (all_acts ds) nmeas ds1 M1) fs0 in
  let crashed := run_steps (firstn 3 (save_imat_steps (all_acts ds) nmeas ds2 M2)) old in
  load_imat (all_acts ds) nmeas ds crashed = (ds1, Ok M2).
Proof.
  intros HF E1 E2 HC HL NS old crashed.
  destruct (save_effect (all_acts ds) nmeas ds1 M1 fs0) as (A & B & C & D).
  apply (load_complete _ _ _ _ M1 M2); auto.
  - eapply make_imat_same_system; eauto.
  - intros i. change (f_shapes old i = Absent). unfold old. rewrite C. apply NS.
Qed.

(** ** Failed loads *)
Section MakeC.
  Variable fit : nat -> vec -> vec.
  Variable npx : nat.
  Variable wfss : list (list vec -> vec).
  Variable pinv : Qc -> mat -> mat.
  Variables (hdr_acts : nat) (total nmeas : nat) (conds : list Qc) (rcond : Qc) (cshape : nat * nat).
  Notation make_cmat := (make_cmat fit npx wfss pinv hdr_acts total nmeas conds rcond cshape).

  (** rejected before any DM was touched *)
  Lemma early_reject loadC s :
    (forall f, f_imat (rc_fs s) = Data f -> ~ (h_dmnactu f = total /\ h_nslop f = nmeas)) ->
    make_cmat true loadC s = make_cmat false loadC s.
  Proof.
    intros H. unfold Persist.make_cmat. assert (E : exists e, load_imat total nmeas (rc_dms s) (rc_fs s) = (rc_dms s, Err e)).
    { unfold load_imat. destruct (f_imat (rc_fs s)) as [| |f] eqn:Ef; cbn [read_file]; try (eexists; reflexivity).
      destruct (Nat.eqb_spec (h_dmnactu f) total) as [E1|E1]; cbn [andb negb]; [|eexists; reflexivity].
      destruct (Nat.eqb_spec (h_nslop f) nmeas) as [E2|E2]; cbn [andb negb]; [|eexists; reflexivity].
      exfalso. apply (H f eq_refl); auto. }
    destruct E as [e ->]. destruct s; reflexivity.
  Qed.

  (** the load of a later DM fails after DM 0 has been filtered: the fall-back calibration raises *)
  Lemma late_reject loadC npix s d0 rest f flags j :
    rc_dms s = d0 :: rest -> fresh npix d0 ->
    f_imat (rc_fs s) = Data f -> h_dmnactu f = total -> h_nslop f = nmeas ->
    f_acts (rc_fs s) 0 = Data flags -> length flags = n_acts d0 -> In false flags -> (2 <= count_true flags)%nat ->
    no_shape_files (rc_fs s) ->
    (j < length rest)%nat -> (forall fl, f_acts (rc_fs s) (S j) <> Data fl) ->
    exists e, snd (make_cmat true loadC s) = Err e.
  Proof.
    intros ED [FS FN] EI E1 E2 EA LF HIn H2 NS Hj HN. unfold Persist.make_cmat, load_imat.
    rewrite EI. cbn [read_file]. rewrite E1, E2, !Nat.eqb_refl. cbn [andb negb]. rewrite ED. cbn [load_dms].
    rewrite EA. cbn [read_file]. rewrite set_valid_ok by congruence. rewrite NS.
    destruct (load_dms_missing rest 1 (rc_fs s) j Hj) as [e He].
    { intros fl. replace (1 + j)%nat with (S j) by lia. apply HN. }
    destruct (load_dms 1 rest (rc_fs s)) as [r t]. simpl in He. subst t. cbn [bind].
    set (d1 := mkDm (n_acts d0) (pick flags (shapes d0)) flags (Some (count_true flags)) (closed d0) (gain d0)).
    unfold calibrate_and_save. cbn [rc_dms]. unfold make_imat.
    destruct (make_imat_from_err fit npx wfss (d1 :: r) (length (d1 :: r)) 0 0 d1 eq_refl) as [e2 He2].
    { exists ValueError. assert (P : length (pick flags (shapes d0)) = count_true flags) by (apply pick_length; congruence).
      pose proof (count_lt _ HIn). pose proof (count_le flags).
      apply raw_imat_mismatch; simpl; rewrite ?P; lia. }
    destruct (make_imat_from fit npx wfss (length (d1 :: r)) 0 (d1 :: r)) as [y z]. simpl in He2. subst z.
    eexists; reflexivity.
  Qed.

  (** the reference run without a stored matrix *)
  Lemma calibrate_succeeds s ds' M : make_imat fit npx wfss (rc_dms s) = (ds', Ok M) ->
    exists s', make_cmat false false s = (s', Ok tt) /\ rc_dms s' = ds' /\ rc_imat s' = Some M /\ rc_cmat s' = pinv rcond M.
  Proof.
    intros E. unfold Persist.make_cmat, calibrate_and_save. rewrite E. eexists. split; [reflexivity|]. auto.
  Qed.

  (** ** Control matrix *)
  Lemma allclose_true a b : length a = length b -> allclose a b = Ok true ->
    forall i x y, nth_error a i = Some x -> nth_error b i = Some y -> cond_agrees x y.
  Proof.
    intros L H. unfold allclose in H. rewrite L, Nat.eqb_refl in H. inversion H as [G]. clear H. revert b L G.
    induction a as [|u a IH]; intros [|v b] L G i x y Hx Hy; try discriminate; destruct i; try discriminate; simpl in *.
    - apply andb_true_iff in G as [G _]. inversion Hx; inversion Hy; subst.
      unfold close in G. cbn [fst snd] in G. unfold qc_leb in G. apply negb_true_iff, qc_ltb_false in G. exact G.
    - apply andb_true_iff in G as [_ G]. apply (IH b) with (i := i); auto.
  Qed.

  Lemma load_cmat_checks fs c : load_cmat conds cshape fs = Ok c ->
    exists f, f_cmat fs = Data f /\ c = cm_data f /\ file_shape c = Ok cshape /\
      (forall cs, h_dmcond f = Some cs -> length cs = length conds ->
         forall i x y, nth_error cs i = Some x -> nth_error conds i = Some y -> cond_agrees x y).
  Proof.
    unfold load_cmat. destruct (f_cmat fs) as [| |f]; cbn [read_file bind]; try discriminate.
    intros H. exists f. split; auto.
    destruct (h_dmcond f) as [cs|] eqn:Ec.
    - destruct (allclose cs conds) as [[]|e] eqn:Ea; cbn [bind negb] in H; try discriminate.
      destruct (file_shape (cm_data f)) as [[a b]|e] eqn:Es; cbn [bind fst snd] in H; try discriminate.
      destruct (Nat.eqb_spec a (fst cshape)); cbn [andb] in H; try discriminate.
      destruct (Nat.eqb_spec b (snd cshape)); cbn [andb] in H; try discriminate.
      inversion H; subst c. split; auto. split; [rewrite Es; destruct cshape; simpl in *; congruence|].
      intros cs' Hcs L. inversion Hcs; subst cs'. intros i x y. apply (allclose_true cs conds L Ea).
    - cbn [bind negb] in H.
      destruct (file_shape (cm_data f)) as [[a b]|e] eqn:Es; cbn [bind fst snd] in H; try discriminate.
      destruct (Nat.eqb_spec a (fst cshape)); cbn [andb] in H; try discriminate.
      destruct (Nat.eqb_spec b (snd cshape)); cbn [andb] in H; try discriminate.
      inversion H; subst c. split; auto. split; [rewrite Es; destruct cshape; simpl in *; congruence|].
      intros cs' Hcs; discriminate.
  Qed.

  (** after makeCMat the control matrix is a checked stored one or computed from the interaction matrix *)
  Lemma make_cmat_outcome loadI loadC s s' : make_cmat loadI loadC s = (s', Ok tt) ->
    exists M, rc_imat s' = Some M /\
      (rc_cmat s' = pinv rcond M \/
       (loadC = true /\ load_cmat conds cshape (rc_fs s') = Ok (rc_cmat s'))).
  Proof.
    unfold Persist.make_cmat.
    set (first := if loadI then _ else _). destruct first as [s1 [[]|e]] eqn:E1; [|discriminate].
    assert (HM : exists M, rc_imat s1 = Some M).
    { unfold first in E1. destruct loadI.
      - destruct (load_imat total nmeas (rc_dms s) (rc_fs s)) as [ds' [M|e]].
        + inversion E1; subst. exists M. reflexivity.
        + unfold calibrate_and_save in E1. destruct (make_imat fit npx wfss _) as [ds2 [M|e2]]; inversion E1; subst. exists M; reflexivity.
      - unfold calibrate_and_save in E1. destruct (make_imat fit npx wfss _) as [ds2 [M|e2]]; inversion E1; subst. exists M; reflexivity. }
    destruct HM as [M HM]. unfold calc_and_save. rewrite HM.
    destruct loadC.
    - destruct (load_cmat conds cshape (rc_fs s1)) as [c|e] eqn:EC; intros H; inversion H; subst s'; cbn.
      + exists M. split; auto.
      + exists M. auto.
    - intros H; inversion H; subst s'; cbn. exists M. auto.
  Qed.

  (** a file without one of the header keys is used whatever the conditioning *)
  Lemma unknown_header_used fs M n m : f_cmat fs = Data (mkCmatFile None M) -> file_shape M = Ok (n, m) ->
    load_cmat conds (n, m) fs = Ok M.
  Proof.
    intros E S. unfold load_cmat. rewrite E. cbn [read_file bind h_dmcond negb cm_data]. rewrite S. cbn [bind fst snd].
    rewrite !Nat.eqb_refl. reflexivity.
  Qed.

  Lemma close_refl x : close x x = true.
  Proof.
    unfold close, qc_leb. apply negb_true_iff, qc_ltb_false. replace (x - x)%Qc with 0%Qc by ring.
    assert (A : (0 <= qc_abs x)%Qc) by apply qc_abs_nonneg.
    replace (qc_abs 0) with 0%Qc by reflexivity.
    assert (P1 : (0 <= qfrac 1 100000000)%Qc) by (apply Qclt_le_weak; reflexivity).
    assert (P2 : (0 <= qfrac 1 100000)%Qc) by (apply Qclt_le_weak; reflexivity).
    set (u := qfrac 1 100000000) in *. set (v := qfrac 1 100000) in *. clearbody u v. qcnra.
  Qed.
  Lemma allclose_refl a : allclose a a = Ok true.
  Proof.
    unfold allclose. rewrite Nat.eqb_refl. f_equal. induction a; simpl; auto. rewrite close_refl. exact IHa.
  Qed.
End MakeC.

(** A stored control matrix is reused although the reconstructor's conditioning changed. *)
Lemma stale_conditioning fit npx wfss pinv hdr total nmeas conds rcond1 rcond2 cshape s s1 s2 M1 :
  make_cmat fit npx wfss pinv hdr total nmeas conds rcond1 cshape false false s = (s1, Ok tt) ->
  rc_imat s1 = Some M1 -> file_shape (pinv rcond1 M1) = Ok cshape ->
  forall loadI sys2, rc_fs sys2 = rc_fs s1 ->
  make_cmat fit npx wfss pinv hdr total nmeas conds rcond2 cshape loadI true sys2 = (s2, Ok tt) ->
  rc_cmat s2 = pinv rcond1 M1.
Proof.
  intros E HM HS loadI sys2 HFS E2.
  assert (HC : f_cmat (rc_fs s1) = Data (mkCmatFile (Some conds) (pinv rcond1 M1))).
  { unfold make_cmat, calibrate_and_save, calc_and_save in E.
    destruct (make_imat fit npx wfss (rc_dms s)) as [ds' [M|e]]; inversion E; subst s1. cbn in HM. inversion HM; subst. reflexivity. }
  assert (LC : forall fs, f_cmat fs = f_cmat (rc_fs s1) -> load_cmat conds cshape fs = Ok (pinv rcond1 M1)).
  { intros fs Hfs. unfold load_cmat. rewrite Hfs, HC. cbn [read_file bind h_dmcond cm_data]. rewrite allclose_refl. cbn [bind negb].
    rewrite HS. cbn [bind]. rewrite !Nat.eqb_refl. reflexivity. }
  unfold make_cmat in E2.
  set (first := if loadI then _ else _) in E2. destruct first as [s3 [[]|e]] eqn:E1; [|discriminate].
  assert (HF3 : f_cmat (rc_fs s3) = f_cmat (rc_fs s1)).
  { unfold first in E1. rewrite <- HFS.
    assert (CS : forall q, calibrate_and_save fit npx wfss hdr nmeas q = (s3, Ok tt) -> f_cmat (rc_fs s3) = f_cmat (rc_fs q)).
    { intros q Hq. unfold calibrate_and_save in Hq. destruct (make_imat fit npx wfss (rc_dms q)) as [ds2 [M|e2]]; inversion Hq; subst s3.
      cbn [rc_fs]. apply (save_effect hdr nmeas ds2 M (rc_fs q)). }
    destruct loadI.
    - destruct (load_imat total nmeas (rc_dms sys2) (rc_fs sys2)) as [ds' [M|e]].
      + inversion E1; subst. reflexivity.
      + apply CS in E1. exact E1.
    - apply CS in E1. exact E1. }
  rewrite (LC _ HF3) in E2. inversion E2; subst. reflexivity.
Qed.

(** After actuators have been rejected the stored control matrix never has the expected shape. *)
Lemma dropped_cmat_rejected conds nmeas all n fs f :
  f_cmat fs = Data f -> file_shape (cm_data f) = Ok (nmeas, n) -> (n < all)%nat ->
  exists e, load_cmat conds (nmeas, all) fs = Err e.
Proof.
  intros E S H. unfold load_cmat. rewrite E. cbn [read_file bind].
  destruct (match h_dmcond f with Some c => allclose c conds | None => Ok true end) as [[]|e]; cbn [bind negb]; try (eexists; reflexivity).
  rewrite S. cbn [bind fst snd]. rewrite Nat.eqb_refl. destruct (Nat.eqb_spec n all); [lia|]. eexists; reflexivity.
Qed.

Lemma valid_le npix : forall ds ds', Forall (fresh npix) ds -> length ds' = length ds ->
  (forall j d d', nth_error ds j = Some d -> nth_error ds' j = Some d' -> filtered d d') ->
  (total_acts (nvalids ds') <= all_acts ds)%nat.
Proof.
  unfold all_acts. induction ds as [|d ds IH]; intros [|d1 ds'] HF L H; try discriminate; auto.
  cbn [nvalids map]. rewrite total_acts_cons. fold (nvalids ds'). cbn [fold_left]. rewrite fold_add_shift.
  inversion HF as [|? ? [_ HN] HF']; subst. destruct (H 0%nat d d1 eq_refl eq_refl) as [F1 F2].
  assert (En : n_valid d1 = Some (count_true (valid d1))) by (rewrite F2 at 1; reflexivity). rewrite En.
  pose proof (count_le (valid d1)). simpl in L.
  assert (total_acts (nvalids ds') <= fold_left Nat.add (map n_acts ds) 0)%nat.
  { apply IH; auto. intros j a b A B. apply (H (S j)); auto. }
  lia.
Qed.

(** In the same session, once an actuator was rejected: totalActs is now the number of valid actuators,
    so the load is rejected, and calibrating again raises (C15). *)
Lemma same_session_raises fit npx wfss pinv npix ds ds' imat nmeas conds rcond cshape cm fs i d' loadC im0 :
  Forall (fresh npix) ds -> make_imat fit npx wfss ds = (ds', Ok imat) ->
  nth_error ds' i = Some d' -> some_dropped d' -> (2 <= length (shapes d'))%nat ->
  (forall f, f_imat fs = Data f -> h_dmnactu f = all_acts ds) ->
  exists e, snd (make_cmat fit npx wfss pinv (all_acts ds) (total_acts (nvalids ds')) nmeas conds rcond cshape true loadC
                    (mkRecon ds' im0 cm fs)) = Err e.
Proof.
  intros HF E Hi Hd H2 HH.
  destruct (make_imat_same_system _ _ _ _ _ _ _ HF E) as (L & LI & HFil).
  assert (LT : (total_acts (nvalids ds') < all_acts ds)%nat).
  { unfold all_acts. clear E HH LI. revert ds' i L Hi HFil. induction ds as [|d ds IH]; intros [|d1 ds'] i L Hi HFil; try discriminate.
    { destruct i; discriminate. }
    cbn [nvalids map]. rewrite total_acts_cons. fold (nvalids ds'). cbn [fold_left]. rewrite fold_add_shift.
    inversion HF as [|? ? [_ HN] HF']; subst.
    destruct (HFil 0%nat d d1 eq_refl eq_refl) as [F1 F2].
    assert (En : n_valid d1 = Some (count_true (valid d1))) by (rewrite F2 at 1; reflexivity).
    rewrite En. pose proof (count_le (valid d1)) as CLE.
    assert (LE : (total_acts (nvalids ds') <= all_acts ds)%nat).
    { apply (valid_le npix); auto. intros j a b A B. apply (HFil (S j)); auto. }
    unfold all_acts in LE.
    destruct i as [|i]; simpl in Hi.
    - inversion Hi; subst d1. pose proof (count_lt _ Hd). lia.
    - specialize (IH HF' ds' i). simpl in L.
      assert (total_acts (nvalids ds') < fold_left Nat.add (map n_acts ds) 0)%nat.
      { apply IH; auto. intros j a b A B. apply (HFil (S j)); auto. }
      lia. }
  rewrite early_reject.
  2: { cbn [rc_fs]. intros f Ef [A _]. rewrite (HH f Ef) in A. lia. }
  destruct (recalibrate_dropped_any _ _ _ _ _ _ _ _ _ HF E Hi Hd H2) as [e He].
  unfold make_cmat, calibrate_and_save. cbn [rc_dms].
  destruct (make_imat fit npx wfss ds') as [y z]. simpl in He. subst z. eexists; reflexivity.
Qed.

(** A stale control matrix survives a recalibration. *)
Lemma stale_cmat_after_recalibration fit npx wfss pinv hdr total nmeas conds rcond cshape s ds' M f :
  (forall g, f_imat (rc_fs s) = Data g -> ~ (h_dmnactu g = total /\ h_nslop g = nmeas)) ->
  make_imat fit npx wfss (rc_dms s) = (ds', Ok M) ->
  f_cmat (rc_fs s) = Data f -> h_dmcond f = Some conds -> file_shape (cm_data f) = Ok cshape ->
  exists s', make_cmat fit npx wfss pinv hdr total nmeas conds rcond cshape true true s = (s', Ok tt) /\
    rc_imat s' = Some M /\ rc_cmat s' = cm_data f.
Proof.
  intros HI E EC Hc HS. rewrite early_reject by exact HI.
  unfold make_cmat, calibrate_and_save. rewrite E.
  assert (LC : load_cmat conds cshape (run_steps (save_imat_steps hdr nmeas ds' M) (rc_fs s)) = Ok (cm_data f)).
  { unfold load_cmat. destruct (save_effect hdr nmeas ds' M (rc_fs s)) as (_ & _ & _ & ->). rewrite EC. cbn [read_file bind].
    rewrite Hc, allclose_refl. cbn [bind negb]. rewrite HS. cbn [bind]. rewrite !Nat.eqb_refl. reflexivity. }
  cbn [rc_fs]. rewrite LC. eexists. split; [reflexivity|]. auto.
Qed.

(** Round trip through two sessions. *)
Lemma session_roundtrip fit npx wfss pinv npix nmeas conds rcond cshape loadC1 s s1 M :
  Forall (fresh npix) (rc_dms s) -> no_shape_files (rc_fs s) ->
  make_cmat fit npx wfss pinv (all_acts (rc_dms s)) (all_acts (rc_dms s)) nmeas conds rcond cshape false loadC1 s = (s1, Ok tt) ->
  rc_imat s1 = Some M -> has_columns nmeas M ->
  forall wfss2 loadC2 im0 cm0, exists s2,
    make_cmat fit npx wfss2 pinv (all_acts (rc_dms s)) (all_acts (rc_dms s)) nmeas conds rcond cshape true loadC2
      (mkRecon (rc_dms s) im0 cm0 (rc_fs s1)) = (s2, Ok tt) /\
    rc_dms s2 = rc_dms s1 /\ rc_imat s2 = Some M.
Proof.
  intros HF NS E HM HC wfss2 loadC2 im0 cm0.
  assert (G : exists ds', make_imat fit npx wfss (rc_dms s) = (ds', Ok M) /\ rc_dms s1 = ds' /\
    f_imat (rc_fs s1) = f_imat (run_steps (save_imat_steps (all_acts (rc_dms s)) nmeas ds' M) (rc_fs s)) /\
    f_acts (rc_fs s1) = f_acts (run_steps (save_imat_steps (all_acts (rc_dms s)) nmeas ds' M) (rc_fs s)) /\
    f_shapes (rc_fs s1) = f_shapes (run_steps (save_imat_steps (all_acts (rc_dms s)) nmeas ds' M) (rc_fs s))).
  { unfold make_cmat, calibrate_and_save in E.
    destruct (make_imat fit npx wfss (rc_dms s)) as [ds' [M'|e]]; [|discriminate]. exists ds'. cbn [rc_fs] in E.
    destruct loadC1.
    - destruct (load_cmat conds cshape _); inversion E; subst s1; cbn in HM; inversion HM; subst; auto.
    - inversion E; subst s1; cbn in HM; inversion HM; subst; auto. }
  destruct G as (ds' & E1 & E2 & F1 & F2 & F3).
  destruct (save_effect (all_acts (rc_dms s)) nmeas ds' M (rc_fs s)) as (A & B & C & _).
  assert (L : load_imat (all_acts (rc_dms s)) nmeas (rc_dms s) (rc_fs s1) = (ds', Ok M)).
  { apply (load_complete _ _ _ _ M M); auto.
    - eapply make_imat_same_system; eauto.
    - rewrite F1. exact A.
    - intros j d Hj. rewrite F2. apply B; auto.
    - intros i. rewrite F3, C. apply NS. }
  unfold make_cmat. cbn [rc_dms rc_fs]. rewrite L. cbn [rc_fs]. unfold calc_and_save. cbn [rc_imat].
  destruct loadC2; [destruct (load_cmat conds cshape (rc_fs s1))|]; eexists; (split; [reflexivity|]); cbn; auto.
Qed.

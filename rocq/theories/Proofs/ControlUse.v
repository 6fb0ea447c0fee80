(** Which reconstructors can be used at all; reloading a LearnAndApply calibration. *)
From Verif.Base Require Import Vec.
From Verif.Model Require Import Recon Control Persist.
From Verif.Spec Require Import ReconSpec ControlSpec.
From Verif.Proofs Require Import ReconProofs ControlProofs ControlTomo.

Lemma bcast_length n v b : bcast n v = Ok b -> length b = n.
Proof.
  unfold bcast. destruct (Nat.eqb_spec (length v) n) as [E|E].
  - intros H. injection H as <-. exact E.
  - destruct v as [|x [|y r]]; try discriminate. intros H. injection H as <-. apply repeat_length.
Qed.

Lemma splice_length (v b : vec) o n : length b = length (firstn n (skipn o v)) -> length (splice v o b) = length v.
Proof.
  intros H. unfold splice. rewrite !app_length, firstn_length, skipn_length.
  rewrite firstn_length, skipn_length in H. lia.
Qed.

Lemma tt_return_length ws xs ys : forall l i sl r, tt_return ws i l xs ys sl = Ok r -> length r = length sl.
Proof.
  induction l as [|w l IH]; intros i sl r E; cbn [tt_return] in E; [injection E as <-; reflexivity|].
  destruct (get_wfs ws w) as [x|e]; cbn [bind] in E; [|discriminate].
  destruct (attr (s_active (snd x))) as [n|e]; cbn [bind] in E; [|discriminate].
  destruct (bcast _ _) as [bx|e] eqn:E1; cbn [bind] in E; [|discriminate].
  destruct (bcast _ (firstn n (skipn (i * n) ys))) as [by_|e] eqn:E2; cbn [bind] in E; [|discriminate].
  apply bcast_length in E1. apply bcast_length in E2. apply IH in E. rewrite E.
  rewrite (splice_length _ _ _ n E2). apply (splice_length _ _ _ n E1).
Qed.
Lemma remove_tt_length ws sl l r : remove_common_tt ws sl l = Ok r -> length r = length sl.
Proof.
  unfold remove_common_tt. destruct (tt_collect _ _ _ _ _ _) as [xy|e]; cbn [bind]; [|discriminate]. apply tt_return_length.
Qed.

Section Never.
  Variable pinvT : Qc -> mat -> result mat.
  Variable rcond : Qc.
  Variables (ws : list sensor) (ms : list mirror) (net : vec -> vec).

  Lemma use_first cl imat learn1 learn2 m l :
    (forall c, calibrate pinvT rcond ws ms cl imat learn1 learn2 = Ok c ->
       exists e, frame_of ws ms net cl (total_valid ms) c None m = Err e) ->
    exists e, use pinvT rcond ws ms net cl imat learn1 learn2 (m :: l) = Err e.
  Proof.
    intros H. unfold use. destruct (calibrate _ _ _ _ _ _ _ _) as [c|e]; cbn [bind]; [|eauto].
    destruct (H c eq_refl) as [e E]. cbn [frames_of]. rewrite E. cbn [bind]. eauto.
  Qed.

  Lemma glao_never imat learn1 learn2 m l :
    exists e, use pinvT rcond ws ms net GLAO_4LGS imat learn1 learn2 (m :: l) = Err e.
  Proof.
    apply use_first. intros c _. cbn [frame_of].
    destruct (get_wfs ws 2) as [w2|e]; cbn [bind]; [|eauto].
    destruct (attr _) as [n|e]; cbn [bind]; [|eauto].
    destruct (_ =? _)%nat; [|eauto]. destruct (remove_common_tt _ _ _) as [o|e]; cbn [bind]; [|eauto].
    destruct (get_wfs ws 1) as [w1|e]; cbn [bind]; eauto.
  Qed.

  Lemma tomography_length rc C a b e T : tomography pinvT rc C a b e = Ok T -> (length T <= b - a)%nat.
  Proof.
    unfold tomography. destruct (pinvT rc _) as [P|x]; cbn [bind]; [|discriminate]. intros H. injection H as <-.
    rewrite !map_length, firstn_length. lia.
  Qed.

  Lemma ltao_never imat learn1 learn2 m l : Forall sensor_ok ws ->
    exists e, use pinvT rcond ws ms net LearnAndApplyLTAO imat learn1 learn2 (m :: l) = Err e.
  Proof.
    intros HO. apply use_first. intros c E. cbn [calibrate] in E. cbn [frame_of].
    destruct (la_imat ws imat) as [M|e]; cbn [bind] in E; [|discriminate].
    destruct (learn ws learn1) as [X|e]; cbn [bind] in E; [|discriminate].
    destruct (cov _ X) as [C|e]; cbn [bind] in E; [|discriminate].
    destruct (get_wfs ws 1) as [[o1 s1]|e] eqn:E1; cbn [bind] in E |- *; [|discriminate].
    destruct (get_wfs ws 2) as [[o2 s2]|e] eqn:E2; cbn [bind fst] in E |- *; [|discriminate].
    destruct (tomography _ _ _ _ _ _) as [T|e] eqn:ET; cbn [bind] in E; [|discriminate].
    destruct (separate _ _ _ M) as [P|e]; cbn [bind] in E; [|discriminate]. injection E as <-.
    cbn [k_cols k_ctrl k_tomo]. apply tomography_length in ET.
    unfold dot_chk at 1. destruct (_ =? _)%nat; cbn [bind]; [|eauto].
    pose proof (start_S ws 1 s1 o1 s2 o2 E1 E2) as Es. pose proof (start_lt ws HO 2 s2 o2 E2) as Hl.
    unfold dot_chk. match goal with |- context [(?a =? ?b)%nat] => replace (a =? b)%nat with false end; [cbn; eauto|].
    symmetry. apply Nat.eqb_neq. unfold vshift. rewrite app_length, firstn_length, map_length.
    unfold mvm. rewrite map_length. unfold total_w. unfold mat, vec in *. lia.
  Qed.

  Lemma lgstt_never imat learn1 learn2 m l : Forall sensor_ok ws -> length m = total_data ws ->
    exists e, use pinvT rcond ws ms net LgsTT imat learn1 learn2 (m :: l) = Err e.
  Proof.
    intros HO Hm. apply use_first. intros c E. cbn [calibrate] in E. cbn [frame_of].
    destruct (la_imat ws imat) as [M|e]; cbn [bind] in E; [|discriminate].
    destruct (learn ws learn1) as [X|e]; cbn [bind] in E; [|discriminate].
    destruct (get_wfs ws 1) as [[o1 s1]|e] eqn:E1; cbn [bind snd] in E |- *; [|discriminate].
    destruct (attr (s_active s1)) as [n1|e]; cbn [bind] in E; [|discriminate].
    match type of E with context [mapM ?f X] => destruct (mapM f X) as [Y|e] end; cbn [bind] in E; [|discriminate].
    destruct (cov _ Y) as [C|e]; cbn [bind] in E; [|discriminate].
    destruct (tomography _ _ _ _ _ _) as [T|e] eqn:ET; cbn [bind] in E; [|discriminate].
    destruct (on_axis ws) as [n|e] eqn:EA; cbn [bind] in E; [|discriminate].
    destruct (la_calc _ _ _ _ _) as [x|e]; cbn [bind] in E; [|discriminate]. injection E as <-.
    cbn [k_cols k_ctrl k_tomo].
    destruct (get_wfs ws 2) as [[o2 s2]|e] eqn:E2; cbn [bind fst] in |- *; [|eauto].
    destruct (remove_common_tt _ _ _) as [off|e] eqn:EO; cbn [bind]; [|eauto].
    apply remove_tt_length in EO. rewrite skipn_length, Hm in EO.
    unfold on_axis in EA. destruct (get_wfs ws 0) as [[o0 s0]|e] eqn:E0; cbn [bind snd] in EA; [|discriminate].
    destruct (s_subaps s0) as [h|] eqn:Es; cbn [attr bind] in EA; [|discriminate]. injection EA as <-.
    assert (H0 : sensor_ok s0 /\ sensor_ok s1).
    { rewrite Forall_forall in HO. split; apply HO.
      - apply get_wfs_inv in E0 as [E0 _]. eapply nth_error_In; eauto.
      - apply get_wfs_inv in E1 as [E1 _]. eapply nth_error_In; eauto. }
    destruct H0 as [(_ & HS & _) (HP1 & _)]. specialize (HS h Es).
    pose proof (start_S ws 0 s0 o0 s1 o1 E0 E1). pose proof (start_S ws 1 s1 o1 s2 o2 E1 E2).
    pose proof (start_lt ws HO 2 s2 o2 E2).
    assert (O0 : o0 = 0%nat).
    { apply get_wfs_inv in E0 as [A0 B0]. destruct ws; [discriminate|]. cbn in B0. congruence. }
    unfold dot_chk. match goal with |- context [(?a =? ?b)%nat] => replace (a =? b)%nat with false end; [cbn; eauto|].
    symmetry. apply Nat.eqb_neq. unfold total_w. lia.
  Qed.

  Lemma ann_never imat learn1 learn2 l : ms <> [] ->
    exists e, use pinvT rcond ws ms net ANN imat learn1 learn2 l = Err e.
  Proof.
    intros H. unfold use. cbn [calibrate]. destruct (get_wfs ws 0) as [w|e]; cbn [bind]; [|eauto].
    destruct (attr _) as [n|e]; cbn [bind]; [|eauto]. destruct ms; [congruence|]. cbn. eauto.
  Qed.

  Lemma woofer_never imat learn1 learn2 l : length ms <> 1%nat ->
    exists e, use pinvT rcond ws ms net WooferTweeter imat learn1 learn2 l = Err e.
  Proof.
    intros H. unfold use. cbn [calibrate]. destruct ms as [|a [|b r]]; cbn in *; eauto; lia.
  Qed.
End Never.

(** ** The reconstructors that can be used *)
Lemma mvm_usable pinvT rcond ws ms net imat learn1 learn2 : inverts pinvT -> Forall has_valid (map m_dm ms) ->
  shaped (total_valid ms) (total_data ws) imat -> forall l, Forall (fun v : vec => length v = total_data ws) l ->
  exists outs, use pinvT rcond ws ms net MVM imat learn1 learn2 l = Ok outs /\ length outs = length l.
Proof.
  intros HP HV HS l HF. unfold use. cbn [calibrate]. destruct (HP rcond _ _ _ HS) as (P & -> & [LP _]). cbn [bind].
  apply (frames_ok ms net ws MVM (mkCalib (total_w ws) P [])); auto.
Qed.

Lemma la_tt_frame ws ms d0 r n acts T Q s m : ms = d0 :: r -> m_tt d0 = true -> first_sh ws n -> length T = n ->
  length m = total_data ws -> exists a, la_reconstruct ws ms acts T Q s m = Ok (a, s).
Proof.
  intros -> Ett Hn LT Hm. unfold la_reconstruct. rewrite (on_axis_sh ws n Hn). cbn [bind].
  unfold dot_chk. rewrite skipn_length, Hm. unfold total_w. rewrite Nat.eqb_refl. cbn [bind]. rewrite Ett.
  assert (LO : length (mvm T (skipn n m)) = n) by (unfold mvm; rewrite map_length; exact LT).
  rewrite LO, Nat.eqb_refl. eauto.
Qed.

Lemma la_usable pinvT rcond ws ms net imat learn1 learn2 n : inverts pinvT -> ms <> [] -> Forall has_valid (map m_dm ms) ->
  first_sh ws n -> Forall (fun s => s_meas s = n) ws ->
  Forall (fun fr : list vec => length fr = length ws /\ Forall (fun f : vec => length f = n) fr) learn1 ->
  (2 <= length learn1)%nat ->
  shaped (total_valid ms) (total_data ws) imat -> forall l, Forall (fun v : vec => length v = total_data ws) l ->
  exists outs, use pinvT rcond ws ms net LearnAndApply imat learn1 learn2 l = Ok outs /\ length outs = length l.
Proof.
  intros HP Hms HV Hn HW HFr H2 [LI FI] l HF. unfold use. cbn [calibrate]. unfold la_imat, la_calc.
  rewrite (on_axis_sh ws n Hn). cbn [bind]. rewrite (learn_equal n ws learn1 HW HFr). cbn [bind].
  unfold cov at 1. rewrite map_length.
  match goal with |- context [(@length ?A ?x <=? 1)%nat] => replace (@length A x <=? 1)%nat with false by (symmetry; apply Nat.leb_gt; exact H2) end. cbn [bind].
  set (C := map _ _). assert (HC : shaped (total_data ws) (total_data ws) C).
  { unfold C, total_w. split; [rewrite map_length, seq_length; reflexivity|]. apply Forall_map, Forall_forall.
    intros x _. rewrite map_length, seq_length. reflexivity. }
  destruct HC as [LC FC]. clearbody C.
  assert (Hle : (n <= total_data ws)%nat).
  { rewrite (total_equal n ws HW). destruct Hn as (s & r & h & -> & _). cbn [length]. lia. }
  unfold tomography. rewrite Nat.sub_0_r. cbn [skipn].
  assert (HB : shaped (total_data ws - n) (total_data ws - n) (map (skipn n) (skipn n C))).
  { split; [rewrite map_length, skipn_length; unfold mat, vec in *; lia|]. apply Forall_map, Forall_forall. intros x Hx.
    rewrite Forall_forall in FC. rewrite skipn_length, (FC x); [reflexivity|]. rewrite <- (firstn_skipn n C). apply in_or_app; auto. }
  destruct (HP cov_rcond _ _ _ HB) as (P & EP & _).
  match goal with |- context[pinvT cov_rcond ?M] => replace (pinvT cov_rcond M) with (@Ok mat P) by (symmetry; exact EP) end. cbn [bind].
  assert (HS : shaped (total_valid ms) n (map (firstn n) imat)).
  { split; [rewrite map_length; exact LI|]. apply Forall_map. eapply Forall_impl; [|exact FI]. intros x Lx. cbn beta in *.
    rewrite firstn_length. lia. }
  destruct (HP rcond _ _ _ HS) as (Q & -> & [LQ _]). cbn [bind fst snd].
  match goal with |- context [mkCalib n Q ?t] => set (T := t) end.
  assert (LT : length T = n) by (unfold T; rewrite !map_length, firstn_length; unfold mat, vec in *; lia). clearbody T.
  destruct ms as [|d0 r] eqn:Ems; [congruence|]. rewrite <- Ems in *. destruct (m_tt d0) eqn:Ett.
  - generalize (@None vec) as s. induction l as [|m l IH]; intros s; [exists []; auto|].
    apply Forall_cons_iff in HF as [Hm HF]. cbn [frames_of frame_of k_tomo k_ctrl].
    destruct (la_tt_frame ws ms d0 r n (total_valid ms) T Q s m Ems Ett Hn LT Hm) as [a ->]. cbn [bind fst snd].
    destruct (IH HF s) as (outs & E & LO). rewrite E. cbn [bind]. eexists. split; [reflexivity|]. cbn. congruence.
  - rewrite (la_frames ws ms net n _ Q T d0 r Hn Ems Ett l None HF).
    destruct (frames_ok ms net ws MVM (mkCalib n Q []) (or_introl eq_refl) HV LQ (map (fun m => mvm T (skipn n m)) l) None I) as (outs & E & LO).
    + apply Forall_map, Forall_forall. intros x _. unfold mvm. rewrite map_length. exact LT.
    + exists outs. split; [exact E|]. rewrite LO, map_length. reflexivity.
Qed.

(** ** Reloading *)
Lemma save_acts_other ds : forall i fs, f_imat (run_steps (save_acts_steps i ds) fs) = f_imat fs.
Proof.
  induction ds as [|d ds IH]; intros i fs; [reflexivity|]. cbn [save_acts_steps].
  unfold run_steps in *. rewrite fold_left_app, IH. reflexivity.
Qed.
Lemma saved_imat a b ds M fs : f_imat (run_steps (save_imat_steps a b ds M) fs) = Data (mkImatFile a b M).
Proof.
  unfold save_imat_steps, run_steps. rewrite fold_left_app. fold (run_steps (save_acts_steps 0 ds)).
  etransitivity; [apply (save_acts_other ds 0)|]. reflexivity.
Qed.

Lemma load_short total nmeas a b ds M fs ds' : Forall (fun r => (length r < nmeas)%nat) M ->
  exists e, snd (load_imat total nmeas ds' (run_steps (save_imat_steps a b ds M) fs)) = Err e.
Proof.
  intros HM. unfold load_imat. rewrite saved_imat. cbn [read_file h_dmnactu h_nslop im_data].
  destruct (negb _); [cbn; eauto|]. destruct (load_dms _ _ _) as [ds2 [k|e]]; cbn [snd]; [|eauto].
  destruct M as [|r M]; [cbn; eauto|]. apply Forall_cons_iff in HM as [Hr _].
  destruct r as [|x r]; [cbn; eauto|]. cbn [file_shape bind fst snd].
  replace (length (x :: r) =? nmeas)%nat with false by (symmetry; apply Nat.eqb_neq; lia).
  rewrite Bool.andb_false_r. eauto.
Qed.

Lemma load_cmat_short conds conds' cs M fs : (length M < fst cs)%nat ->
  exists e, load_cmat conds cs (run_steps (write_steps put_cmat (mkCmatFile conds' M)) fs) = Err e.
Proof.
  intros HM. unfold load_cmat. cbn [run_steps fold_left write_steps put_cmat f_cmat read_file bind h_dmcond cm_data].
  destruct (match conds' with Some c => _ | None => _ end) as [[]|e]; cbn [bind negb]; eauto.
  destruct (file_shape M) as [sh|e] eqn:ES; cbn [bind]; [|eauto].
  assert (fst sh = length M). { destruct M as [|[|x r] M]; try discriminate. cbn in ES. injection ES as <-. reflexivity. }
  replace (fst sh =? fst cs)%nat with false by (symmetry; apply Nat.eqb_neq; lia). cbn. eauto.
Qed.

(** ** The laws of the usable reconstructors *)
Lemma frames_mvm_sep ws ms net acts c : forall l s,
  frames_of ws ms net MVM acts c s l = frames_of ws ms net MVM_SeparateDMs acts c s l.
Proof.
  induction l as [|m l IH]; intros s; [reflexivity|]. cbn [frames_of frame_of].
  destruct (let* a := _ in Ok (a, Some a)) as [x|e]; cbn [bind]; [|reflexivity]. rewrite IH. reflexivity.
Qed.

Lemma frames_law ws ms net c l outs : Forall has_valid (map m_dm ms) -> length (k_ctrl c) = total_valid ms ->
  Forall (fun v : vec => length v = k_cols c) l ->
  frames_of ws ms net MVM_SeparateDMs (total_valid ms) c None l = Ok outs ->
  forall k m n a i x, nth_error ms k = Some m -> n_valid (m_dm m) = Some n ->
    nth_error (dm_offsets 0 (nvalids (map m_dm ms))) k = Some a -> nth_error outs i = Some x ->
    segment a n x = (if closed (m_dm m) then integrator n (gain (m_dm m)) else exp_filter n (gain (m_dm m)))
                      (map (fun v => segment a n (mvm (k_ctrl c) v)) (firstn (S i) l)).
Proof.
  intros HV HC HF E k m n a i x Hk Hn Ha Hx.
  pose proof (frames_run _ _ _ _ _ _ _ _ E i x Hx) as R.
  assert (HS : slopes_ok (k_cols c) (map RFrame (firstn (S i) l))).
  { unfold slopes_ok. apply Forall_map. apply Forall_forall. intros v Hv. rewrite Forall_forall in HF. apply HF.
    rewrite <- (firstn_skipn (S i) l). apply in_or_app. auto. }
  destruct (gain_law (map m_dm ms) (k_cols c) (total_valid ms) (k_ctrl c) HV HC eq_refl _ _ HS R) as [Lx G].
  assert (Hd : nth_error (map m_dm ms) k = Some (m_dm m)) by (rewrite nth_error_map, Hk; reflexivity).
  specialize (G k (m_dm m) a Hd Ha). cbv zeta in G. rewrite since_reset_frames in G. cbn [app] in G.
  assert (Env : nv (m_dm m) = n) by (unfold nv; rewrite Hn; reflexivity). rewrite Env in G.
  assert (Hle : (a + n <= total_valid ms)%nat).
  { assert (Hq : nth_error (nvalids (map m_dm ms)) k = Some n) by (unfold nvalids; rewrite nth_error_map, Hd; cbn; rewrite Hn; reflexivity).
    rewrite (dm_offsets_nth _ 0 k _ Hq), Nat.add_0_l in Ha. injection Ha as <-. apply (fold_prefix_le _ _ _ Hq). }
  rewrite seg_pyslice in G by lia. change (segment a n x) with (seg a n x). rewrite G.
  assert (EM : map (fun v => pyslice (mvm (k_ctrl c) v) (Z.of_nat a) (Z.of_nat a + Z.of_nat n)) (firstn (S i) l)
             = map (fun v => segment a n (mvm (k_ctrl c) v)) (firstn (S i) l)).
  { apply map_ext. intros v. rewrite (seg_pyslice a n (mvm (k_ctrl c) v)); [reflexivity|]. rewrite mvm_length. unfold mat, vec in *. rewrite HC. exact Hle. }
  rewrite EM. destruct (closed (m_dm m)); reflexivity.
Qed.

Lemma separate_commands pinvT rc ws ms net imat learn1 learn2 : inverts pinvT ->
  shaped (total_n_acts ms) (total_data ws) imat -> Forall (attached ws) ms -> Forall all_kept ms ->
  forall l : list vec, Forall (fun v : vec => length v = total_data ws) l ->
  exists outs, use pinvT rc ws ms net MVM_SeparateDMs imat learn1 learn2 l = Ok outs /\ length outs = length l /\
    forall k m w s o a, nth_error ms k = Some m -> m_wfs m = Some w -> nth_error ws w = Some s ->
      nth_error (data_starts ws) w = Some o ->
      nth_error (dm_offsets 0 (map (fun m => n_acts (m_dm m)) ms)) k = Some a ->
      exists P, pinvT (m_cond m) (submatrix a (n_acts (m_dm m)) o (s_meas s) imat) = Ok P /\
        forall i c, nth_error outs i = Some c ->
          segment a (n_acts (m_dm m)) c
          = (if closed (m_dm m) then integrator (n_acts (m_dm m)) (gain (m_dm m)) else exp_filter (n_acts (m_dm m)) (gain (m_dm m)))
              (map (fun v => mvm P (segment o (s_meas s) v)) (firstn (S i) l)).
Proof.
  intros HP HI HA HK l HF.
  destruct (separate_law pinvT ws ms imat HP HI HA) as (ctrl & Ec & Lc & HLaw).
  unfold use. cbn [calibrate]. rewrite Ec. cbn [bind].
  set (c := mkCalib (total_w ws) ctrl []).
  assert (HT : total_valid ms = total_n_acts ms) by (unfold total_valid; rewrite kept_nvalids by auto; reflexivity).
  assert (HV := kept_has_valid ms HK).
  destruct (frames_ok ms net ws MVM_SeparateDMs c ltac:(auto) HV (eq_trans Lc (eq_sym HT)) l None I HF) as (outs & Eo & Lo).
  exists outs. split; [exact Eo|]. split; [exact Lo|].
  intros k m w s o a Hk Hw Hs Ho Ha.
  destruct (HLaw k m w s o a (vzero (total_data ws)) Hk Hw Hs Ho Ha (vzero_length _)) as (P & EP & _).
  exists P. split; [exact EP|]. intros i x Hx.
  assert (Hm : all_kept m) by (rewrite Forall_forall in HK; apply HK; eapply nth_error_In; eauto).
  assert (Ha' : nth_error (dm_offsets 0 (nvalids (map m_dm ms))) k = Some a) by (rewrite kept_nvalids by auto; exact Ha).
  rewrite (frames_law ws ms net c l outs HV (eq_trans Lc (eq_sym HT)) HF Eo k m _ a i x Hk Hm Ha' Hx).
  assert (EM : map (fun v => segment a (n_acts (m_dm m)) (mvm (k_ctrl c) v)) (firstn (S i) l)
             = map (fun v => mvm P (segment o (s_meas s) v)) (firstn (S i) l)).
  { apply map_ext_in. intros v Hv.
    assert (Lv : length v = total_data ws).
    { rewrite Forall_forall in HF. apply HF. rewrite <- (firstn_skipn (S i) l). apply in_or_app; auto. }
    destruct (HLaw k m w s o a v Hk Hw Hs Ho Ha Lv) as (P' & EP' & Ev). assert (P = P') by congruence. subst P'. exact Ev. }
  rewrite EM. reflexivity.
Qed.

Lemma la_commands pinvT rcond ws ms net imat learn1 learn2 n T Pc d0 r outs : inverts pinvT -> first_sh ws n ->
  ms = d0 :: r -> m_tt d0 = false -> Forall has_valid (map m_dm ms) -> shaped (total_valid ms) (total_data ws) imat ->
  la_calc pinvT rcond ws (map (firstn n) imat) learn1 = Ok (T, Pc) ->
  forall l : list vec, Forall (fun v : vec => length v = total_data ws) l ->
  use pinvT rcond ws ms net LearnAndApply imat learn1 learn2 l = Ok outs ->
  forall k m nk a i x, nth_error ms k = Some m -> n_valid (m_dm m) = Some nk ->
    nth_error (dm_offsets 0 (nvalids (map m_dm ms))) k = Some a -> nth_error outs i = Some x ->
    segment a nk x = (if closed (m_dm m) then integrator nk (gain (m_dm m)) else exp_filter nk (gain (m_dm m)))
                       (map (fun v => segment a nk (mvm Pc (mvm T (skipn n v)))) (firstn (S i) l)).
Proof.
  intros HP Hn Ems Htt HV [LI FI] EL l HF E k m nk a i x Hk Hnk Ha Hx.
  unfold use in E. cbn [calibrate] in E. unfold la_imat in E. rewrite (on_axis_sh ws n Hn) in E. cbn [bind] in E.
  rewrite EL in E. cbn [bind fst snd] in E.
  destruct (la_calc_inv _ _ _ _ _ _ _ _ Hn EL) as (X & C & P & EX & EC & EP & EPc & ET).
  assert (Hle : (n <= total_data ws)%nat).
  { destruct Hn as (s' & r' & h & -> & _ & _ & Hm). unfold total_data. cbn [map]. rewrite total_acts_cons. lia. }
  assert (HS : shaped (total_valid ms) n (map (firstn n) imat)).
  { split; [rewrite map_length; exact LI|]. apply Forall_map. eapply Forall_impl; [|exact FI]. intros y Ly. cbn beta in *.
    rewrite firstn_length. lia. }
  destruct (HP rcond _ _ _ HS) as (P' & EP' & [LP' FP']). rewrite EPc in EP'. injection EP' as <-.
  rewrite (la_frames ws ms net n _ Pc T d0 r Hn Ems Htt l None HF), frames_mvm_sep in E.
  assert (LT : length T = n).
  { rewrite ET, !map_length, firstn_length. pose proof (cov_shape _ _ _ EC) as [LC _]. unfold mat, vec in *. lia. }
  pose proof (frames_law ws ms net (mkCalib n Pc []) (map (fun m => mvm T (skipn n m)) l) outs HV LP') as G.
  rewrite (G) with (k := k) (m := m) (n := nk) (a := a) (i := i) (x := x); auto.
  - rewrite firstn_map, map_map. reflexivity.
  - apply Forall_map, Forall_forall. intros y _. unfold mvm. rewrite map_length. exact LT.
Qed.

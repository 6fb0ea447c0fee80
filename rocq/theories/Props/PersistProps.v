(** Property theorems C18-C21, C67, C68: stored calibrations. *)
From Verif.Base Require Import Vec.
From Verif.Model Require Import Recon Persist.
From Verif.Spec Require Import ReconSpec PersistSpec.
From Verif.Proofs Require Import ReconProofs PersistProofs.
From Verif.Props Require Import ReconProps.

Definition no_files : fsys := mkFs Absent (fun _ => Absent) (fun _ => Absent) Absent.
Definition imat_of (r : list dm * result mat) : mat := match snd r with Ok M => M | Err _ => [] end.

(** C18: a new simulation with the same DMs that loads what was saved gets the same matrix and the same
    DMs (valid actuators, influence functions, counts), whatever was in the directory before. *)
Theorem C18_save_load_roundtrip :
  forall (fit : nat -> vec -> vec) (npx : nat) (wfss : list (list vec -> vec)) (npix : nat) (ds ds' : list dm) (imat : mat)
         (nmeas : nat) (before : fsys),
    Forall (fresh npix) ds -> make_imat fit npx wfss ds = (ds', Ok imat) -> has_columns nmeas imat -> no_shape_files before ->
    load_imat (all_acts ds) nmeas ds (run_steps (save_imat_steps (all_acts ds) nmeas ds' imat) before) = (ds', Ok imat).
Proof. exact save_load_roundtrip. Qed.
Print Assumptions C18_save_load_roundtrip.

(** C18, through makeCMat: a session that calibrates, then a new session (with the same DMs, whatever its
    sensors now measure) that loads, have the same DMs and interaction matrix. *)
Theorem C18_two_sessions :
  forall (fit : nat -> vec -> vec) (npx : nat) (wfss : list (list vec -> vec)) (pinv : Qc -> mat -> mat) (npix nmeas : nat)
         (conds : list Qc) (rcond : Qc) (cshape : nat * nat) (loadC1 : bool) (s s1 : recon) (M : mat),
    Forall (fresh npix) (rc_dms s) -> no_shape_files (rc_fs s) ->
    make_cmat fit npx wfss pinv (all_acts (rc_dms s)) (all_acts (rc_dms s)) nmeas conds rcond cshape false loadC1 s = (s1, Ok tt) ->
    rc_imat s1 = Some M -> has_columns nmeas M ->
    forall (wfss2 : list (list vec -> vec)) (loadC2 : bool) (im0 : option mat) (cm0 : mat), exists s2,
      make_cmat fit npx wfss2 pinv (all_acts (rc_dms s)) (all_acts (rc_dms s)) nmeas conds rcond cshape true loadC2
        (mkRecon (rc_dms s) im0 cm0 (rc_fs s1)) = (s2, Ok tt) /\
      rc_dms s2 = rc_dms s1 /\ rc_imat s2 = Some M.
Proof. exact session_roundtrip. Qed.
Print Assumptions C18_two_sessions.

Example C18_instance :
  Forall (fresh 3) ex_dms /\ has_columns 3 (imat_of ex_cal) /\ map valid (fst ex_cal) = [[true; false; true]; [true; true]] /\
  all_acts ex_dms = 5%nat /\ length (imat_of ex_cal) = 4%nat.
Proof.
  split; [repeat constructor|]. split; [|repeat split; vm_compute; reflexivity].
  split; [vm_compute; discriminate|]. split; [lia|]. vm_compute. repeat constructor.
Qed.

(** C19, the part that holds: when the matrix file is unreadable or its header does not fit, asking for
    the stored matrix is the same as not asking for it. *)
Theorem C19_rejected_load_partial :
  forall (fit : nat -> vec -> vec) (npx : nat) (wfss : list (list vec -> vec)) (pinv : Qc -> mat -> mat)
         (hdr_acts total nmeas : nat) (conds : list Qc) (rcond : Qc) (cshape : nat * nat) (loadC : bool) (s : recon),
    (forall f, f_imat (rc_fs s) = Data f -> ~ (h_dmnactu f = total /\ h_nslop f = nmeas)) ->
    make_cmat fit npx wfss pinv hdr_acts total nmeas conds rcond cshape true loadC s
    = make_cmat fit npx wfss pinv hdr_acts total nmeas conds rcond cshape false loadC s.
Proof. exact early_reject. Qed.
Print Assumptions C19_rejected_load_partial.

(** C19 is FALSE of the code: if the valid actuators of the first DM can be read (at least one rejected,
    two kept) and those of a later DM cannot, the fall-back calibration raises... *)
Theorem C19_rejected_load_refuted :
  forall (fit : nat -> vec -> vec) (npx : nat) (wfss : list (list vec -> vec)) (pinv : Qc -> mat -> mat)
         (hdr_acts total nmeas : nat) (conds : list Qc) (rcond : Qc) (cshape : nat * nat) (loadC : bool) (npix : nat)
         (s : recon) (d0 : dm) (rest : list dm) (f : imat_file) (flags : list bool) (j : nat),
    rc_dms s = d0 :: rest -> fresh npix d0 ->
    f_imat (rc_fs s) = Data f -> h_dmnactu f = total -> h_nslop f = nmeas ->
    f_acts (rc_fs s) 0 = Data flags -> length flags = n_acts d0 -> In false flags -> (2 <= count_true flags)%nat ->
    no_shape_files (rc_fs s) ->
    (j < length rest)%nat -> (forall fl, f_acts (rc_fs s) (S j) <> Data fl) ->
    exists e, snd (make_cmat fit npx wfss pinv hdr_acts total nmeas conds rcond cshape true loadC s) = Err e.
Proof. exact late_reject. Qed.
Print Assumptions C19_rejected_load_refuted.

(** ... although without the stored files the calibration succeeds. *)
Theorem C19_without_load :
  forall (fit : nat -> vec -> vec) (npx : nat) (wfss : list (list vec -> vec)) (pinv : Qc -> mat -> mat)
         (hdr_acts total nmeas : nat) (conds : list Qc) (rcond : Qc) (cshape : nat * nat) (s : recon) (ds' : list dm) (M : mat),
    make_imat fit npx wfss (rc_dms s) = (ds', Ok M) ->
    exists s', make_cmat fit npx wfss pinv hdr_acts total nmeas conds rcond cshape false false s = (s', Ok tt) /\
      rc_dms s' = ds' /\ rc_imat s' = Some M /\ rc_cmat s' = pinv rcond M.
Proof. exact calibrate_succeeds. Qed.
Print Assumptions C19_without_load.

(** The crash in C20 after the first two files of [ex_dms] is such a case. *)
Definition ex_crashed : fsys := run_steps (firstn 6 (save_imat_steps 5 3 (fst ex_cal) (imat_of ex_cal))) no_files.
Example C19_instance :
  f_acts ex_crashed 0 = Data [true; false; true] /\ f_acts ex_crashed 1 = Absent /\
  snd (make_cmat ex_fit 3 ex_wfss (fun _ M => M) 5 5 3 [] 0%Qc (3, 5)%nat true false (mkRecon ex_dms None [] ex_crashed)) = Err ValueError /\
  snd (make_cmat ex_fit 3 ex_wfss (fun _ M => M) 5 5 3 [] 0%Qc (3, 5)%nat false false (mkRecon ex_dms None [] ex_crashed)) = Ok tt.
Proof. repeat split; vm_compute; reflexivity. Qed.

(** C20, the part that holds: if the readable files in the directory before the save are none, or those
    of the same calibration, then after a crash at any point the load is refused or is exact. *)
Theorem C20_crash_safe_partial :
  forall (fit : nat -> vec -> vec) (npx : nat) (wfss : list (list vec -> vec)) (npix : nat) (ds ds' : list dm) (imat : mat)
         (nmeas : nat) (before : fsys) (crash : nat),
    Forall (fresh npix) ds -> make_imat fit npx wfss ds = (ds', Ok imat) -> has_columns nmeas imat ->
    only_files_of (all_acts ds) nmeas ds' imat before ->
    let after := run_steps (firstn crash (save_imat_steps (all_acts ds) nmeas ds' imat)) before in
    load_imat (all_acts ds) nmeas ds after = (ds', Ok imat) \/
    exists e, snd (load_imat (all_acts ds) nmeas ds after) = Err e.
Proof. exact crash_first_save. Qed.
Print Assumptions C20_crash_safe_partial.

(** C20 is FALSE of the code: with the files of an older calibration of the same system that kept the same
    number of actuators, a crash after the matrix file has been replaced gives the new matrix with the old
    valid actuators. *)
Theorem C20_crash_safe_refuted :
  forall (fit : nat -> vec -> vec) (npx : nat) (wfss_old wfss_new : list (list vec -> vec)) (npix : nat)
         (ds ds_old : list dm) (M_old : mat) (ds_new : list dm) (M_new : mat) (nmeas : nat) (before : fsys),
    Forall (fresh npix) ds ->
    make_imat fit npx wfss_old ds = (ds_old, Ok M_old) -> make_imat fit npx wfss_new ds = (ds_new, Ok M_new) ->
    has_columns nmeas M_new -> length M_old = length M_new -> no_shape_files before ->
    let old := run_steps (save_imat_steps (all_acts ds) nmeas ds_old M_old) before in
    let crashed := run_steps (firstn 3 (save_imat_steps (all_acts ds) nmeas ds_new M_new)) old in
    load_imat (all_acts ds) nmeas ds crashed = (ds_old, Ok M_new).
Proof. exact crash_mixture. Qed.
Print Assumptions C20_crash_safe_refuted.

Definition ex_pix : list dm :=
  [ new_dm [[qz 1; qz 0; qz 0]; [qz 0; qz 1; qz 0]; [qz 0; qz 0; qz 1]] true (qfrac 1 2) ].
Example C20_instance :
  let old := make_imat ex_fit 3 [(fun ph => firstn 2 (ex_sum ph))] ex_pix in
  let new := make_imat ex_fit 3 [(fun ph => skipn 1 (ex_sum ph))] ex_pix in
  map valid (fst old) = [[true; true; false]] /\ map valid (fst new) = [[false; true; true]] /\
  length (imat_of old) = length (imat_of new) /\ has_columns 2 (imat_of new) /\
  only_files_of 3 2 (fst new) (imat_of new) no_files.
Proof.
  split; [vm_compute; reflexivity|]. split; [vm_compute; reflexivity|]. split; [vm_compute; reflexivity|]. split.
  - split; [vm_compute; discriminate|]. split; [lia|]. vm_compute. repeat constructor.
  - split; [intros f Hf; discriminate Hf|]. split; [intros i d fl _ Hf; discriminate Hf|]. intros i; reflexivity.
Qed.

(** C21, the part that holds: after makeCMat the control matrix is the pseudo-inverse of the interaction
    matrix in use, or was read from a file with the expected shape whose recorded conditioning of each DM,
    if there is such a record, agrees with the current one. *)
Theorem C21_load_checks_partial :
  forall (fit : nat -> vec -> vec) (npx : nat) (wfss : list (list vec -> vec)) (pinv : Qc -> mat -> mat)
         (hdr_acts total nmeas : nat) (conds : list Qc) (rcond : Qc) (cshape : nat * nat) (loadI loadC : bool) (s s' : recon),
    make_cmat fit npx wfss pinv hdr_acts total nmeas conds rcond cshape loadI loadC s = (s', Ok tt) ->
    (exists M, rc_imat s' = Some M /\ rc_cmat s' = pinv rcond M) \/
    (loadC = true /\ file_shape (rc_cmat s') = Ok cshape /\
     exists f, f_cmat (rc_fs s') = Data f /\ rc_cmat s' = cm_data f /\
       forall cs, h_dmcond f = Some cs -> length cs = length conds ->
       forall i x y, nth_error cs i = Some x -> nth_error conds i = Some y -> cond_agrees x y).
Proof.
  intros fit npx wfss pinv hdr total nmeas conds rcond cshape loadI loadC s s' H.
  destruct (make_cmat_outcome _ _ _ _ _ _ _ _ _ _ _ _ _ _ H) as (M & HM & [HC|[HL HC]]).
  - left. exists M. auto.
  - right. split; auto. destruct (load_cmat_checks _ _ _ _ HC) as (f & A & B & C & D).
    split; [rewrite B in C |- *; exact C|]. exists f. auto.
Qed.
Print Assumptions C21_load_checks_partial.

(** C21 is FALSE of the code: the conditioning that decides the control matrix (the reconstructor's) is not
    recorded; a stored matrix made with another value is used. *)
Theorem C21_conditioning_refuted :
  forall (fit : nat -> vec -> vec) (npx : nat) (wfss : list (list vec -> vec)) (pinv : Qc -> mat -> mat)
         (hdr_acts total nmeas : nat) (conds : list Qc) (rcond_old rcond_new : Qc) (cshape : nat * nat) (s s1 s2 : recon) (M : mat),
    make_cmat fit npx wfss pinv hdr_acts total nmeas conds rcond_old cshape false false s = (s1, Ok tt) ->
    rc_imat s1 = Some M -> file_shape (pinv rcond_old M) = Ok cshape ->
    forall (loadI : bool) (later : recon), rc_fs later = rc_fs s1 ->
    make_cmat fit npx wfss pinv hdr_acts total nmeas conds rcond_new cshape loadI true later = (s2, Ok tt) ->
    rc_cmat s2 = pinv rcond_old M.
Proof. exact stale_conditioning. Qed.
Print Assumptions C21_conditioning_refuted.

(** C21: likewise a file without the header record is used whatever the conditioning. *)
Theorem C21_missing_header_refuted :
  forall (conds : list Qc) (fs : fsys) (M : mat) (n m : nat),
    f_cmat fs = Data (mkCmatFile None M) -> file_shape M = Ok (n, m) -> load_cmat conds (n, m) fs = Ok M.
Proof. exact unknown_header_used. Qed.
Print Assumptions C21_missing_header_refuted.

(** C21: the stored matrix of a system with rejected actuators is never used: the expected shape counts
    all actuators. *)
Theorem C21_dropped_never_reused :
  forall (conds : list Qc) (nmeas all n : nat) (fs : fsys) (f : cmat_file),
    f_cmat fs = Data f -> file_shape (cm_data f) = Ok (nmeas, n) -> (n < all)%nat ->
    exists e, load_cmat conds (nmeas, all) fs = Err e.
Proof. exact dropped_cmat_rejected. Qed.
Print Assumptions C21_dropped_never_reused.

(** "pseudo-inverse" of the instance: transpose scaled by the conditioning *)
Definition ex_inv (r : Qc) (M : mat) : mat := map (fun j => map (fun row => (r * nth j row 0)%Qc) M) (seq 0 2).
Definition ex_one : list dm := [ new_dm [[qz 1; qz 0; qz 0]; [qz 0; qz 1; qz 0]] true (qfrac 1 2) ].
Definition ex_see : list (list vec -> vec) := [(fun ph => firstn 2 (ex_sum ph))].
Definition ex_run r lI lC s := make_cmat ex_fit 3 ex_see ex_inv 2 2 2 [qfrac 1 20] r (2, 2)%nat lI lC s.
Definition ex_s1 := fst (ex_run (qz 1) false false (mkRecon ex_one None [] no_files)).
Example C21_instance :
  snd (ex_run (qz 1) false false (mkRecon ex_one None [] no_files)) = Ok tt /\
  rc_cmat ex_s1 = [[qz (-1); qz 0]; [qz 0; qz (-1)]] /\
  snd (ex_run (qz 2) true true (mkRecon ex_one None [] (rc_fs ex_s1))) = Ok tt /\
  rc_cmat (fst (ex_run (qz 2) true true (mkRecon ex_one None [] (rc_fs ex_s1)))) = [[qz (-1); qz 0]; [qz 0; qz (-1)]] /\
  rc_cmat (fst (ex_run (qz 2) true false (mkRecon ex_one None [] (rc_fs ex_s1)))) = [[qz (-2); qz 0]; [qz 0; qz (-2)]].
Proof. qc_compute; repeat constructor. Qed.

(** C67 is FALSE of the code: calibrating again in the same session once an actuator has been rejected
    raises even when the stored matrix is asked for: totalActs no longer fits the recorded number. *)
Theorem C67_reload_in_session_refuted :
  forall (fit : nat -> vec -> vec) (npx : nat) (wfss : list (list vec -> vec)) (pinv : Qc -> mat -> mat) (npix : nat)
         (ds ds' : list dm) (imat : mat) (nmeas : nat) (conds : list Qc) (rcond : Qc) (cshape : nat * nat) (cm : mat)
         (fs : fsys) (i : nat) (d' : dm) (loadC : bool) (im : option mat),
    Forall (fresh npix) ds -> make_imat fit npx wfss ds = (ds', Ok imat) ->
    nth_error ds' i = Some d' -> some_dropped d' -> (2 <= length (shapes d'))%nat ->
    (forall f, f_imat fs = Data f -> h_dmnactu f = all_acts ds) ->
    exists e, snd (make_cmat fit npx wfss pinv (all_acts ds) (total_acts (nvalids ds')) nmeas conds rcond cshape true loadC
                     (mkRecon ds' im cm fs)) = Err e.
Proof. exact same_session_raises. Qed.
Print Assumptions C67_reload_in_session_refuted.

Example C67_instance :
  let fs := run_steps (save_imat_steps 5 3 (fst ex_cal) (imat_of ex_cal)) no_files in
  snd (make_cmat ex_fit 3 ex_wfss (fun _ M => M) 5 4 3 [] 0%Qc (3, 5)%nat true false
         (mkRecon (fst ex_cal) (Some (imat_of ex_cal)) [] fs)) = Err ValueError /\
  snd (make_cmat ex_fit 3 ex_wfss (fun _ M => M) 5 5 3 [] 0%Qc (3, 5)%nat true false (mkRecon ex_dms None [] fs)) = Ok tt.
Proof. repeat split; vm_compute; reflexivity. Qed.

(** C68 is FALSE of the code: when the stored interaction matrix is refused and a new one is measured, the
    stored control matrix of the old one is still used if its shape fits. *)
Theorem C68_stale_control_matrix_refuted :
  forall (fit : nat -> vec -> vec) (npx : nat) (wfss : list (list vec -> vec)) (pinv : Qc -> mat -> mat)
         (hdr_acts total nmeas : nat) (conds : list Qc) (rcond : Qc) (cshape : nat * nat) (s : recon) (ds' : list dm) (M : mat)
         (f : cmat_file),
    (forall g, f_imat (rc_fs s) = Data g -> ~ (h_dmnactu g = total /\ h_nslop g = nmeas)) ->
    make_imat fit npx wfss (rc_dms s) = (ds', Ok M) ->
    f_cmat (rc_fs s) = Data f -> h_dmcond f = Some conds -> file_shape (cm_data f) = Ok cshape ->
    exists s', make_cmat fit npx wfss pinv hdr_acts total nmeas conds rcond cshape true true s = (s', Ok tt) /\
      rc_imat s' = Some M /\ rc_cmat s' = cm_data f.
Proof. exact stale_cmat_after_recalibration. Qed.
Print Assumptions C68_stale_control_matrix_refuted.

(** C68, the part that holds: without asking for stored control matrices, the control matrix belongs to
    the interaction matrix in use. *)
Theorem C68_fresh_control_matrix_partial :
  forall (fit : nat -> vec -> vec) (npx : nat) (wfss : list (list vec -> vec)) (pinv : Qc -> mat -> mat)
         (hdr_acts total nmeas : nat) (conds : list Qc) (rcond : Qc) (cshape : nat * nat) (loadI : bool) (s s' : recon),
    make_cmat fit npx wfss pinv hdr_acts total nmeas conds rcond cshape loadI false s = (s', Ok tt) ->
    exists M, rc_imat s' = Some M /\ rc_cmat s' = pinv rcond M.
Proof.
  intros fit npx wfss pinv hdr total nmeas conds rcond cshape loadI s s' H.
  destruct (make_cmat_outcome _ _ _ _ _ _ _ _ _ _ _ _ _ _ H) as (M & HM & [HC|[HL HC]]); [exists M; auto|discriminate].
Qed.
Print Assumptions C68_fresh_control_matrix_partial.

Example C68_instance :
  let fs := mkFs Absent (fun _ => Absent) (fun _ => Absent) (Data (mkCmatFile (Some [qfrac 1 20]) [[qz 7; qz 7]; [qz 7; qz 7]])) in
  let s := fst (ex_run (qz 1) true true (mkRecon ex_one None [] fs)) in
  rc_imat s = Some [[qz (-1); qz 0]; [qz 0; qz (-1)]] /\ rc_cmat s = [[qz 7; qz 7]; [qz 7; qz 7]].
Proof. qc_compute; repeat constructor. Qed.

(** C66 is FALSE of the code: the imat_noise setting has no effect on a calibration frame. *)
Theorem C66_imat_noise_refuted :
  forall (A : Type) (b : bool) (c : wfs_conf) (body : wfs_conf -> result A),
    snd (imat_wfs_conf b c body) = body (mkConf false 0 false).
Proof. intros A. exact imat_noise_ignored. Qed.
Print Assumptions C66_imat_noise_refuted.

Example C66_instance :
  snd (imat_wfs_conf true (mkConf true (qz 2) true) (fun c => Ok (photonNoise c))) = Ok false /\
  snd (frame_conf false (mkConf true (qz 2) true) (fun c => Ok (photonNoise c))) = Ok true.
Proof. split; reflexivity. Qed.

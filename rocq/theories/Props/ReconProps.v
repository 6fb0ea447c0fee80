(** Property theorems C11-C17, C22: calibration, reconstruction, gain law. *)
From Verif.Base Require Import Vec.
From Verif.Model Require Import Recon.
From Verif.Spec Require Import ReconSpec.
From Verif.Proofs Require Import ReconProofs.

(** A system used in the instances: DM 0 has three actuators of which the second does nothing, DM 1 has
    two; two WFSs of 2 and 1 measurements looking at the sum of the DM shapes. *)
Definition ex_dms : list dm :=
  [ new_dm [[qz 2; qz 0; qz 1]; [qz 0; qz 0; qz 0]; [qz 0; qz 3; qz 1]] true (qfrac 1 2);
    new_dm [[qz 1; qz 1; qz 0]; [qz 0; qz 1; qz 1]] false (qfrac 1 4) ].
Definition ex_sum (ph : list vec) : vec := fold_right vadd (vzero 3) ph.
Definition ex_wfss : list (list vec -> vec) :=
  [ (fun ph => firstn 2 (ex_sum ph)); (fun ph => [lsum (ex_sum ph)]) ].
Definition ex_fit (k : nat) (v : vec) : vec := if (length v =? 3)%nat then v else vzero 3.
Definition ex_cal := make_imat ex_fit 3 ex_wfss ex_dms.

(** C11: after any history of frames and resets, the commands of each DM are its own integrator (closed)
    or exponential filter (open) applied to its own part of the reconstructed vectors since the last
    reset. *)
Theorem C11_gain_law :
  forall (ds : list dm) (nmeas total : nat) (ctrl : mat) (ops : list recon_op) (a : vec) (i : nat) (d : dm) (n o : nat),
    Forall has_valid ds -> length ctrl = total -> total = total_acts (nvalids ds) -> slopes_ok nmeas ops ->
    recon_run ds nmeas total ctrl None ops = Ok (Some a) ->
    nth_error ds i = Some d -> n_valid d = Some n -> nth_error (dm_offsets 0 (nvalids ds)) i = Some o ->
    pyslice a (Z.of_nat o) (Z.of_nat o + Z.of_nat n)
    = (if closed d then integrator n (gain d) else exp_filter n (gain d))
        (map (fun m => pyslice (mvm ctrl m) (Z.of_nat o) (Z.of_nat o + Z.of_nat n)) (since_reset [] ops)).
Proof. exact gain_law_closed. Qed.
Print Assumptions C11_gain_law.

(** C11: and such a history never raises. *)
Theorem C11_never_raises :
  forall (ds : list dm) (nmeas total : nat) (ctrl : mat),
    Forall has_valid ds -> length ctrl = total -> total = total_acts (nvalids ds) ->
    forall ops, slopes_ok nmeas ops -> exists s, recon_run ds nmeas total ctrl None ops = Ok s.
Proof. exact gain_law_runs. Qed.
Print Assumptions C11_never_raises.

Example C11_instance :
  let ds := fst ex_cal in
  let ctrl := [[qz 1; qz 0; qz 0]; [qz 0; qz 1; qz 0]; [qz 0; qz 0; qz 1]; [qz 1; qz 1; qz 1]] in
  total_acts (nvalids ds) = 4%nat /\
  recon_run ds 3 4 ctrl None [RFrame [qz 7; qz 7; qz 7]; RReset; RFrame [qz 1; qz 2; qz 4]; RFrame [qz 1; qz 0; qz 4]]
  = Ok (Some [qz 1; qz 1; qfrac 7 4; qfrac 41 16]).
Proof. qc_compute; repeat constructor. Qed.

(** C12: the slices are contiguous, start at 0 and end at the total... *)
Theorem C12_contiguous :
  forall ns : list nat,
    (forall o, nth_error (dm_offsets 0 ns) 0 = Some o -> o = 0%nat) /\
    (forall i o n, nth_error (dm_offsets 0 ns) i = Some o -> nth_error ns i = Some n ->
       nth_error (dm_offsets 0 ns) (S i) = Some (o + n)%nat \/ (S i = length ns /\ (o + n)%nat = total_acts ns)).
Proof. exact split_contiguous. Qed.
Print Assumptions C12_contiguous.

(** ... every element of the command vector belongs to exactly one DM... *)
Theorem C12_disjoint_and_covering :
  forall (ns : list nat) (x : nat), (x < total_acts ns)%nat ->
    exists! i, exists o n, nth_error (dm_offsets 0 ns) i = Some o /\ nth_error ns i = Some n /\ (o <= x < o + n)%nat.
Proof. exact split_covers. Qed.
Print Assumptions C12_disjoint_and_covering.

(** ... the simulation hands the concatenation of per-DM commands back to the DMs piece by piece... *)
Theorem C12_simulation_split :
  forall (fit : nat -> vec -> vec) (ds : list dm) (cs fs : list vec),
    length cs = length ds -> length fs = length ds ->
    (forall i d c f, nth_error ds i = Some d -> nth_error cs i = Some c -> nth_error fs i = Some f ->
       n_valid d = Some (length c) /\ dm_frame fit i d c = Ok f) ->
    run_dms fit ds (concat cs) = Ok fs.
Proof. exact run_dms_split. Qed.
Print Assumptions C12_simulation_split.

(** ... and the reconstructor treats the same pieces DM by DM. *)
Theorem C12_reconstructor_split :
  forall (ds : list dm) (az ns : list vec),
    length az = length ds -> length ns = length ds ->
    (forall i d a n, nth_error ds i = Some d -> nth_error az i = Some a -> nth_error ns i = Some n ->
       n_valid d = Some (length a) /\ length n = length a) ->
    apply_gain ds (concat az) (concat ns)
    = Ok (concat (map (fun p => control_law (fst p) (fst (snd p)) (snd (snd p))) (combine ds (combine az ns)))).
Proof. exact apply_gain_concat. Qed.
Print Assumptions C12_reconstructor_split.

Example C12_instance :
  nvalids (fst ex_cal) = [2; 2]%nat /\ dm_offsets 0 (nvalids (fst ex_cal)) = [0; 2]%nat /\
  run_dms ex_fit (fst ex_cal) (concat [[qz 1; qz 2]; [qz 3; qz 4]])
  = Ok [[qz 2; qz 6; qz 3]; [qz 3; qz 7; qz 4]].
Proof. qc_compute; repeat constructor. Qed.

(** C13: row x of the interaction matrix is minus the response of all WFSs to the DM shapes that the
    simulation produces for the command vector with a 1 in element x, after the redundant actuators
    have been removed. *)
Theorem C13_rows_match_commands :
  forall (fit : nat -> vec -> vec) (npx : nat) (wfss : list (list vec -> vec)),
    (forall k n, fit k (vzero n) = vzero npx) ->
    forall (npix : nat) (ds ds' : list dm) (imat : mat),
    Forall (fresh npix) ds ->
    make_imat fit npx wfss ds = (ds', Ok imat) ->
    Forall (fun d => exists n, n_valid d = Some (S n)) ds' ->
    length imat = total_acts (nvalids ds') /\
    forall x row, nth_error imat x = Some row ->
      exists frames, run_dms fit ds' (unit_vec (length imat) x) = Ok frames /\
        length frames = length ds /\ row = concat (map (fun w => vneg (w frames)) wfss).
Proof. exact calibration_matches_operation. Qed.
Print Assumptions C13_rows_match_commands.

Example C13_instance :
  Forall (fresh 3) ex_dms /\ (forall k n, ex_fit k (vzero n) = vzero 3) /\
  snd ex_cal = Ok [[qz (-2); qz 0; qz (-3)]; [qz 0; qz (-3); qz (-4)]; [qz (-1); qz (-1); qz (-2)]; [qz 0; qz (-1); qz (-2)]] /\
  map n_valid (fst ex_cal) = [Some 2; Some 2]%nat /\ map valid (fst ex_cal) = [[true; false; true]; [true; true]].
Proof.
  split; [repeat constructor|]. split; [|qc_compute].
  intros k n. unfold ex_fit. destruct (length (vzero n) =? 3)%nat eqn:E; auto.
  apply Nat.eqb_eq in E. rewrite vzero_length in E. subst. reflexivity.
Qed.

(** C14: an actuator is kept exactly when some WFS measurement responds to it with more than 1/1000 of
    the largest response of the DM; rows and influence functions keep their order; the count agrees. *)
Theorem C14_threshold :
  forall (fit : nat -> vec -> vec) (npx : nat) (wfss : list (list vec -> vec)) (ndm k : nat) (d : dm) (npix : nat) (d' : dm) (M : mat),
    fresh npix d -> make_dm_imat fit npx wfss ndm k d = (d', Ok M) ->
    exists raw,
      raw_imat fit npx wfss ndm k d = Ok raw /\ length (valid d') = n_acts d /\ length raw = n_acts d /\
      (forall i r, nth_error raw i = Some r ->
         exists b, nth_error (valid d') i = Some b /\ (b = true <-> responds raw r)) /\
      M = pick (valid d') raw /\ shapes d' = pick (valid d') (shapes d) /\
      n_valid d' = Some (length M) /\ length (shapes d') = length M.
Proof. exact threshold_spec. Qed.
Print Assumptions C14_threshold.

(** C14: a DM no WFS can see keeps no actuator. *)
Theorem C14_unseen_dm :
  forall (fit : nat -> vec -> vec) (npx : nat) (wfss : list (list vec -> vec)) (ndm k : nat) (d : dm) (npix : nat) (d' : dm) (M : mat),
    dm_shaped d npix -> n_acts d = length (shapes d) -> make_dm_imat fit npx wfss ndm k d = (d', Ok M) ->
    (forall raw, raw_imat fit npx wfss ndm k d = Ok raw -> forall r x, In r raw -> In x r -> x = 0%Qc) ->
    M = [] /\ n_valid d' = Some 0%nat.
Proof. exact unseen_keeps_none. Qed.
Print Assumptions C14_unseen_dm.

(** responses 1000, 1 (exactly the threshold: rejected), 1.5 (kept), 0 *)
Example C14_instance :
  let d := new_dm [[qz 1000]; [qz 1]; [qfrac 3 2]; [qz 0]] true 1 in
  let w : list vec -> vec := fun ph => fold_right vadd (vzero 1) ph in
  valid (fst (make_dm_imat (fun _ v => v) 1 [w] 1 0 d)) = [true; false; true; false] /\
  snd (make_dm_imat (fun _ v => v) 1 [fun _ => [0%Qc]] 1 0 d) = Ok [].
Proof. qc_compute; repeat constructor. Qed.

(** C15 is FALSE of the code: after an actuator has been rejected (and at least two kept), calibrating
    again raises, because the DM still counts the rejected actuators in n_acts. *)
Theorem C15_recalibration_refuted :
  forall (fit : nat -> vec -> vec) (npx : nat) (wfss : list (list vec -> vec)) (npix : nat) (ds ds' : list dm) (imat : mat) (i : nat) (d' : dm),
    Forall (fresh npix) ds -> make_imat fit npx wfss ds = (ds', Ok imat) ->
    nth_error ds' i = Some d' -> some_dropped d' -> (2 <= length (shapes d'))%nat ->
    exists e, snd (make_imat fit npx wfss ds') = Err e.
Proof. exact recalibrate_dropped_any. Qed.
Print Assumptions C15_recalibration_refuted.

(** C15, the part that holds: if no actuator was rejected the second calibration gives the same. *)
Theorem C15_recalibration_partial :
  forall (fit : nat -> vec -> vec) (npx : nat) (wfss : list (list vec -> vec)) (npix : nat) (ds ds' : list dm) (imat : mat),
    Forall (fresh npix) ds -> make_imat fit npx wfss ds = (ds', Ok imat) -> Forall none_dropped ds' ->
    make_imat fit npx wfss ds' = (ds', Ok imat).
Proof. exact recalibrate_same. Qed.
Print Assumptions C15_recalibration_partial.

Example C15_instance :
  snd (make_imat ex_fit 3 ex_wfss (fst ex_cal)) = Err ValueError /\
  let ok := make_imat ex_fit 3 ex_wfss (skipn 1 ex_dms) in
  snd ok = Ok [[qz (-1); qz (-1); qz (-2)]; [qz 0; qz (-1); qz (-2)]] /\ Forall none_dropped (fst ok).
Proof. qc_compute; repeat constructor. Qed.

(** C16, the part that holds: if no actuator of this DM or an earlier one was rejected, the sub-matrix
    for (DM q, WFS j) is minus that WFS's response to each actuator of that DM. *)
Theorem C16_sub_matrix_partial :
  forall (fit : nat -> vec -> vec) (npx : nat) (wfss : list (list vec -> vec)) (npix : nat) (ds ds' : list dm) (imat : mat)
         (q : nat) (d : dm) (ns : list nat) (j : nat) (w : list vec -> vec) (n : nat),
    Forall (fresh npix) ds -> make_imat fit npx wfss ds = (ds', Ok imat) -> nth_error ds q = Some d ->
    (forall p d', (p <= q)%nat -> nth_error ds' p = Some d' -> none_dropped d') ->
    (forall ph, map (fun w => length (w ph)) wfss = ns) ->
    nth_error wfss j = Some w -> nth_error ns j = Some n ->
    get_dm_imat ds' imat q (fold_left Nat.add (firstn j ns) 0%nat) n
    = Ok (map (fun s => vneg (w (phase_stack npx (length ds) q (fit q s)))) (shapes d)).
Proof. exact sub_matrix_entries. Qed.
Print Assumptions C16_sub_matrix_partial.

(** C16 is FALSE of the code: once an actuator of the first DM has been rejected, its sub-matrix also
    contains rows of the next DM (if there are any). *)
Theorem C16_sub_matrix_refuted :
  forall (fit : nat -> vec -> vec) (npx : nat) (wfss : list (list vec -> vec)) (npix : nat) (ds ds' : list dm) (imat : mat) (d0 : dm),
    Forall (fresh npix) ds -> make_imat fit npx wfss ds = (ds', Ok imat) -> nth_error ds' 0 = Some d0 ->
    some_dropped d0 -> (length (shapes d0) < length imat)%nat ->
    forall w1 nw, exists M, get_dm_imat ds' imat 0 w1 nw = Ok M /\ (length (shapes d0) < length M)%nat.
Proof. exact sub_matrix_too_big. Qed.
Print Assumptions C16_sub_matrix_refuted.

Example C16_instance :
  let imat := match snd ex_cal with Ok M => M | Err _ => [] end in
  get_dm_imat (fst ex_cal) imat 0 2 1 = Ok [[qz (-3)]; [qz (-4)]; [qz (-2)]] /\
  let ok := make_imat ex_fit 3 ex_wfss (rev ex_dms) in
  get_dm_imat (fst ok) (match snd ok with Ok M => M | Err _ => [] end) 0 2 1 = Ok [[qz (-2)]; [qz (-2)]].
Proof. qc_compute; repeat constructor. Qed.

(** C17, the part that holds: after a calibration that succeeds the settings are those before. *)
Theorem C17_noise_settings_partial :
  forall (A : Type) (imat_noise : bool) (bodies : list (wfs_conf -> result A)) (c c' : wfs_conf) (l : list A),
    imat_confs imat_noise c bodies = (c', Ok l) -> c' = c.
Proof. intros A b bodies. exact (imat_confs_restores b bodies). Qed.
Print Assumptions C17_noise_settings_partial.

(** C17 is FALSE of the code: an exception in the frame leaves the noise and TT removal switched off. *)
Theorem C17_noise_settings_refuted :
  forall (A : Type) (imat_noise : bool) (c : wfs_conf) (e : exn) (body : wfs_conf -> result A),
    body (mkConf false 0 false) = Err e ->
    imat_wfs_conf imat_noise c body = (mkConf false 0 false, Err e).
Proof. intros A b c e body H. unfold imat_wfs_conf, frame_conf. destruct b; rewrite H; reflexivity. Qed.
Print Assumptions C17_noise_settings_refuted.

Example C17_instance :
  let c := mkConf true (qfrac 1 2) true in
  imat_confs false c [(fun x => Ok (photonNoise x)); (fun x => Ok (removeTT x))] = (c, Ok [false; false]).
Proof. qc_compute; repeat constructor. Qed.

(** C22: the commands after a history depend linearly on the slopes. *)
Theorem C22_commands_linear :
  forall (ds : list dm) (nmeas total : nat) (ctrl : mat),
    Forall has_valid ds -> length ctrl = total -> total = total_acts (nvalids ds) ->
    forall (alpha beta : Qc) (o1 o2 o3 : list recon_op),
    combined alpha beta o1 o2 o3 -> slopes_ok nmeas o1 -> slopes_ok nmeas o2 ->
    exists t1 t2 t3,
      recon_run ds nmeas total ctrl None o1 = Ok t1 /\ recon_run ds nmeas total ctrl None o2 = Ok t2 /\
      recon_run ds nmeas total ctrl None o3 = Ok t3 /\
      commands total t3 = vadd (vscale alpha (commands total t1)) (vscale beta (commands total t2)).
Proof. exact linear_from_start. Qed.
Print Assumptions C22_commands_linear.

Example C22_instance :
  combined (qz 2) (qz 3) [RFrame [qz 1; qz 0]; RReset] [RFrame [qz 0; qz 1]; RReset]
    [RFrame (vadd (vscale (qz 2) [qz 1; qz 0]) (vscale (qz 3) [qz 0; qz 1])); RReset] /\
  Forall has_valid (fst ex_cal).
Proof. split; repeat constructor; discriminate. Qed.

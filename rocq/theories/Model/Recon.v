(** Calibration (interaction matrix), reconstruction and gain law.
    Images (DM shapes, phases) are flattened vectors. *)
From Verif.Base Require Import Vec.

(** The part of a DM object used here (soapy/DM.py:77-136, 217-228).
    [shapes]: iMatShapes (for FastPiezo the actuator coordinates play the same role);
    [n_valid]: attribute n_valid_actuators, which does not exist before the setter ran (None). *)
Record dm := mkDm { n_acts : nat; shapes : list vec; valid : list bool; n_valid : option nat;
                    closed : bool; gain : Qc }.

(** soapy/DM.py:120-135  a fresh DM: _valid_actuators = ones (not through the setter). *)
Definition new_dm (sh : list vec) (cl : bool) (g : Qc) : dm :=
  mkDm (length sh) sh (map (fun _ => true) sh) None cl g.

(** Elements of a list at the positions where the flag is set (flags and list of equal length). *)
Definition pick {A} (flags : list bool) (l : list A) : list A :=
  map snd (filter fst (combine flags l)).
Definition count_true (flags : list bool) : nat := length (filter (fun b => b) flags).

(** soapy/DM.py:221-228  setter of valid_actuators: n_valid = sum, iMatShapes = [iMatShapes[i] for
    i in range(len(valid)) if valid[i]] — IndexError if a flagged index is past the end. *)
Definition set_valid (d : dm) (flags : list bool) : dm * result unit :=
  let d1 := mkDm (n_acts d) (shapes d) flags (Some (count_true flags)) (closed d) (gain d) in
  if existsb (fun b => b) (skipn (length (shapes d)) flags) then (d1, Err IndexError)
  else (mkDm (n_acts d) (pick flags (shapes d)) flags (Some (count_true flags)) (closed d) (gain d), Ok tt).

(** sum of command times influence function *)
Definition lincomb (npix : nat) (cmds : vec) (sh : list vec) : vec :=
  fold_right (fun p acc => vadd (vscale (fst p) (snd p)) acc) (vzero npix) (combine cmds sh).

(** soapy/DM.py:199-202  makeDMFrame: (iMatShapes.T*actCoeffs.T).T.sum(0), with numpy's broadcasting
    of a single shape or a single command.  With no shapes left, iMatShapes is numpy.array([]), the
    product is a 1-d array and its sum a scalar, on which dmFrame (line 183) raises IndexError
    (shape[0] of an empty tuple); the model raises here. *)
Definition make_dm_frame (sh : list vec) (cmds : vec) : result vec :=
  match sh with
  | [] => if (length cmds <=? 1)%nat then Err IndexError else Err ValueError
  | s0 :: _ =>
      let npix := length s0 in
      if (length sh =? length cmds)%nat then Ok (lincomb npix cmds sh)
      else if (length sh =? 1)%nat then Ok (lincomb npix cmds (repeat s0 (length cmds)))
      else match cmds with
           | [c] => Ok (lincomb npix (repeat c (length sh)) sh)
           | _ => Err ValueError
           end
  end.

(** unit vector *)
Definition unit_vec (n k : nat) : vec := map (fun i => if (i =? k)%nat then 1%Qc else 0%Qc) (seq 0 n).

(** [map f l] for a function that may raise, in order, stopping at the first exception. *)
Fixpoint mapM {A B} (f : A -> result B) (l : list A) : result (list B) :=
  match l with
  | [] => Ok []
  | x :: r => let* y := f x in let* ys := mapM f r in Ok (y :: ys)
  end.

Section Calib.
  (** [fit d]: piston removal, rotation, crop/pad of DM d's shape to the screen (soapy/DM.py:166-197,
      modelled in Model/DmFrame.v); [npx]: pixels of a screen. *)
  Variable fit : nat -> vec -> vec.
  Variable npx : nat.
  (** one response per WFS: measurements for a stack of DM phases on an iMat frame (soapy/wfs/wfs.py
      frame(None, phase_correction=phase, iMatFrame=True)); noise is off on iMat frames. *)
  Variable wfss : list (list vec -> vec).

  (** soapy/DM.py:148-197  dmFrame *)
  Definition dm_frame (k : nat) (d : dm) (cmds : vec) : result vec :=
    let* f := make_dm_frame (shapes d) cmds in Ok (fit k f).

  (** phase[:] = 0; phase[dm.n_dm] = f  (soapy/reconstruction.py:290-292) *)
  Definition phase_stack (ndm k : nat) (f : vec) : list vec :=
    map (fun i => if (i =? k)%nat then f else vzero npx) (seq 0 ndm).

  (** one row: iMat[i, ...] = -1 * wfs.frame(...) for every WFS (reconstruction.py:294-307) *)
  Definition wfs_row (phases : list vec) : vec := concat (map (fun w => vneg (w phases)) wfss).

  (** soapy/reconstruction.py:278-316  the matrix before checking for redundant actuators *)
  Definition raw_imat (ndm k : nat) (d : dm) : result mat :=
    mapM (fun i => let* f := dm_frame k d (unit_vec (n_acts d) i) in Ok (wfs_row (phase_stack ndm k f)))
         (seq 0 (n_acts d)).

  Definition mat_max_abs (M : mat) : Qc := fold_right (fun r m => qc_max (vmax_abs r) m) 0%Qc M.
  Definition act_threshold (M : mat) : Qc := (mat_max_abs M * qfrac 1 1000)%Qc.

  (** soapy/reconstruction.py:321-329 *)
  Definition valid_flags (M : mat) : list bool := map (fun r => qc_ltb (act_threshold M) (vmax_abs r)) M.

  (** soapy/reconstruction.py:268-345  make_dm_iMat.  abs(iMat).max() of an array without elements
      raises ValueError. *)
  Definition make_dm_imat (ndm k : nat) (d : dm) : dm * result mat :=
    match raw_imat ndm k d with
    | Err e => (d, Err e)
    | Ok M =>
        if existsb (fun r => negb (length r =? 0)%nat) M then
          let flags := valid_flags M in
          match set_valid d flags with
          | (d', Ok _) => (d', Ok (pick flags M))
          | (d', Err e) => (d', Err e)
          end
        else (d, Err ValueError)
    end.

  (** soapy/reconstruction.py:253-265  makeIMat: DM by DM, then all rows below each other. *)
  Fixpoint make_imat_from (ndm k : nat) (ds : list dm) : list dm * result (list mat) :=
    match ds with
    | [] => ([], Ok [])
    | d :: r =>
        match make_dm_imat ndm k d with
        | (d', Err e) => (d' :: r, Err e)
        | (d', Ok M) =>
            let '(r', Ms) := make_imat_from ndm (S k) r in
            (d' :: r', let* x := Ms in Ok (M :: x))
        end
    end.
  Definition make_imat (ds : list dm) : list dm * result mat :=
    let '(ds', Ms) := make_imat_from (length ds) 0 ds in (ds', let* x := Ms in Ok (concat x)).

  (** soapy/simulation.py:350-355  Sim.makeIMat: dmAct1 and totalActs from n_valid_actuators. *)
  Fixpoint dm_offsets (total : nat) (nvs : list nat) : list nat :=
    match nvs with
    | [] => []
    | n :: r => total :: dm_offsets (total + n) r
    end.
  Definition total_acts (nvs : list nat) : nat := fold_left Nat.add nvs 0%nat.

  (** soapy/simulation.py:501-505  the surfaces of all DMs for a command vector
      (runDM(closed=True) and runDM(closed=False) together). *)
  Fixpoint run_dms_from (k : nat) (ds : list dm) (offs : list nat) (cmds : vec) : result (list vec) :=
    match ds, offs with
    | [], _ => Ok []
    | d :: r, o :: offs' =>
        match n_valid d with
        | None => Err AttributeError
        | Some nv =>
            let* f := dm_frame k d (pyslice cmds (Z.of_nat o) (Z.of_nat o + Z.of_nat nv)) in
            let* fs := run_dms_from (S k) r offs' cmds in Ok (f :: fs)
        end
    | _ :: _, [] => Err IndexError
    end.
  Definition nvalids (ds : list dm) : list nat :=
    map (fun d => match n_valid d with Some n => n | None => 0%nat end) ds.
  Definition run_dms (ds : list dm) (cmds : vec) : result (list vec) :=
    run_dms_from 0 ds (dm_offsets 0 (nvalids ds)) cmds.
End Calib.

(** ** Sub-matrix of one DM *)
(** soapy/reconstruction.py:73-76  first_acts, from n_acts at construction. *)
Definition first_acts (ds : list dm) : list nat := dm_offsets 0 (map n_acts ds).
(** soapy/reconstruction.py:348-365  get_dm_imat: rows of DM k, columns of a WFS with [nw] measurements
    whose configured dataStart is [w1]. *)
Definition get_dm_imat (ds : list dm) (imat : mat) (k : nat) (w1 nw : nat) : result mat :=
  match nth_error (first_acts ds) k, nth_error ds k with
  | Some a, Some d =>
      Ok (map (fun r : vec => pyslice r (Z.of_nat w1) (Z.of_nat w1 + Z.of_nat nw))
              (pyslice imat (Z.of_nat a) (Z.of_nat a + Z.of_nat (n_acts d))))
  | _, _ => Err IndexError
  end.

(** ** Gain law *)
(** numpy broadcasting of a 1-d value to length n *)
Definition bcast (n : nat) (v : vec) : result vec :=
  if (length v =? n)%nat then Ok v
  else match v with [x] => Ok (repeat x n) | _ => Err ValueError end.

(** soapy/reconstruction.py:409-428  apply_gain, from actuator index n1 on. *)
Fixpoint apply_gain_from (n1 : nat) (ds : list dm) (a new : vec) : result vec :=
  match ds with
  | [] => Ok a
  | d :: r =>
      match n_valid d with
      | None => Err AttributeError
      | Some nv =>
          let sa := firstn nv (skipn n1 a) in
          let sn := firstn nv (skipn n1 new) in
          let* b := bcast (length sa) sn in
          let sa' := if closed d then vadd sa (vscale (gain d) b)
                     else vadd (vscale (gain d) b) (vscale (1 - gain d) sa) in
          apply_gain_from (n1 + nv) r (splice a n1 sa') new
      end
  end.
Definition apply_gain (ds : list dm) (a new : vec) : result vec := apply_gain_from 0 ds a new.

(** The attribute actuator_values: None until the first reconstruction. *)
Definition recon_state := option vec.

(** soapy/reconstruction.py:431-442  reconstruct.  [ctrl] is control_matrix.T as a list of rows of
    length [nmeas]; dot raises ValueError on a length mismatch.  [total]: sim_config.totalActs. *)
Definition reconstruct (ds : list dm) (nmeas total : nat) (ctrl : mat) (s : recon_state) (m : vec)
  : result vec :=
  let a := match s with None => vzero total | Some a => a end in
  if (length m =? nmeas)%nat then apply_gain ds a (mvm ctrl m) else Err ValueError.

(** soapy/reconstruction.py:444-446 *)
Definition recon_reset (s : recon_state) : recon_state := option_map (fun a => vzero (length a)) s.

Inductive recon_op := RFrame (m : vec) | RReset.

(** State after a history of frames and resets. *)
Fixpoint recon_run (ds : list dm) (nmeas total : nat) (ctrl : mat) (s : recon_state) (ops : list recon_op)
  : result recon_state :=
  match ops with
  | [] => Ok s
  | RFrame m :: r => let* a := reconstruct ds nmeas total ctrl s m in recon_run ds nmeas total ctrl (Some a) r
  | RReset :: r => recon_run ds nmeas total ctrl (recon_reset s) r
  end.

(** ** Noise settings during calibration *)
Record wfs_conf := mkConf { photonNoise : bool; eReadNoise : Qc; removeTT : bool }.

(** soapy/wfs/wfs.py:416-423, 445-455  WFS.frame(iMatFrame): save, switch off, run, restore; an
    exception in between skips the restore.  [body] is the rest of the frame, given the settings in
    force. *)
Definition frame_conf {A} (iMatFrame : bool) (c : wfs_conf) (body : wfs_conf -> result A)
  : wfs_conf * result A :=
  if iMatFrame then
    let c' := mkConf false 0 false in
    match body c' with
    | Ok a => (mkConf (photonNoise c) (eReadNoise c) (removeTT c), Ok a)
    | Err e => (c', Err e)
    end
  else (c, body c).

(** soapy/reconstruction.py:298-312  the noise switch around an iMat frame; [imat_noise] is compared
    with [is False]. *)
Definition imat_wfs_conf {A} (imat_noise : bool) (c : wfs_conf) (body : wfs_conf -> result A)
  : wfs_conf * result A :=
  if imat_noise then frame_conf true c body
  else
    let c1 := mkConf false 0 (removeTT c) in
    match frame_conf true c1 body with
    | (c2, Ok a) => (mkConf (photonNoise c) (eReadNoise c) (removeTT c2), Ok a)
    | (c2, Err e) => (c2, Err e)
    end.

(** One sensor over all pokes of a calibration. *)
Fixpoint imat_confs {A} (imat_noise : bool) (c : wfs_conf) (bodies : list (wfs_conf -> result A))
  : wfs_conf * result (list A) :=
  match bodies with
  | [] => (c, Ok [])
  | b :: r =>
      match imat_wfs_conf imat_noise c b with
      | (c', Err e) => (c', Err e)
      | (c', Ok a) => let '(c'', x) := imat_confs imat_noise c' r in (c'', let* l := x in Ok (a :: l))
      end
  end.

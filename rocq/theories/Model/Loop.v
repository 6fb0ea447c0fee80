(** The adaptive-optics loop: reconstructor, command delay, mirrors and sensors put together. *)
From Verif.Base Require Import Vec.
From Verif.Model Require Import Recon Delay Dm.

(** The attributes of the simulation that a frame reads and writes: the reconstructor's
    actuator_values, the delay buffer, self.slopes, closed_correction and open_correction. *)
Record loop_state := mkLoop { l_recon : recon_state; l_buf : list vec; l_slopes : vec; l_corr : corr }.

(** What a frame produced: the commands applied to the mirrors, the measurements, the correction
    handed to the science cameras. *)
Record loop_out := mkOut { applied : vec; measured : vec; science : list vec }.

Section Loop.
  (** see Model/Recon.v, Section Calib *)
  Variable fit : nat -> vec -> vec.
  Variable ds : list dm.
  Variables nmeas total : nat.
  Variable ctrl : mat.
  (** config.sim.loopDelay *)
  Variable count : Z.

  (** value*0.0 (soapy/simulation.py:1248) *)
  Definition zero_like_vec (v : vec) : vec := vzero (length v).

  (** soapy/simulation.py:502-507  dms[dm].dmFrame(dmCommands[dmAct1[dm] : dmAct1[dm]+n_valid_actuators]) *)
  Definition dm_surface (cmds : vec) (k : nat) : result vec :=
    match nth_error ds k, nth_error (dm_offsets 0 (nvalids ds)) k with
    | Some d, Some o =>
        match n_valid d with
        | None => Err AttributeError
        | Some nv => dm_frame fit k d (pyslice cmds (Z.of_nat o) (Z.of_nat o + Z.of_nat nv))
        end
    | _, _ => Err KeyError
    end.

  (** soapy/simulation.py:532-571  loopFrame (nDM > 0), up to the science cameras.  [sense]: the slopes of
      all WFSs in this frame (with this frame's turbulence and noise) as a function of the closed-loop
      correction.  The in-place store into dmCommands (548) is modelled as a new value: Model/Delay.v
      (lstep) models the array identity and Props/DelayProps.v C03 shows that the contents agree. *)
  Definition loop_frame (L : loop_state) (sense : list vec -> vec) : result (loop_state * loop_out) :=
    let* a := reconstruct ds nmeas total ctrl (l_recon L) (l_slopes L) in
    let '(b, r) := delay zero_like_vec (l_buf L) a count in
    let* c := r in
    let* x := loop_corr (map closed ds) (dm_surface c) (l_corr L) in
    let s := sense (snd (fst x)) in
    Ok (mkLoop (Some a) b s (fst (fst x)), mkOut c s (snd x)).

  (** soapy/simulation.py:596-604  aoloop: one frame after the other *)
  Fixpoint loop_run (L : loop_state) (senses : list (list vec -> vec)) : result (loop_state * list loop_out) :=
    match senses with
    | [] => Ok (L, [])
    | f :: r =>
        let* x := loop_frame L f in
        let* y := loop_run (fst x) r in
        Ok (fst y, snd x :: snd y)
    end.
End Loop.

(** soapy/simulation.py:296-303 after aoinit, soapy/reconstruction.py:80-81 (actuator_values = None) *)
Definition loop_init (ndm npx nmeas : nat) : loop_state :=
  mkLoop None (@new_buffer vec) (vzero nmeas) (corr_init ndm npx).

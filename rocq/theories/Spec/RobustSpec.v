(** Specification of the closed loop with sensors that are not linear, or not calibrated exactly. *)
From Verif.Base Require Import Vec.
From Verif.Model Require Import Recon Loop.
From Verif.Spec Require Import ReconSpec LoopSpec.

(** A mirror that can be driven: some valid actuators, each with a shape of [npix] pixels. *)
Definition driven (npix : nat) (d : dm) : Prop :=
  Forall (fun s => length s = npix) (shapes d) /\ n_valid d = Some (length (shapes d)) /\ shapes d <> [].
(** The number of actuators. *)
Definition actuators (ds : list dm) : nat := total_acts (nvalids ds).
(** All commands of [c] are within [E] of those of [t]. *)
Definition within (ds : list dm) (t c : vec) (E : Qc) : Prop := forall y, (y < actuators ds)%nat -> (qc_abs (elem t y - elem c y) <= E)%Qc.
(** Sensors for turbulence that wants the commands [t]: whatever commands are on the mirrors, as long as they are within [range] of [t], the
    command reconstructed from the measurements misses what is left of [t] by no more than the fraction [delta] of the largest error
    of an actuator, and [eta]. *)
Definition accurate (fit : nat -> vec -> vec) (ds : list dm) (ctrl : mat) (range delta eta : Qc) (t : vec) (sense : list vec -> vec) : Prop :=
  forall (c : vec) (frames : list vec) (E : Qc), length c = actuators ds -> run_dms fit ds c = Ok frames -> within ds t c E -> (E <= range)%Qc ->
    forall x, (x < actuators ds)%nat -> (qc_abs (elem (mvm ctrl (sense frames)) x - (elem t x - elem c x)) <= delta * E + eta)%Qc.

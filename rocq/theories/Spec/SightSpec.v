(** Specification of what errors of the commands leave on a line of sight. *)
From Verif.Base Require Import Vec.
From Verif.Model Require Import Recon Numerics Dm Los Loop.
From Verif.Spec Require Import ReconSpec LoopSpec RobustSpec.
From Verif.Model Require Import Chain.

(** The phase seen on a line of sight past the mirrors when there is no turbulence and one actuator alone is given the command 1: for each
    actuator. *)
Definition poked (N : Z) (ms : list mirror) (ds : list dm) (los : geom) : result (list vec) :=
  mapM (fun x => let* surf := run_dms (mirror_fit N (map m_size ms)) ds (unit_vec (actuators ds) x) in view los None (map (unflat N) surf))
       (seq 0 (actuators ds)).
(** What all actuators together, each off by up to 1, can do to pixel [k]. *)
Definition reach (pokes : list vec) (k : nat) : Qc := lsum (map (fun p => qc_abs (elem p k)) pokes).
(** Two phases that differ, on each pixel, by no more than [E] times what the actuators can do there. *)
Definition phase_within (pokes : list vec) (E : Qc) (p q : vec) : Prop :=
  length p = length q /\ forall k, (k < length p)%nat -> (qc_abs (elem p k - elem q k) <= E * reach pokes k)%Qc.

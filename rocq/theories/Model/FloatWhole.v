(** The whole loop in floating-point arithmetic: mirrors, lines of sight, gradient sensors, control matrix and integrator. *)
From Coq Require Import ZArith List.
From Flocq Require Import BinarySingleNaN.
From Verif.Base Require Import Float64.
From Verif.Model Require Import Rounding64 FloatInterp FloatLos FloatLoop FloatGradChain FloatDriven.
Import ListNotations.

(** A measurement: a sub-aperture of a sensor, and which of its slopes *)
Record meas := mkMeas { me_sensor : grad_sensor; me_x : bool }.
(** soapy/simulation.py:502-506  dmCommands[dmAct1[dm]: dmAct1[dm] + n_valid_actuators] for every mirror (all in closed loop) *)
Fixpoint dealt (ms : list mirror64) (c : list b64) : list (mirror64 * list b64) :=
  match ms with [] => [] | m :: r => (m, firstn (length (mm_infl m)) c) :: dealt r (skipn (length (mm_infl m)) c) end.
(** soapy/simulation.py:379-408, 555-560  [s] are slopes of the sensors under [screens] with the commands [c] on the mirrors; sums may be added up differently for every slope.  All sensors are read out in
    every frame.  los.phase is of
    either precision (see Model/FloatLos.v). *)
Definition measured64 (me : list meas) (ms : list mirror64) (screens : list (farr * b64)) (c s : list b64) : Prop :=
  Forall2 (fun k x => exists d xy, driven_frame64 (me_sensor k) d screens (dealt ms c) xy /\ x = if me_x k then fst xy else snd xy) me s.
(** The same mirrors for the integrator: as many actuators as influence functions, closed loop, gain *)
Definition integrators (lm : list (mirror64 * b64)) : list fmirror := map (fun mg => mkFm (length (mm_infl (fst mg))) true (snd mg)) lm.

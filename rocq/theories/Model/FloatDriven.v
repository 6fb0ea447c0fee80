(** From the commands of the mirrors to the slopes of a gradient sensor, in floating-point arithmetic. *)
From Coq Require Import ZArith List.
From Flocq Require Import BinarySingleNaN.
From Verif.Base Require Import Float64.
From Verif.Model Require Import Rounding64 FloatInterp FloatLos FloatFootprint FloatDot FloatGrad FloatGradChain FloatMirror.
Import ListNotations.

(** A mirror: pixels of its surface, pixels its screen is wider on each side, influence functions, altitude *)
Record mirror64 := mkMirror { mm_nx : nat; mm_pad : nat; mm_infl : list (nat -> nat -> b64); mm_alt : b64 }.
(** soapy/simulation.py:484-509, 555-560 for one sensor: the mirrors [ms] in closed loop with the commands of each make their screens, which the sensor then sees with the [screens] of the
    atmosphere.  Mirrors in open loop, of which it sees zeros, are left out. *)
Definition driven_frame64 (g : grad_sensor) (d : phase_dtype) (screens : list (farr * b64)) (ms : list (mirror64 * list b64)) (s : b64 * b64) : Prop :=
  exists shs, Forall2 (fun mc sh => surface64 (mm_nx (fst mc)) (mm_infl (fst mc)) (snd mc) sh) ms shs /\
    grad_frame64 g d (screens, map (fun p => (on_screen64 (mm_nx (fst (fst p))) (mm_pad (fst (fst p))) (snd p), mm_alt (fst (fst p)))) (combine ms shs)) s.
(** Frames one after the other, each with screens and mirrors of its own *)
Fixpoint driven_run64 (g : grad_sensor) (d : phase_dtype) (fs : list (list (farr * b64) * list (mirror64 * list b64))) (ss : list (b64 * b64)) : Prop :=
  match fs, ss with
  | [], [] => True
  | f :: fr, s :: sr => driven_frame64 g d (fst f) (snd f) s /\ driven_run64 g Double fr sr
  | _, _ => False
  end.

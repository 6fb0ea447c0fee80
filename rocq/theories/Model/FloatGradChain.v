(** From screens and mirrors to the slopes of a gradient sensor, in floating-point arithmetic. *)
From Coq Require Import ZArith List.
From Flocq Require Import BinarySingleNaN.
From Verif.Base Require Import Float64.
From Verif.Model Require Import Rounding64 FloatInterp FloatLos FloatFootprint FloatDot FloatGrad.
Import ListNotations.

(** A gradient sensor: its line of sight (geometry, position, phs2Rad), the amplitude of its reference tilt and the pixels of the pupil (soapy/wfs/gradient.py:53-60), and one of its
    sub-apertures: the first row and column in los.phase, the width, the mask there. *)
Record grad_sensor := mkSensor {
  gs_geo : geometry64; gs_posx : b64; gs_posy : b64; gs_c : b64; gs_amp : b64; gs_pupil : Z;
  gs_row : Z; gs_col : Z; gs_w : nat; gs_mask : nat -> nat -> b64 }.
(** soapy/lineofsight.py:353-398 for pixel (i, j) of the sub-aperture: [ph] is that of los.phase *)
Definition sees (g : grad_sensor) (d : phase_dtype) (f : list (farr * b64) * list (farr * b64)) (i j : nat) (ph : b64) : Prop :=
  let cross := cross64 (gs_geo g) (gs_posx g) (gs_posy g) (gs_row g + Z.of_nat i) (gs_col g + Z.of_nat j) in
  exists r d', frame64 d (gs_c g) (cross (fst f)) (cross (snd f)) = Some (r, ph, d').
(** soapy/wfs/wfs.py:544-560 without noise and delay, soapy/wfs/gradient.py:107-126, 137-152: a frame of the sensor; [fst f]: the screens and their altitudes, [snd f]: the mirrors' *)
Definition grad_frame64 (g : grad_sensor) (d : phase_dtype) (f : list (farr * b64) * list (farr * b64)) (s : b64 * b64) : Prop :=
  exists ph, (forall i j, (i < gs_w g)%nat -> (j < gs_w g)%nat -> sees g d f i j (ph i j)) /\
    grad_slopes64 (gs_amp g) (gs_pupil g) (gs_w g) (fun i j => mul64 (ph i j) (gs_mask g i j)) (fst s) (snd s).
(** Frames one after the other.  los.phase is float32 in the first (see Model/FloatLos.v), float64 from then on. *)
Fixpoint grad_run64 (g : grad_sensor) (d : phase_dtype) (fs : list (list (farr * b64) * list (farr * b64))) (ss : list (b64 * b64)) : Prop :=
  match fs, ss with
  | [], [] => True
  | f :: fr, s :: sr => grad_frame64 g d f s /\ grad_run64 g Double fr sr
  | _, _ => False
  end.

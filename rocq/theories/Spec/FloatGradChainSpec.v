(** What the theorem on the gradient sensor behind its line of sight talks about. *)
From Coq Require Import ZArith List Reals.
From Flocq Require Import Core BinarySingleNaN.
From Verif.Base Require Import Float64.
From Verif.Model Require Import FloatInterp FloatLos FloatFootprint.
From Verif.Spec Require Import FloatInterpSpec FloatLosSpec FloatFootprintSpec FloatGradSpec.
From Verif.Model Require Import FloatGradChain.
Import ListNotations.
Local Open Scope R_scope.

(** The phase (radians) in pixel (i, j) of the sub-aperture, in exact arithmetic: what is seen of the screens less what is seen of the mirrors, where the mask lets light through *)
Definition exact_phase (g : grad_sensor) (f : list (farr * b64) * list (farr * b64)) (i j : nat) : R :=
  B2R (gs_mask g i j) * (B2R (gs_c g) *
    (exact_seen (gs_geo g) (gs_posx g) (gs_posy g) (gs_row g + Z.of_nat i) (gs_col g + Z.of_nat j) (fst f)
     - exact_seen (gs_geo g) (gs_posx g) (gs_posy g) (gs_row g + Z.of_nat i) (gs_col g + Z.of_nat j) (snd f))).
(** A sensor without extreme numbers whose sub-aperture lies within the line of sight, with a mask of zeros and ones; [step]: the phase from pixel to pixel of a tilt of one arcsec. *)
Definition usable (g : grad_sensor) (theta h G step : R) : Prop :=
  sensible (gs_geo g) theta h G /\ is_finite (gs_c g) = true /\ bpow radix2 (-60) <= B2R (gs_c g) <= bpow radix2 40 /\ tilted step (gs_amp g) (gs_pupil g) (gs_w g) /\
  (0 <= gs_row g)%Z /\ (gs_row g + Z.of_nat (gs_w g) <= g_nout (gs_geo g))%Z /\ (0 <= gs_col g)%Z /\ (gs_col g + Z.of_nat (gs_w g) <= g_nout (gs_geo g))%Z /\
  forall i j, is_finite (gs_mask g i j) = true /\ (B2R (gs_mask g i j) = 0 \/ B2R (gs_mask g i j) = 1).
(** Screens and mirrors within these limits, with bounds on their values *)
Definition frame_within (g : grad_sensor) (theta h : R) (f : list (farr * b64) * list (farr * b64)) (b : list R * list R) : Prop :=
  fine (gs_geo g) theta h (gs_posx g) (gs_posy g) (fst f) (fst b) /\ fine (gs_geo g) theta h (gs_posx g) (gs_posy g) (snd f) (snd b) /\
  (Z.of_nat (length (fst f)) <= 2 ^ 20)%Z /\ (Z.of_nat (length (snd f)) <= 2 ^ 20)%Z /\ total (fst b) <= bpow radix2 50 /\ total (snd b) <= bpow radix2 50.

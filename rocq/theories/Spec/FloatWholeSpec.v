(** What the theorem on the whole loop in floating-point arithmetic talks about. *)
From Coq Require Import ZArith List Reals.
From Flocq Require Import Core BinarySingleNaN.
From Verif.Base Require Import Float64.
From Verif.Model Require Import FloatInterp FloatLos FloatLoop FloatGradChain FloatDriven.
From Verif.Spec Require Import FloatLoopSpec FloatDotSpec FloatInterpSpec FloatLosSpec FloatFootprintSpec FloatGradSpec FloatGradChainSpec FloatMirrorSpec FloatDrivenSpec.
From Verif.Model Require Import FloatWhole.
Import ListNotations.
Local Open Scope R_scope.

(** The mirrors with their commands: those of the first mirror come first, then those of the second, ... *)
Fixpoint shares (start : nat) (ms : list mirror64) (c : list b64) : list (mirror64 * list b64) :=
  match ms with
  | [] => []
  | m :: r => (m, map (fun i => nth (start + i) c fzero) (seq 0 (length (mm_infl m)))) :: shares (start + length (mm_infl m)) r c
  end.
(** A slope in exact arithmetic; [step]: for each sensor the phase from pixel to pixel of a tilt of one arcsec *)
Definition exact_slope (step : grad_sensor -> R) (screens : list (farr * b64)) (ms : list mirror64) (c : list b64) (k : meas) : R :=
  (if me_x k then best_x else best_y) (step (me_sensor k)) (gs_w (me_sensor k)) (exact_residual (me_sensor k) screens (shares 0 ms c)).
(** A row of the control matrix times the slopes of exact arithmetic; the sum of the row without signs *)
Definition exact_command (slope : meas -> R) (me : list meas) (row : list b64) : R := fold_right Rplus 0 (map (fun p => B2R (fst p) * slope (snd p)) (combine row me)).
Definition weight (row : list b64) : R := fold_right Rplus 0 (map (fun r => Rabs (B2R r)) row).
(** What rounding does to a slope (C210) *)
Definition slope_error (step : grad_sensor -> R) (G : R) (ms : list (mirror64 * list b64)) (b : list R * list R) (k : meas) : R :=
  ((5 / 10 ^ 5 + 3200 * unit_roundoff * G) * (total (fst b) + shown ms (snd b)) + 8 * missed ms (snd b) + bpow radix2 (-40)) * B2R (gs_c (me_sensor k)) / (step (me_sensor k) * INR (gs_w (me_sensor k))).
(** The system without rounding: as long as the commands are within [range] of those wanted, t, the numbers are not extreme (bounds b), slopes are at most S and rounding does at most e to them, and
    the control matrix times the slopes of exact arithmetic misses what is left of the wanted commands by no more than the fraction [delta] of the largest error, and [eta]. *)
Definition corrects (step : grad_sensor -> R) (theta h G : R) (me : list meas) (ms : list mirror64) (ctrl : list (list b64)) (b : list R * list R) (total : nat) (range delta eta S e : R)
    (t : nat -> R) (screens : list (farr * b64)) : Prop :=
  forall c E, fl_within total t c E -> E <= range ->
    (forall k, In k me -> command_within (me_sensor k) theta h (screens, shares 0 ms c) b /\ slope_error step G (shares 0 ms c) b k <= e /\ Rabs (exact_slope step screens ms c k) <= S) /\
    forall x row, nth_error ctrl x = Some row -> Rabs (exact_command (exact_slope step screens ms c) me row - (t x - B2R (nth x c fzero))) <= delta * E + eta.

(** What the theorems on control matrices for the loop in floating-point arithmetic talk about. *)
From Coq Require Import ZArith List Reals.
From Flocq Require Import Core BinarySingleNaN.
From Verif.Base Require Import Float64.
From Verif.Model Require Import FloatInterp FloatLos FloatLoop FloatGradChain FloatDriven FloatWhole.
From Verif.Spec Require Import FloatLoopSpec FloatDotSpec FloatInterpSpec FloatGradSpec FloatDrivenSpec FloatWholeSpec.
Import ListNotations.
Local Open Scope R_scope.

(** All actuators of the mirrors *)
Definition actuators (ms : list mirror64) : nat := fold_right (fun m n => (length (mm_infl m) + n)%nat) 0%nat ms.
(** No command on any of [total] actuators; a command of one on actuator x *)
Definition no_command (total : nat) : list b64 := repeat (ofZ64 0) total.
Definition one_command (total x : nat) : list b64 := map (fun y => ofZ64 (if Nat.eqb y x then 1 else 0)) (seq 0 total).
(** The interaction matrix: the slope, without screens, of a command of one on actuator x *)
Definition poke (step : grad_sensor -> R) (ms : list mirror64) (total x : nat) (k : meas) : R := exact_slope step [] ms (one_command total x) k.
(** What the control matrix makes of the screens without commands *)
Definition open_command (step : grad_sensor -> R) (me : list meas) (ms : list mirror64) (total : nat) (screens : list (farr * b64)) (row : list b64) : R :=
  exact_command (exact_slope step screens ms (no_command total)) me row.
(** A control matrix that is the inverse of the interaction matrix, with the sign turned (the mirrors are subtracted), up to [delta] in every row *)
Definition inverts (step : grad_sensor -> R) (me : list meas) (ms : list mirror64) (total : nat) (ctrl : list (list b64)) (delta : R) : Prop :=
  forall x row, nth_error ctrl x = Some row ->
    sum_to total (fun y => Rabs (exact_command (poke step ms total y) me row + (if Nat.eqb x y then 1 else 0))) <= delta.
(** The commands t are those that, up to [eta], leave nothing to correct *)
Definition nulls (step : grad_sensor -> R) (me : list meas) (ms : list mirror64) (total : nat) (ctrl : list (list b64)) (eta : R) (t : nat -> R) (screens : list (farr * b64)) : Prop :=
  forall x row, nth_error ctrl x = Some row ->
    Rabs (open_command step me ms total screens row + sum_to total (fun y => t y * exact_command (poke step ms total y) me row)) <= eta.
(** With the commands t on the mirrors, slopes are at most S0, and commands of at most one make slopes of at most P *)
Definition slopes_within (step : grad_sensor -> R) (me : list meas) (ms : list mirror64) (total : nat) (S0 P : R) (t : nat -> R) (screens : list (farr * b64)) : Prop :=
  forall k, In k me -> Rabs (exact_slope step screens ms (no_command total) k + sum_to total (fun x => t x * poke step ms total x k)) <= S0 /\ sum_to total (fun x => Rabs (poke step ms total x k)) <= P.
(** No number is extreme, and rounding does at most e to a slope (C210), as long as the commands are within [range] of t *)
Definition not_extreme (step : grad_sensor -> R) (theta h G : R) (me : list meas) (ms : list mirror64) (b : list R * list R) (total : nat) (range e : R) (t : nat -> R) (screens : list (farr * b64)) : Prop :=
  forall c k, fl_within total t c range -> In k me -> command_within (me_sensor k) theta h (screens, shares 0 ms c) b /\ slope_error step G (shares 0 ms c) b k <= e.
(** The control matrix times an interaction matrix of floating-point numbers (one row for every actuator) is the unit matrix up to [delta] in every row *)
Definition inverts_measured (total : nat) (ctrl imat : list (list b64)) (delta : R) : Prop :=
  forall x row, nth_error ctrl x = Some row -> sum_to total (fun y => Rabs (exact_sum row (nth y imat []) - (if Nat.eqb x y then 1 else 0))) <= delta.

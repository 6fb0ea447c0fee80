(** What the theorem on the gradient sensor in floating-point arithmetic talks about. *)
From Coq Require Import ZArith List Reals.
From Flocq Require Import Core BinarySingleNaN.
From Verif.Base Require Import Float64.
Local Open Scope R_scope.

(** The sum of f 0 .. f (n - 1) *)
Fixpoint sum_to (n : nat) (f : nat -> R) : R := match n with O => 0 | S k => sum_to k f + f k end.
(** A tilt of -1 arcsec over w pixels, without piston, in radians: [step] is the phase from one pixel to the next *)
Definition minus_tilt (step : R) (w k : nat) : R := step * (INR (w - 1) / 2 - INR k).
(** The tilts along both axes, in arcsec and with the sign of the sensor, that fit the phase p of w x w pixels best (least squares). *)
Definition mean_of (w : nat) (p : nat -> nat -> R) : R := sum_to w (fun i => sum_to w (fun j => p i j)) / (INR w * INR w).
Definition best_x (step : R) (w : nat) (p : nat -> nat -> R) : R :=
  sum_to w (fun i => sum_to w (fun j => (p i j - mean_of w p) * minus_tilt step w j)) / (INR w * sum_to w (fun k => minus_tilt step w k * minus_tilt step w k)).
Definition best_y (step : R) (w : nat) (p : nat -> nat -> R) : R :=
  sum_to w (fun i => sum_to w (fun j => (p i j - mean_of w p) * minus_tilt step w i)) / (INR w * sum_to w (fun k => minus_tilt step w k * minus_tilt step w k)).
(** How far a piston a and the tilts bx, by_ are from the phase p: the sum of the squares over the pixels. *)
Definition misfit (step : R) (w : nat) (p : nat -> nat -> R) (a bx by_ : R) : R :=
  sum_to w (fun i => sum_to w (fun j => (p i j - (a + bx * minus_tilt step w j + by_ * minus_tilt step w i)) * (p i j - (a + bx * minus_tilt step w j + by_ * minus_tilt step w i)))).
(** A tilt of 1 arcsec over the P pixels of the pupil has amplitude [amp] (radians), [step] from one pixel to the next; the sub-apertures are w pixels wide. *)
Definition tilted (step : R) (amp : b64) (P : Z) (w : nat) : Prop :=
  is_finite amp = true /\ B2R amp = IZR (P - 1) * step /\ bpow radix2 (-100) <= step <= bpow radix2 100 /\ (2 <= w <= 256)%nat /\ (Z.of_nat w <= P <= 2 ^ 20)%Z.

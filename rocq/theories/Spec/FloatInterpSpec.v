(** Specification of interpolation in exact arithmetic. *)
From Coq Require Import ZArith Reals.
From Flocq Require Import Core BinarySingleNaN.
From Verif.Base Require Import Float64.
From Verif.Model Require Import FloatInterp.
Local Open Scope R_scope.

(** The function that is d k at k = 0, 1, 2, ... and straight in between; and the same along both axes of an array. *)
Definition straight (d : Z -> R) (x : R) : R := d (Zfloor x) + (d (Zfloor x + 1)%Z - d (Zfloor x)) * (x - IZR (Zfloor x)).
Definition bilinear (d : Z -> Z -> R) (x y : R) : R := straight (fun j => straight (fun i => d i j) x) y.
(** The numbers in an array. *)
Definition numbers (a : farr) (i j : Z) : R := B2R (fa_at a i j).
(** Every element is a number between -A and A. *)
Definition bounded_by (a : farr) (A : R) : Prop :=
  forall i j, (0 <= i < fa_rows a)%Z -> (0 <= j < fa_cols a)%Z -> is_finite (fa_at a i j) = true /\ Rabs (numbers a i j) <= A.
Definition fits (a : farr) : Prop := (2 <= fa_rows a <= 2 ^ 20)%Z /\ (2 <= fa_cols a <= 2 ^ 20)%Z.
(** The nearest coordinate on an axis of n elements. *)
Definition nearest_on (n : Z) (x : R) : R := Rmax 0 (Rmin x (IZR (n - 1))).

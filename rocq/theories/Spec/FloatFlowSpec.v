(** Specification of the turbulence on an infinite screen. *)
From Coq Require Import ZArith List Reals.
From Flocq Require Import Core BinarySingleNaN.
From Verif.Base Require Import Float64.
From Verif.Model Require Import FloatFlow.
Import ListNotations.
Local Open Scope R_scope.

(** All rows of an infinite screen that ever exist: row k >= 0 is the k-th row made, rows -1, -2, ... are the rows present at the start, from the newest on. *)
Definition turbulence (row : nat -> frow) (init : list frow) (j k : Z) : R :=
  B2R ((if (k <? 0)%Z then nth (Z.to_nat (- k - 1)) init (fun _ => ofZ64 0) else row (Z.to_nat k)) j).
(** Every element of every row is a number between -A and A, and neighbouring rows differ by at most D. *)
Definition calm (row : nat -> frow) (init : list frow) (nx : Z) (A D : R) : Prop :=
  (forall k j, (0 <= j < nx)%Z -> is_finite (row k j) = true /\ Rabs (B2R (row k j)) <= A) /\
  (forall r j, In r init -> (0 <= j < nx)%Z -> is_finite (r j) = true /\ Rabs (B2R (r j)) <= A) /\
  forall k j, (0 <= j < nx)%Z -> (- Z.of_nat (length init) <= k)%Z -> Rabs (turbulence row init j (k + 1) - turbulence row init j k) <= D.

(** What the theorem on separations talks about. *)
From Coq Require Import ZArith List Reals.
From Flocq Require Import Core BinarySingleNaN.
From Verif.Base Require Import Float64.
From Verif.Model Require Import Separations.
Import ListNotations.
Local Open Scope R_scope.

(** The distance of two points *)
Definition distance (a b : point) : R :=
  sqrt ((B2R (fst b) - B2R (fst a)) * (B2R (fst b) - B2R (fst a)) + (B2R (snd b) - B2R (snd a)) * (B2R (snd b) - B2R (snd a))).
(** Numbers, not too large *)
Definition usable (x : b64) : Prop := is_finite x = true /\ Rabs (B2R x) <= bpow radix2 400.
(** Equal, or not too close *)
Definition apart (x y : b64) : Prop := B2R x = B2R y \/ bpow radix2 (-400) <= Rabs (B2R x - B2R y).
Definition grid (ps : list point) : Prop :=
  (forall p, In p ps -> usable (fst p) /\ usable (snd p)) /\ forall p q, In p ps -> In q ps -> apart (fst p) (fst q) /\ apart (snd p) (snd q).
(** Element (i, j) of a list of rows *)
Definition entry (m : list (list b64)) (i j : nat) : option b64 := match nth_error m i with Some r => nth_error r j | None => None end.
(** A point with whole coordinates *)
Definition at_whole (x y : Z) : point := (ofZ64 x, ofZ64 y).

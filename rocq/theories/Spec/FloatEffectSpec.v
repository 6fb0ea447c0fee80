(** What the theorems on actuators without effect talk about. *)
From Coq Require Import List Reals.
From Flocq Require Import Core BinarySingleNaN.
From Verif.Base Require Import Float64.
Import ListNotations.
Local Open Scope R_scope.

(** M is the largest absolute value *)
Definition largest (l : list b64) (M : R) : Prop := (forall x, In x l -> Rabs (B2R x) <= M) /\ exists x, In x l /\ Rabs (B2R x) = M.
(** 0.1 % of M, and a little more or less *)
Definition above (M : R) : R := M / 1000 * (1 + bpow radix2 (-50)).
Definition below (M : R) : R := M / 1000 * (1 - bpow radix2 (-50)).
(** The rows that are marked, in their order *)
Fixpoint marked (flags : list bool) (l : list (list b64)) : list (list b64) :=
  match flags, l with f :: fs, r :: rs => if f then r :: marked fs rs else marked fs rs | _, _ => [] end.

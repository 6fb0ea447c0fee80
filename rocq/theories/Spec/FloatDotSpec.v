(** Specification of products of vectors of floats. *)
From Coq Require Import Reals List.
From Flocq Require Import Core BinarySingleNaN.
From Verif.Base Require Import Float64.
From Verif.Model Require Import FloatLoop.
From Verif.Spec Require Import FloatLoopSpec.
Import ListNotations.
Local Open Scope R_scope.

Definition all_finite (v : list b64) : Prop := Forall (fun x => is_finite x = true) v.
(** the exact sum of products of two vectors, and that of their absolute values *)
Definition exact_sum (a b : list b64) : R := fold_right Rplus 0 (map (fun p => B2R (fst p) * B2R (snd p)) (combine a b)).
Definition abs_sum (a b : list b64) : R := fold_right Rplus 0 (map (fun p => Rabs (B2R (fst p) * B2R (snd p))) (combine a b)).
(** As [fl_accurate], of the slopes and the control matrix in exact arithmetic: for commands within [range] of those wanted there are [nmeas] slopes, all of them numbers, the
    exact products with the rows of the control matrix miss by at most [delta] times the largest error, and [eta], and the absolute values of their terms add up to at most [M]. *)
Definition slopes_accurate (ms : list fmirror) (nmeas : nat) (ctrl : list (list b64)) (range delta eta M : R) (t : nat -> R) (slopes : list b64 -> list b64) : Prop :=
  forall c E, fl_within (fl_total ms) t c E -> E <= range ->
    length (slopes c) = nmeas /\ all_finite (slopes c) /\
    forall x m row, fl_owner ms x = Some m -> nth_error ctrl x = Some row ->
      Rabs (exact_sum row (slopes c) - (if fm_closed m then t x - B2R (nth x c fzero) else t x)) <= delta * E + eta /\ abs_sum row (slopes c) <= M.

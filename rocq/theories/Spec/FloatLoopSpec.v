(** Specification of the loop in floating point. *)
From Coq Require Import Reals List.
From Flocq Require Import Core BinarySingleNaN.
From Verif.Base Require Import Float64.
From Verif.Model Require Import FloatLoop.
Import ListNotations.
Local Open Scope R_scope.

(** Commands for [total] actuators, all of them numbers (neither infinite nor NaN) and within [E] of the commands [t]. *)
Definition fl_within (total : nat) (t : nat -> R) (c : list b64) (E : R) : Prop :=
  length c = total /\ forall x, (x < total)%nat -> is_finite (nth x c fzero) = true /\ Rabs (t x - B2R (nth x c fzero)) <= E.
(** The mirror that actuator [x] of the command vector belongs to. *)
Fixpoint fl_owner (ms : list fmirror) (x : nat) : option fmirror :=
  match ms with [] => None | m :: r => if (x <? fm_acts m)%nat then Some m else fl_owner r (x - fm_acts m) end.
(** Whatever commands are on the mirrors, as long as they are within [range] of those wanted, what comes back is numbers, and misses, for an actuator in closed loop, what is left
    of the wanted command, and for one in open loop the wanted command itself, by no more than the fraction [delta] of the largest error, and [eta]. *)
Definition fl_accurate (ms : list fmirror) (range delta eta : R) (t : nat -> R) (respond : list b64 -> list b64) : Prop :=
  forall c E, fl_within (fl_total ms) t c E -> E <= range ->
    length (respond c) = fl_total ms /\
    forall x m, fl_owner ms x = Some m -> is_finite (nth x (respond c) fzero) = true /\
      Rabs (B2R (nth x (respond c) fzero) - (if fm_closed m then t x - B2R (nth x c fzero) else t x)) <= delta * E + eta.
(** 2^-53, half the distance of 1 from the next float; and the smallest positive float. *)
Definition unit_roundoff : R := bpow radix2 (-53).
Definition smallest : R := bpow radix2 (-1074).

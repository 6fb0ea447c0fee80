(** What the theorem on a mirror's surface in floating-point arithmetic talks about. *)
From Coq Require Import ZArith List Reals.
From Flocq Require Import Core BinarySingleNaN.
From Verif.Base Require Import Float64.
From Verif.Spec Require Import FloatLoopSpec FloatDotSpec FloatGradSpec.
Import ListNotations.
Local Open Scope R_scope.

(** The sum of the influence functions times their commands, and the same less its mean *)
Definition combined (infl : list (nat -> nat -> b64)) (cmds : list b64) (i j : nat) : R := exact_sum cmds (map (fun f => f i j) infl).
Definition exact_surface (nx : nat) (infl : list (nat -> nat -> b64)) (cmds : list b64) (i j : nat) : R := combined infl cmds i j - mean_of nx (combined infl cmds).
(** The surface in a screen that is wider by [pad] pixels on each side *)
Definition exact_screen (nx pad : nat) (infl : list (nat -> nat -> b64)) (cmds : list b64) (i j : Z) : R :=
  if (((Z.of_nat pad <=? i) && (i <? Z.of_nat pad + Z.of_nat nx)) && ((Z.of_nat pad <=? j) && (j <? Z.of_nat pad + Z.of_nat nx)))%Z%bool
  then exact_surface nx infl cmds (Z.to_nat (i - Z.of_nat pad)) (Z.to_nat (j - Z.of_nat pad)) else 0.
(** Influence functions and commands that are numbers, as many of the one as of the other; in every pixel the commands times the influence functions add up, without their signs, to no more than A; neither the actuators nor the
    pixels are more than 2^47. *)
Definition driven (nx : nat) (infl : list (nat -> nat -> b64)) (cmds : list b64) (A : R) : Prop :=
  (1 <= nx)%nat /\ length cmds = length infl /\ INR (length infl) * unit_roundoff <= / 64 /\ INR nx * INR nx * unit_roundoff <= / 64 /\ 0 <= A <= bpow radix2 900 /\ all_finite cmds /\
  forall i j, (i < nx)%nat -> (j < nx)%nat -> all_finite (map (fun f => f i j) infl) /\ abs_sum cmds (map (fun f => f i j) infl) <= A.

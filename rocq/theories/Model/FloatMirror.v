(** The surface of a mirror in floating-point arithmetic. *)
From Coq Require Import ZArith List.
From Flocq Require Import BinarySingleNaN.
From Verif.Base Require Import Float64.
From Verif.Model Require Import FloatInterp FloatDot FloatGrad.
Import ListNotations.

(** soapy/DM.py:164-166, 199-202  the nx x nx pixels [sh] of dm_shape for the commands [cmds]; [infl]: iMatShapes (those of single precision as float64s of the same values), one for each
    valid actuator; no rotation.  numpy adds up in an order of its own in both sums. *)
Definition surface64 (nx : nat) (infl : list (nat -> nat -> b64)) (cmds : list b64) (sh : nat -> nat -> b64) : Prop :=
  exists raw t,
    (forall i j, (i < nx)%nat -> (j < nx)%nat -> summed (combine cmds (map (fun f => f i j) infl)) (raw i j)) /\
    summed_ones (gridded nx raw) t /\
    forall i j, (i < nx)%nat -> (j < nx)%nat -> sh i j = sub64 (raw i j) (div64 t (ofZ64 (Z.of_nat nx * Z.of_nat nx))).
(** soapy/DM.py:182-197  dm_screen, [pad] pixels wider on each side (0: of the size of dm_shape); mirrors larger than the screen are left out *)
Definition on_screen64 (nx pad : nat) (sh : nat -> nat -> b64) : farr :=
  let n := (Z.of_nat nx + 2 * Z.of_nat pad)%Z in
  let inside k := ((Z.of_nat pad <=? k) && (k <? Z.of_nat pad + Z.of_nat nx))%Z%bool in
  mkFarr n n (fun i j => if (inside i && inside j)%bool then sh (Z.to_nat (i - Z.of_nat pad)) (Z.to_nat (j - Z.of_nat pad)) else ofZ64 0).

(** Actuators without effect on any sensor, in floating-point arithmetic. *)
From Coq Require Import ZArith List.
From Flocq Require Import BinarySingleNaN.
From Verif.Base Require Import Float64.
Import ListNotations.

(** abs(l).max(); numpy raises a ValueError for an array without elements, which is left out (the model has 0) *)
Definition abs_max64 (l : list b64) : b64 := fold_right (fun x m => if lt64 m (Babs x) then Babs x else m) (ofZ64 0) l.
(** 0.001 *)
Definition thousandth : b64 := lit64 1152921504606847 (-60).
(** soapy/reconstruction.py:324-330  valid_actuators of a mirror whose interaction matrix is [imat], one row for every actuator *)
Definition effective64 (imat : list (list b64)) : list bool :=
  let act_threshold := mul64 (abs_max64 (concat imat)) thousandth in map (fun row => lt64 act_threshold (abs_max64 row)) imat.
(** soapy/reconstruction.py:337-343  valid_iMat *)
Definition kept64 (imat : list (list b64)) : list (list b64) := map snd (filter fst (combine (effective64 imat) imat)).

(** The product of the control matrix and the measurements in IEEE binary64. *)
From Coq Require Import ZArith List Permutation.
From Flocq Require Import BinarySingleNaN.
From Verif.Base Require Import Float64.
From Verif.Model Require Import FloatLoop.
Import ListNotations.

(** fused multiply-add: a * b + c, rounded once *)
Definition fma64 : b64 -> b64 -> b64 -> b64 := @Bfma 53 1024 prec64 emax64 mode_NE.
(** soapy/reconstruction.py:437  one element of control_matrix.T.dot(wfs_measurements).  The library underneath numpy.dot is free in the order in which it adds the products up,
    may start from zeros, add up in several lanes and join them, and may use fused multiply-adds; it may choose differently for each element and from call to call.
    [summed l r]: r is a sum of the products of the pairs in l by one of these ways.  (Products that are not taken of all terms at full precision, as in Strassen's
    method, and sums kept in wider registers are left out.) *)
Inductive summed : list (b64 * b64) -> b64 -> Prop :=
| sum_zero : summed [] fzero
| sum_one a b : summed [(a, b)] (mul64 a b)
| sum_two l l1 l2 r1 r2 : summed l1 r1 -> summed l2 r2 -> Permutation l (l1 ++ l2) -> summed l (add64 r1 r2)
| sum_fma l a b l1 r1 : summed l1 r1 -> Permutation l ((a, b) :: l1) -> summed l (fma64 a b r1).
(** soapy/reconstruction.py:437  the whole product; [ctrl]: control_matrix.T as a list of rows *)
Definition control_product (ctrl : list (list b64)) (s new : list b64) : Prop :=
  Forall2 (fun row x => summed (combine row s) x) ctrl new.

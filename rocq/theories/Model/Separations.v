(** The separations between the points of an infinite screen. *)
From Coq Require Import ZArith List.
From Flocq Require Import BinarySingleNaN.
From Verif.Base Require Import Float64.
Import ListNotations.

(** numpy.sqrt *)
Definition sqrt64 : b64 -> b64 := @Bsqrt 53 1024 prec64 emax64 mode_NE.
Definition point := (b64 * b64)%type.
(** soapy/atmosphere.py:578-587  one element; x ** 2 is compiled to a product *)
Definition separation64 (a b : point) : b64 :=
  let dx := sub64 (fst b) (fst a) in let dy := sub64 (snd b) (snd a) in sqrt64 (add64 (mul64 dx dx) (mul64 dy dy)).
(** soapy/atmosphere.py:556-563, 577-587  [stencil] and [row] are the positions of aotools (stencil_positions, X_positions) *)
Definition calc_separations64 (stencil row : list point) : list (list b64) :=
  let positions := stencil ++ row in map (fun a => map (fun b => separation64 a b) positions) positions.

(** The gradient sensor in floating-point arithmetic. *)
From Coq Require Import ZArith List Permutation.
From Flocq Require Import BinarySingleNaN.
From Verif.Base Require Import Float64.
From Verif.Model Require Import FloatLos FloatFootprint FloatDot.
Import ListNotations.

(** The elements of a w x w array, row by row *)
Definition gridded {A : Type} (w : nat) (f : nat -> nat -> A) : list A := flat_map (fun i => map (f i) (seq 0 w)) (seq 0 w).
(** numpy.sum of float64s, in any order and number of lanes: a sum of products with 1, which are exact *)
Definition summed_ones (l : list b64) (r : b64) : Prop := summed (map (fun x => (x, ofZ64 1)) l) r.
(** numpy.sum of float32s, in any order and number of lanes, each of which may start from zero.  An operation on float32s is that on float64s rounded once more, which is the same
    (Figueroa); a float32 is kept as the float64 of the same value. *)
Inductive summed32 : list b64 -> b64 -> Prop :=
| sum32_one x : summed32 [x] x
| sum32_start x : summed32 [x] (single (add64 (ofZ64 0) x))
| sum32_two l l1 l2 r1 r2 : summed32 l1 r1 -> summed32 l2 r2 -> Permutation l (l1 ++ l2) -> summed32 l (single (add64 r1 r2)).
(** soapy/wfs/gradient.py:60-65  subapCoord[k], [mean] being the mean of the first w coordinates; [amp]: amp, [P]: pupil_size *)
Definition sub_coord64 (amp : b64) (P : Z) (mean : b64) (k : nat) : b64 :=
  mul64 (sub64 (linspace64 (ofZ64 0) amp P (Z.of_nat k)) mean) (ofZ64 (-1)).
(** soapy/wfs/gradient.py:60-70, 126, 145-152  the slopes rx and ry of a sub-aperture of w x w pixels with phase [ph] (masked, float64 or float32), before removeTT and noise.
    numpy adds up in an order of its own in all sums. *)
Definition grad_slopes64 (amp : b64) (P : Z) (w : nat) (ph : nat -> nat -> b64) (rx ry : b64) : Prop :=
  exists t Sx Sy s,
    summed_ones (map (fun k => linspace64 (ofZ64 0) amp P (Z.of_nat k)) (seq 0 w)) t /\
    let c := sub_coord64 amp P (div64 t (ofZ64 (Z.of_nat w))) in
    summed (gridded w (fun i j => (c j, c j))) Sx /\ summed (gridded w (fun i j => (c i, c i))) Sy /\
    summed32 (gridded w (fun i j => single (ph i j))) s /\
    let mean := single (div64 s (ofZ64 (Z.of_nat w * Z.of_nat w))) in
    let d i j := single (sub64 (single (ph i j)) mean) in
    summed (gridded w (fun i j => (d i j, div64 (c j) Sx))) rx /\ summed (gridded w (fun i j => (d i j, div64 (c i) Sy))) ry.

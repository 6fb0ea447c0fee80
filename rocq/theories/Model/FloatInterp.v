(** The interpolation kernels in binary64: values as well as indices. *)
From Coq Require Import ZArith List.
From Flocq Require Import BinarySingleNaN.
From Verif.Base Require Import Float64.
From Verif.Model Require Import Rounding64.

(** An array of floats. *)
Record farr := mkFarr { fa_rows : Z; fa_cols : Z; fa_at : Z -> Z -> b64 }.
(** soapy/numbalib/numbalib.py:68-75, 107-114, 205-212; soapy/numbalib/wfslib.py:32-38.  numba rounds every operation (it fuses none without fastmath); data, if they are of single precision, are
    converted when they are read, and the result is the one before it is stored.  None: the coordinate is not a number, or an element is read that does not exist. *)
Definition kernel64 (a : farr) (x y : b64) : option b64 :=
  match int64 x, int64 y with
  | Some x1, Some y1 =>
      if ((0 <=? x1) && (x1 + 1 <? fa_rows a) && (0 <=? y1) && (y1 + 1 <? fa_cols a))%Z%bool then
        let d := fa_at a in
        let xGrad1 := sub64 (d (x1 + 1)%Z y1) (d x1 y1) in
        let a1 := add64 (d x1 y1) (mul64 xGrad1 (sub64 x (ofZ64 x1))) in
        let xGrad2 := sub64 (d (x1 + 1)%Z (y1 + 1)%Z) (d x1 (y1 + 1)%Z) in
        let a2 := add64 (d x1 (y1 + 1)%Z) (mul64 xGrad2 (sub64 x (ofZ64 x1))) in
        let yGrad := sub64 a2 a1 in
        Some (add64 a1 (mul64 yGrad (sub64 y (ofZ64 y1))))
      else None
  | _, _ => None
  end.
(** soapy/numbalib/numbalib.py:38-76  one element of bilinear_interp with the bounds check *)
Definition interp64 (a : farr) (x y : b64) : option b64 := kernel64 a (clamp64 (fa_rows a) x) (clamp64 (fa_cols a) y).
(** soapy/lineofsight.py:181, 189, 273, 335  coordinates on a screen, clipped, and the interpolation without the check *)
Definition los_interp64 (a : farr) (x y : b64) : option b64 :=
  kernel64 a (clip64 (fa_rows a) (dec64 1000000001 (10 ^ 9)) x) (clip64 (fa_cols a) (dec64 1000000001 (10 ^ 9)) y).
(** soapy/numbalib/numbalib.py:184-214  element (i, j) of the array zoomed to rows x cols *)
Definition zoom64 (a : farr) (rows cols i j : Z) : option b64 := kernel64 a (zoom_coord64 (fa_rows a) rows i) (zoom_coord64 (fa_cols a) cols j).

(** Specification of the array kernels. *)
From Verif.Base Require Import Vec.

(** All elements lie in [lo, hi]. *)
Definition within (a : arr Qc) (lo hi : Qc) : Prop :=
  forall i j, 0 <= i < nrow a -> 0 <= j < ncol a -> (lo <= at2 a i j <= hi)%Qc.
(** Neighbouring elements differ by at most [G]. *)
Definition slope_le (a : arr Qc) (G : Qc) : Prop :=
  (forall i j, 0 <= i < nrow a - 1 -> 0 <= j < ncol a -> (qc_abs (at2 a (i + 1)%Z j - at2 a i j) <= G)%Qc) /\
  (forall i j, 0 <= i < nrow a -> 0 <= j < ncol a - 1 -> (qc_abs (at2 a i (j + 1)%Z - at2 a i j) <= G)%Qc).
(** Total intensity. *)
Definition flux (a : arr Qc) : Qc := zsum (nrow a) (fun i => zsum (ncol a) (fun j => at2 a i j)).
(** A single lit pixel. *)
Definition lit (nr nc p q : Z) (v : Qc) : arr Qc :=
  mkArr nr nc (fun i j => if (i =? p) && (j =? q) then v else 0%Qc).
(** numpy.fft.fftshift over both axes, and the point reflection of an array. *)
Definition fftshift {A} (a : arr A) : arr A :=
  mkArr (nrow a) (ncol a) (fun i j => at2 a ((i - nrow a / 2) mod nrow a) ((j - ncol a / 2) mod ncol a)).
Definition flip2 {A} (a : arr A) : arr A :=
  mkArr (nrow a) (ncol a) (fun i j => at2 a (nrow a - 1 - i) (ncol a - 1 - j)).
(** An interpolator reproduces the data at the grid points. *)
Definition interpolates (spl : arr Qc -> Qc -> Qc -> Qc) : Prop :=
  forall a i j, 0 <= i < nrow a -> 0 <= j < ncol a -> spl a (qz i) (qz j) = at2 a i j.
(** Sizes whose half rounds (ties to even) up: even sizes and 3, 7, 11, ... *)
Definition shiftable (n : Z) : Prop := Z.even n = true \/ n mod 4 = 3.

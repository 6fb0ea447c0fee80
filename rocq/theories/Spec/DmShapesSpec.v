(** Specification of influence functions. *)
From Verif.Base Require Import Vec.

(** Interpolation that depends linearly on the data. *)
Definition linear_spline (spl : arr Qc -> Qc -> Qc -> Qc) : Prop :=
  forall al be a b c, nrow a = nrow c -> ncol a = ncol c -> nrow b = nrow c -> ncol b = ncol c ->
    (forall i j, 0 <= i < nrow c -> 0 <= j < ncol c -> at2 c i j = al * at2 a i j + be * at2 b i j)%Qc ->
    forall x y, (spl c x y = al * spl a x y + be * spl b x y)%Qc.
(** Interpolation that treats both ends of both axes alike. *)
Definition even_spline (spl : arr Qc -> Qc -> Qc -> Qc) : Prop :=
  forall a b, nrow a = nrow b -> ncol a = ncol b ->
    ((forall i j, 0 <= i < nrow b -> 0 <= j < ncol b -> at2 b i j = at2 a (nrow a - 1 - i) j) ->
       forall x y, spl b x y = spl a (qz (nrow a - 1) - x)%Qc y) /\
    ((forall i j, 0 <= i < nrow b -> 0 <= j < ncol b -> at2 b i j = at2 a i (ncol a - 1 - j)) ->
       forall x y, spl b x y = spl a x (qz (ncol a - 1) - y)%Qc).

(** The spline of order one: a sum of hats. *)
Definition hat (t : Qc) : Qc := if qc_leb (qc_abs t) 1 then (1 - qc_abs t)%Qc else 0%Qc.
Definition hat_spline (a : arr Qc) (x y : Qc) : Qc :=
  zsum (nrow a) (fun i => zsum (ncol a) (fun j => at2 a i j * hat (x - qz i) * hat (y - qz j))%Qc).

(** Tilt, in arcsec, of a surface (nm) that changes by [d] from one element to the next, when [pupil] elements
    span the telescope of diameter [tel] (m); [asec]: radians per arcsec. *)
Definition tilt_arcsec (asec tel : Qc) (pupil : Z) (d : Qc) : Qc :=
  (d / qz 1000000000 / (tel / qz pupil) / asec)%Qc.

(** Commands of an n x n grid of actuators, as a vector with x outermost, mirrored in x or in y. *)
Definition mirror_x (n : nat) (cs : vec) : vec :=
  flat_map (fun x => map (fun y => nth ((n - 1 - x) * n + y) cs 0%Qc) (seq 0 n)) (seq 0 n).
Definition mirror_y (n : nat) (cs : vec) : vec :=
  flat_map (fun x => map (fun y => nth (x * n + (n - 1 - y)) cs 0%Qc) (seq 0 n)) (seq 0 n).

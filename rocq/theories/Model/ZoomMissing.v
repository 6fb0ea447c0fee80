(** soapy/interp.py:141-201  zoomWithMissingData: interpolation of an array with missing elements. *)
From Verif.Base Require Import Vec.

(** A float: None is NaN. *)
Definition fl := option Qc.
(** == of numpy: NaN differs from everything, itself included. *)
Definition fl_eq (a b : fl) : bool := match a, b with Some x, Some y => qc_eqb x y | _, _ => false end.
(** soapy/interp.py:177-182  (arange(n) - n/2 + 0.5) / (n/2) *)
Definition coord (n i : Z) : Qc := ((qz i - qz n / qz 2 + 1 / qz 2) / (qz n / qz 2))%Qc.
(** The elements of an (n, m) array, row by row. *)
Definition cells (n m : Z) : list (Z * Z) := flat_map (fun i => map (fun j => (Z.of_nat i, Z.of_nat j)) (seq 0 (Z.to_nat m))) (seq 0 (Z.to_nat n)).

Section Zoom.
  (** scipy.interpolate.griddata(points, values, xi): the value at one point, from the samples *)
  Variable griddata : list (Qc * Qc * fl) -> Qc -> Qc -> fl.
  (** soapy/interp.py:176-191, 195-198  one (n, m) array to newSize (p, q): the shape and the values.  meshgrid puts x along the last axis, so x, y have
      shape (m, n) and the mask [idx] has shape (n, m): IndexError unless n = m. *)
  Definition zoom_2d (n m p q : Z) (bad : fl) (arr : Z -> Z -> fl) : result (Z * Z * (Z -> Z -> fl)) :=
    if (n =? m) then
      let valid := filter (fun ij => negb (fl_eq (arr (fst ij) (snd ij)) bad)) (cells n m) in
      let samples := map (fun ij => (coord n (snd ij), coord m (fst ij), arr (fst ij) (snd ij))) valid in
      Ok (q, p, fun a b => griddata samples (coord p b) (coord q a))
    else Err IndexError.
  (** soapy/interp.py:192-201  a stack of k arrays; the (q, p) results are assigned into (p, q) arrays: ValueError unless p = q *)
  Definition zoom_3d (k n m p q : Z) (bad : fl) (arr : Z -> Z -> Z -> fl) : result (Z -> Z -> Z -> fl) :=
    if (n =? m) then
      if (p =? q) then Ok (fun c a b => match zoom_2d n m p q bad (arr c) with Ok (_, z) => z a b | Err _ => None end)
      else Err ValueError
    else Err IndexError.
  (** soapy/DM.py:253-277  CustomShapes: the first [acts] of the shapes of the file, zoomed to p x p with zeros made NaN and NaN given as the missing value
      (unless already p x p), NaN made 0 at the end.  AssertionError for too few shapes. *)
  Definition zero_to_nan (x : fl) : fl := match x with Some v => if qc_eqb v 0 then None else Some v | None => None end.
  Definition nan_to_zero (x : fl) : Qc := match x with Some v => v | None => 0%Qc end.
  Definition custom_shapes (acts k n m p : Z) (file : Z -> Z -> Z -> fl) : result (Z -> Z -> Z -> Qc) :=
    if (k <? acts) then Err AssertionError
    else
      let* shapes := if negb (n =? p) || negb (m =? p) then zoom_3d acts n m p p None (fun c i j => zero_to_nan (file c i j)) else Ok file in
      Ok (fun c i j => nan_to_zero (shapes c i j)).
End Zoom.

(** Specification of the moving atmosphere. *)
From Verif.Base Require Import Vec.
From Verif.Model Require Import Atmos.

(** The window of [s] samples starting at [off] lies inside the stored 0..W-1. *)
Definition inside (W s : Z) (off : Qc) : Prop := (0 <= off)%Qc /\ (off + qz (s - 1) <= qz (W - 1))%Qc.
(** An interpolator of screens of size W returns the stored values at integer coordinates, and uses only the
    stored values. *)
Definition spl_exact (W : Z) (spl : screen -> Qc -> Qc -> Qc) : Prop :=
  (forall f i j, 0 <= i < W -> 0 <= j < W -> spl f (qz i) (qz j) = f i j) /\
  (forall f g x y, (forall i j, 0 <= i < W -> 0 <= j < W -> f i j = g i j) -> spl f x y = spl g x y).
(** Where the window starts: at the far end of the screen for a wind towards smaller coordinates. *)
Definition start (W s : Z) (v : Qc) : Z := if qc_ltb v 0 then W - s else 0.
(** The window starting at [off] touches neither end. *)
Definition strictly_inside (W s : Z) (off : Qc) : Prop := (0 <= off)%Qc /\ (off + qz s < qz W)%Qc.
(** [g] is [f] rolled cyclically by (kx, ky). *)
Definition rolled (W kx ky : Z) (f g : screen) : Prop :=
  forall i j, 0 <= i < W -> 0 <= j < W -> g i j = f ((i - kx) mod W) ((j - ky) mod W).
(** Linear interpolation, at a rational position, of a sequence of rows indexed by the integers. *)
Definition lin_rows (G : Z -> irow) (x : Qc) (j : Z) : Qc :=
  let m := qc_floor x in (G m j + (G (m + 1)%Z j - G m j) * (x - qz m))%Qc.
(** All rows of an infinite screen that ever exist: row k >= 0 is the k-th row generated, rows -1, -2, ... are
    the rows present at the start, from the newest on. *)
Definition all_rows (row : nat -> irow) (init : list irow) (k : Z) : irow :=
  if k <? 0 then nth (Z.to_nat (- k - 1)) init (fun _ => 0%Qc) else row (Z.to_nat k).

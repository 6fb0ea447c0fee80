(** What the pyramid theorems talk about. *)
From Coq Require Import ZArith Reals List.
From Coquelicot Require Import Complex.
From Verif.Base Require Import Py CSum.
From Verif.Model Require Import Pyramid.
Open Scope R_scope.

(** Light in a square image of side n. *)
Definition light (n : Z) (f : Z -> Z -> R) : R := rsum n (fun i => rsum n (fun j => f i j)).
(** Every pixel of the mask is either open or closed. *)
Definition binary_mask (c : pyr) : Prop := forall i j, y_mask c i j = 0 \/ y_mask c i j = 1.
(** The same wavefront with a piston added. *)
Definition piston (p : R) (phase : Z -> Z -> R) : Z -> Z -> R := fun i j => phase i j + p.
(** The sensor could be built. *)
Definition built (c : pyr) : Prop := exists ns, pyr_build (y_N c) (y_P c) (y_n c) (y_sep c) = Ok ns.
(** Two images with the same pixels. *)
Definition same_image (n : Z) (f g : Z -> Z -> R) : Prop := forall i j, (0 <= i < n)%Z -> (0 <= j < n)%Z -> f i j = g i j.
(** An n x n image, or wavefront, turned upside down, and with rows and columns exchanged. *)
Definition upside_down (n : Z) (f : Z -> Z -> R) : Z -> Z -> R := fun i j => f (n - 1 - i)%Z j.
Definition transposed (f : Z -> Z -> R) : Z -> Z -> R := fun i j => f j i.
(** The pupil mask looks the same upside down, and with rows and columns exchanged. *)
Definition symmetric_mask (c : pyr) : Prop :=
  same_image (y_N c) (upside_down (y_N c) (y_mask c)) (y_mask c) /\ same_image (y_N c) (transposed (y_mask c)) (y_mask c).
Definition symmetric_subaps (c : pyr) : Prop := forall i j, y_sub c i j = y_sub c j i.
(** The two signals of a measurement: the sum of the first half of the slopes, and of the second. *)
Definition signal_x (c : pyr) (s : list R) : R := rlsum (firstn (slope_size c / 2) s).
Definition signal_y (c : pyr) (s : list R) : R := rlsum (skipn (slope_size c / 2) s).

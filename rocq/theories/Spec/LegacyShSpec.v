(** What the theorems on the legacy Shack-Hartmann sensor talk about. *)
From Verif.Base Require Import Vec.
From Verif.Model Require Import Numerics Sh.
From Verif.Model Require Import LegacySh.
From Verif.Spec Require Import NumericsSpec ShSpec.

(** Sub-apertures, pixels, a field stop or a doubled field. *)
Definition leg_sane (g : legacy) : Prop := 1 <= g_nx g /\ 1 <= g_px g /\ (g_over g = 1 \/ g_over g = 2).
(** Detector pixels along a side. *)
Definition leg_side (g : legacy) : Z := g_nx g * g_px g.
(** An image of side n drawn with its first pixel at (a, b): the light it puts on pixel (u, v). *)
Definition laid (n a b : Z) (img : arr Qc) (u v : Z) : Qc :=
  if (0 <=? u - a) && (u - a <? n) && (0 <=? v - b) && (v - b <? n) then at2 img (u - a) (v - b) else 0%Qc.
(** Twice the distance, in pixels, between the middle of an image of side n whose first pixel is at a, and the middle of the window of
    the sub-aperture in row (or column) x. *)
Definition off_centre2 (p n x a : Z) : Z := (2 * a + n) - (2 * (x * p) + p).
(** The sub-apertures the code can place: all with a field stop; with a doubled field, of a grid of more than one sub-aperture with an
    even number of pixels. *)
Definition placeable (g : legacy) : Prop := g_over g = 1 \/ (2 <= g_nx g /\ Z.even (leg_side g) = true).
(** Light put on a detector by a list of images. *)
Definition lit_by (g : legacy) (first : Z -> Z) (subs : list ((Z * Z) * arr Qc)) (u v : Z) : Qc :=
  lsum (map (fun s => laid (g_over g * g_px g) (first (fst (fst s))) (first (snd (fst s))) (snd s) u v) subs).

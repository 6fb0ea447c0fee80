(** What the lower bounds of the Strehl ratio talk about. *)
From Coq Require Import Reals.
From Verif.Base Require Import Vec CSum.
From Verif.Model Require Import Science.
From Verif.Spec Require Import ScienceSpec.
Local Open Scope R_scope.

(** The share of the light of a flat wavefront that falls on the detector: its image's sum, over the sum over the whole focal plane. *)
Definition caught (k : cam) : R :=
  let g := k_geom k in
  img_sum (k_nx k) (sci_raw k (fun _ _ => 0)) /
  total (g_fft g) (fun i j => cnorm2 (sci_focus (g_fft g) (g_fov g) (sci_field (k_mask k) (fun _ _ => 0)) i j)).
(** Two wavefronts within [B] (in radians) of each other over the aperture *)
Definition phases_within (k : cam) (B : R) (p q : image) : Prop :=
  forall a b, (0 <= a < g_fov (k_geom k))%Z -> (0 <= b < g_fov (k_geom k))%Z -> Rabs (p a b - q a b) <= B.

(** From the phase on a line of sight to a science camera. *)
From Coq Require Import Reals.
From Verif.Base Require Import Vec CSum.
From Verif.Model Require Import Science Sampling.
From Verif.Spec Require Import ScienceSpec LoopSpec.
Local Open Scope R_scope.

(** The wavefront a camera makes of the pixels [p] (row by row) of its line of sight of (pupil + 2 pad) x (pupil + 2 pad) *)
Definition wavefront (k : cam) (pupil pad : Z) (p : vec) : image :=
  sci_phase pupil pad (g_fov (k_geom k)) (fun i j => qr (elem p (Z.to_nat (i * (pupil + 2 * pad) + j)))).
(** A camera built for that line of sight: with sizes the library computes, an even transform, no oversampling, and an aperture that passes light
    and nowhere has a negative transmission *)
Definition camera_on (k : cam) (pupil pad : Z) : Prop :=
  (0 < pupil)%Z /\ (0 < pad)%Z /\ (0 < k_nx k)%Z /\
  (exists os ratio fuel n, (0 < ratio)%Qc /\ sci_geometry pupil (pupil + 2 * pad) (k_nx k) os ratio fuel = Some (Ok (k_geom k)) /\ focal_check (k_geom k) = Ok n) /\
  Z.even (g_fft (k_geom k)) = true /\ g_os (k_geom k) = 1%Z /\ lit k /\ mask_nonneg k.

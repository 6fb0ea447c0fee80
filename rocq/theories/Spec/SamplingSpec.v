(** Specification: tilted wavefronts and displaced images. *)
From Coq Require Import ZArith Reals.
From Verif.Base Require Import Vec CSum.
From Verif.Model Require Import Science ShOptics.
From Verif.Spec Require Import ShOpticsSpec.
From Verif.Model Require Import Sampling.
Open Scope R_scope.

(** The phase along the line of sight, [step] metres per element, of a wavefront tilted by the angles (alpha, beta). *)
Definition tilted_phase (lambda step alpha beta : R) (los : Z -> Z -> R) (p q : Z) : R := los p q + tilt_phase lambda step alpha beta p q.
(** An image displaced by (m, n) pixels, where both the place and its origin are on the n x n detector. *)
Definition displaced (nx m n : Z) (before after : Z -> Z -> R) : Prop :=
  forall i j, (0 <= i < nx)%Z -> (0 <= j < nx)%Z -> (0 <= i - m < nx)%Z -> (0 <= j - n < nx)%Z -> after i j = before (i - m)%Z (j - n)%Z.
(** A camera the library can build with a telescope of [D] metres and [pupil] elements, the science phase in [lambda] metres, field of view
    [fov] radians; the number of elements of the field of view is taken from [waves] = D * fov / lambda. *)
Definition camera_of (k : cam) (pupil pad : Z) (waves : Qc) (D lambda fov : R) : Prop :=
  (0 < pupil)%Z /\ (1 < pad)%Z /\ (0 < k_nx k)%Z /\ (0 < waves)%Qc /\ 0 < D /\ 0 < lambda /\ qr waves = D * fov / lambda /\
  Z.even (g_fft (k_geom k)) = true /\
  exists os fuel n, sci_geometry pupil (pupil + 2 * pad) (k_nx k) os waves fuel = Some (Ok (k_geom k)) /\ focal_check (k_geom k) = Ok n.
(** The configured angle per pixel, and the angle that moves the image by one pixel: there are [g_fov] elements across the aperture, the first
    and the last on its edges, and [g_factor] times as many pixels as on the detector in the whole focal plane. *)
Definition configured_scale (k : cam) (fov : R) : R := fov / IZR (k_nx k).
Definition true_scale (k : cam) (D lambda : R) : R :=
  lambda * (IZR (g_fov (k_geom k)) - 1) / (D * (IZR (k_nx k) * IZR (g_factor (k_geom k)))).
(** The angle that moves a spot by one pixel, for a phase of [sim] elements of [step] metres zoomed to [N] elements. *)
Definition true_spot_scale (o : optics) (step : R) (sim N : Z) : R :=
  s_lambda o * (IZR N - 99999999 / 100000000) / (IZR (s_px o) * IZR (s_over o) * step * IZR (sim - 1)).
(** The camera behind a transposed aperture. *)
Definition with_mask (k : cam) (mask : image) : cam := mkCam (k_geom k) (k_nx k) mask.

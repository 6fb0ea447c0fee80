(** What the theorems on Shack-Hartmann spots talk about. *)
From Coq Require Import ZArith Reals.
From Flocq Require Import Core.
From Coquelicot Require Import Complex.
From Verif.Base Require Import CSum.
From Verif.Model Require Import ShOptics.
Open Scope R_scope.

(** A sensor that can be built: positive sizes, a field of view of at least half a wavelength over the sub-aperture, and a transform no
    smaller than the field it is given. *)
Definition usable (o : optics) : Prop :=
  0 < s_d o /\ 0 < s_lambda o /\ 0 < s_fov o /\ (s_over o = 1 \/ s_over o = 2)%Z /\ (0 < s_px o)%Z /\ (0 < s_os o)%Z /\ (0 < nx_interp o <= fft_pad o)%Z.
(** The configured angle per detector pixel (radians): field of view over pixels. *)
Definition pixel_scale (o : optics) : R := s_fov o / IZR (s_px o).
(** The phase (radians) of a wavefront tilted by the angles (alpha, beta), at element (u, v) of a grid of [step] metres. *)
Definition tilt_phase (lambda step alpha beta : R) (u v : Z) : R := 2 * PI / lambda * (alpha * (step * IZR u) + beta * (step * IZR v)).
(** The field with that tilt added; the interpolated field has [nx_interp] elements across a sub-aperture. *)
Definition tilted (o : optics) (alpha beta : R) (e : Z -> Z -> C) (u v : Z) : C :=
  (e u v * cis (tilt_phase (s_lambda o) (s_d o / IZR (nx_interp o)) alpha beta u v))%C.
(** An n x n image displaced by (m, k) pixels towards the origin, light that leaves on one side entering on the other. *)
Definition moved (n m k : Z) (f : Z -> Z -> R) (a b : Z) : R := f ((a + m) mod n)%Z ((b + k) mod n)%Z.
Definition same_on (n : Z) (f g : Z -> Z -> R) : Prop := forall a b, (0 <= a < n)%Z -> (0 <= b < n)%Z -> f a b = g a b.
(** Light, and the centre of light along the rows. *)
Definition all_light (n : Z) (f : Z -> Z -> R) : R := rsum n (fun a => rsum n (fun b => f a b)).
Definition row_centre (n : Z) (f : Z -> Z -> R) : R := rsum n (fun a => rsum n (fun b => IZR a * f a b)) / all_light n f.
(** An image that is the same turned by 180 degrees: it is centred on the middle of its n x n pixels. *)
Definition centred (n : Z) (f : Z -> Z -> R) : Prop := same_on n f (fun a b => f (n - 1 - a)%Z (n - 1 - b)%Z).
Definition flat (u v : Z) : C := RtoC 1.
(** Far-field intensity of the I x I field f at the spatial frequencies s / P and t / P cycles per element. *)
Definition far_intensity (I P : Z) (f : Z -> Z -> C) (s t : R) : R :=
  cnorm2 (csum I (fun a => csum I (fun b => f a b * cis (- (2 * PI * (s * IZR a + t * IZR b) / IZR P))))%C).
(** Where the light of a flat wavefront is centred on the (fft_pad x fft_pad) focal plane, in elements; the middle is (fft_pad - 1) / 2. *)
Definition spot_centre (o : optics) : R :=
  if (s_px o mod 2 =? 0)%Z then IZR (fft_pad o - 1) / 2 + (IZR (s_over o) * waves o / IZR (nx_interp o - 1) - 1) / 2
  else IZR (ZnearestE (IZR (fft_pad o) / 2)) - 1.

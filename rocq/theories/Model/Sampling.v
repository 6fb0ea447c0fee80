(** From the phase along the line of sight to the images: the interpolation in front of the Fourier transforms. *)
From Coq Require Import ZArith QArith Reals Qreals.
From Coquelicot Require Import Complex.
From Verif.Base Require Import Vec CSum.
From Verif.Model Require Import Science ShOptics.
Open Scope R_scope.

(** A coordinate as a real number. *)
Definition qr (x : Qc) : R := Q2R (this x).
(** soapy/numbalib/numbalib.py:98-115  bilinear_interp_numba_inbounds, one element; numba.int32 truncates *)
Definition bilin (data : Z -> Z -> R) (x y : Qc) : R :=
  let x1 := qc_int x in let y1 := qc_int y in
  let a1 := data x1 y1 + (data (x1 + 1)%Z y1 - data x1 y1) * (qr x - IZR x1) in
  let a2 := data x1 (y1 + 1)%Z + (data (x1 + 1)%Z (y1 + 1)%Z - data x1 (y1 + 1)%Z) * (qr x - IZR x1) in
  a1 + (a2 - a1) * (qr y - IZR y1).

(** soapy/scienceinstrument.py:152-154, 222-227  interp_phase: the phase of the line of sight at the points of [phase_coord] *)
Definition sci_phase (pupil pad F : Z) (los : Z -> Z -> R) : image :=
  fun a b => bilin los (phase_coord pupil pad (pupil + 2 * pad) F a) (phase_coord pupil pad (pupil + 2 * pad) F b).
(** soapy/scienceinstrument.py:311-330  the light on the detector in a frame, before it is scaled to a sum of one *)
Definition sci_image (k : cam) (pupil pad : Z) (los : Z -> Z -> R) : image := sci_raw k (sci_phase pupil pad (g_fov (k_geom k)) los).

(** soapy/numbalib/wfslib.py:26-40  zoomtoefield: where element i of N is sampled along an axis of n elements (without rounding) *)
Definition zoom_point (n N i : Z) : Qc := (qz i * qz (n - 1) / (qz N - qfrac 99999999 100000000))%Qc.
(** soapy/numbalib/wfslib.py:11-42  the field in front of the lenslets, from the phase along the line of sight *)
Definition sh_field (n N : Z) (los : Z -> Z -> R) (u v : Z) : C := efield (fun u v => bilin los (zoom_point n N u) (zoom_point n N v)) u v.

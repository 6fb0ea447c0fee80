(** The optics of one Shack-Hartmann sub-aperture, over exact real and complex numbers: from the interpolated field to the image
    that is placed on the detector. *)
From Coq Require Import ZArith Reals.
From Flocq Require Import Core.
From Coquelicot Require Import Complex.
From Verif.Base Require Import CSum.
From Verif.Model Require Import Numerics LgsReal.
Open Scope R_scope.

(** Configuration: sub-aperture diameter (m), wavelength (m), subapFOV in radians, SUBAP_OVERSIZE (1 with a field stop, else 2),
    pxlsPerSubap, and fftOversamp after initFFTs (soapy/wfs/shackhartmann.py:49-59, 71-74, 162-170). *)
Record optics := mkOptics { s_d : R; s_lambda : R; s_fov : R; s_over : Z; s_px : Z; s_os : Z }.

(** soapy/wfs/shackhartmann.py:67-68  subap_diam * subap_fov_rad / wavelength *)
Definition waves (o : optics) : R := s_d o * s_fov o / s_lambda o.
(** soapy/wfs/shackhartmann.py:67-68, 78  nx_subap_interp; round is to nearest, ties to even *)
Definition nx_interp (o : optics) : Z := (ZnearestE (waves o) * s_over o)%Z.
(** soapy/wfs/shackhartmann.py:79 *)
Definition n_over (o : optics) : Z := (s_over o * s_px o)%Z.
(** soapy/wfs/shackhartmann.py:162, 166-167  subapFFTPadding *)
Definition fft_pad (o : optics) : Z := (n_over o * s_os o)%Z.

(** soapy/wfs/shackhartmann.py:269-273  theta and A *)
Definition half_pixel (o : optics) : R := IZR (s_over o) * s_fov o / (2 * IZR (fft_pad o)).
Definition tilt_amp (o : optics) : R := half_pixel o * s_d o / (2 * s_lambda o) * 2 * PI.
(** soapy/wfs/shackhartmann.py:276  numpy.linspace(-1, 1, nx_subap_interp); of one element it is [-1] *)
Definition lin_coord (o : optics) (i : Z) : R :=
  if (nx_interp o <=? 1)%Z then -1 else -1 + IZR i * (2 / IZR (nx_interp o - 1)).
(** soapy/wfs/shackhartmann.py:266-282  tilt_fix: meshgrid makes X vary along columns, Y along rows *)
Definition tilt_fix (o : optics) (i j : Z) : R :=
  if (s_px o mod 2 =? 0)%Z then -1 * tilt_amp o * (lin_coord o j + lin_coord o i) else 0.

(** soapy/wfs/shackhartmann.py:337-341, soapy/numbalib/wfslib.py:45-55  the FFT input of the sub-aperture whose corner is (x, y) of
    the interpolated field [e]; [mask] is scaledMask *)
Definition fft_input (o : optics) (e : Z -> Z -> C) (mask : Z -> Z -> R) (x y i j : Z) : C :=
  if ((i <? nx_interp o) && (j <? nx_interp o))%Z%bool
  then (e (x + i)%Z (y + j)%Z * RtoC (mask (x + i)%Z (y + j)%Z) * cis (tilt_fix o i j))%C else RtoC 0.
(** soapy/wfs/shackhartmann.py:342-347, soapy/numbalib/numbalib.py:149-151 *)
Definition spot (o : optics) (e : Z -> Z -> C) (mask : Z -> Z -> R) (x y i j : Z) : R :=
  cnorm2 (ft_shift (fft_pad o) (dft2 (fft_pad o) (fft_input o e mask x y)) i j).
(** soapy/numbalib/wfslib.py:139-152  bin_imgs, one sub-aperture *)
Definition binned (os : Z) (f : Z -> Z -> R) (a b : Z) : R := rsum os (fun s => rsum os (fun t => f (a * os + s)%Z (b * os + t)%Z)).
(** soapy/wfs/shackhartmann.py:370-378  the image of a sub-aperture of fill factor [fill], before it is placed on the detector; one
    frame of relative intensity 1, without LGS uplink *)
Definition sub_image (o : optics) (e : Z -> Z -> C) (mask : Z -> Z -> R) (fill : R) (x y a b : Z) : R :=
  binned (s_os o) (spot o e mask x y) a b * fill.
(** soapy/numbalib/wfslib.py:11-42  zoomtoefield: the field of a phase (the interpolation is modelled in Model/Numerics.v) *)
Definition efield (phase : Z -> Z -> R) (u v : Z) : C := cis (phase u v).

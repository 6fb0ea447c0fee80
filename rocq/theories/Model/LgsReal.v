(** Laser guide stars: path differences of elongation layers, the geometric beacon image, and its convolution with the spots. *)
From Coq Require Import Reals.
From Coquelicot Require Import Complex.
From Verif.Base Require Import Vec CSum.
From Verif.Model Require Import Numerics Science.
Open Scope R_scope.

(** soapy/wfs/wfs.py:293-317  calcElongPhaseAddition: amplitudes of the focus and tilt terms (one component).  [h]: layer height, [gsH]: GSHeight,
    [H]: height of the LGS configuration, [d]: launch offset in metres, [D]: telescope diameter, [gs]: GSPosition as configured *)
Definition focal_path (lambda D h gsH H : R) : R :=
  2 * PI / lambda * ((sqrt ((D / 2) * (D / 2) + h * h) - sqrt ((D / 2) * (D / 2) + H * H)) - (h - gsH)).
Definition tilt_path (lambda D d gs h gsH H : R) : R :=
  let dh := h - gsH in
  let th := d / H - gs in
  2 * PI / lambda *
  (sqrt ((dh + H) * (dh + H) + ((dh + H) * th - d - D / 2) * ((dh + H) * th - d - D / 2))
   + sqrt (H * H + (D / 2 - d + H * th) * (D / 2 - d + H * th))
   - sqrt (H * H + (H * th - d - D / 2) * (H * th - d - D / 2))
   - sqrt ((dh + H) * (dh + H) + (D / 2 - d + (dh + H) * th) * (D / 2 - d + (dh + H) * th))).

(** ftShift2d (soapy/AOFFT.py:303-323) of a transform *)
Definition ft_shift (P : Z) (f : Z -> Z -> C) (i j : Z) : C := f (quad_ix P i) (quad_ix P j).
(** soapy/LGS.py:188-196  LGS_Geometric.getLgsPsf: the n x n field in the corner of a P x P transform *)
Definition beacon_psf (P n : Z) (e : Z -> Z -> C) (i j : Z) : R :=
  cnorm2 (ft_shift P (dft2 P (fun a b => if ((a <? n) && (b <? n))%Z%bool then e a b else RtoC 0)) i j).
(** soapy/wfs/shackhartmann.py:399-419  applyLgsUplink, one sub-aperture *)
Definition apply_uplink (P : Z) (spots psf : image) (i j : Z) : R :=
  fst (ft_shift P (dft2 P (fun x y => idft2 P (fun a b => RtoC (spots a b)) x y * idft2 P (fun a b => RtoC (psf a b)) x y)%C) (P - 1 - i) (P - 1 - j)).

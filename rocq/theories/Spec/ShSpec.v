(** What the Shack-Hartmann theorems talk about, in the terms of the configuration only. *)
From Verif.Base Require Import Vec.
From Verif.Model Require Import Numerics Sh.
From Verif.Spec Require Import NumericsSpec.

(** A sensor that makes sense: sub-apertures, pixels, no negative guard, field stop or doubled field. *)
Definition sane (c : sh) : Prop := 1 <= nx c /\ 1 <= npx c /\ 0 <= guard c /\ (over c = 1 \/ over c = 2).
(** Detector pixels along a side: one guard band before every sub-aperture and one at the end. *)
Definition det_side (n p g : Z) : Z := g + n * (p + g).
(** First detector pixel of the window of the sub-aperture in row (or column) x. *)
Definition window0 (p g x : Z) : Z := g + x * (p + g).
(** A sub-aperture image of side o*p, drawn on the detector centred on the window of its sub-aperture: the light
    it puts on pixel (u, v). *)
Definition drawn (p g o : Z) (q : Z * Z) (img : arr Qc) (u v : Z) : Qc :=
  let e := (o * p - p) / 2 in
  let i := u - (window0 p g (fst q) - e) in
  let j := v - (window0 p g (snd q) - e) in
  if (0 <=? i) && (i <? o * p) && (0 <=? j) && (j <? o * p) then at2 img i j else 0%Qc.
Definition square {A} (n : Z) (a : arr A) : Prop := nrow a = n /\ ncol a = n.
Definition on_grid (n : Z) (q : Z * Z) : Prop := 0 <= fst q < n /\ 0 <= snd q < n.
(** Light of an image that falls on the detector. *)
Definition caught (n p g o : Z) (q : Z * Z) (img : arr Qc) : Qc :=
  zsum (det_side n p g) (fun u => zsum (det_side n p g) (fun v => drawn p g o q img u v)).
(** Photons of a star: flux at the zero point, times the collecting area in square metres, times the relative
    brightness of its magnitude, times the exposure time. *)
Definition star_photons (zp : Qc) (mask : arr Qc) (metres_per_pixel brightness seconds : Qc) : Qc :=
  (zp * (flux mask * metres_per_pixel * metres_per_pixel) * brightness * seconds)%Qc.

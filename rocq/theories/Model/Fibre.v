(** The single mode fibre of the science instruments. *)
From Coq Require Import Reals.
From Coquelicot Require Import Complex.
From Verif.Base Require Import Vec CSum.
From Verif.Model Require Import Science.
Local Open Scope R_scope.

(** aotools.gaussian2d((n, n), (w, w)), used by soapy/scienceinstrument.py:343-344: centred on n / 2 *)
Definition gaussian2d (n : Z) (w : R) : image :=
  fun i j => exp (- ((((IZR n / 2 - IZR j) / w) * ((IZR n / 2 - IZR j) / w) + ((IZR n / 2 - IZR i) / w) * ((IZR n / 2 - IZR i) / w)) / 2)).
(** soapy/scienceinstrument.py:342-345  fibreEfield *)
Definition fibre_mode (n : Z) (w : R) : image :=
  fun i j => gaussian2d n w i j / sqrt (img_sum (n * 3) (fun a b => gaussian2d (n * 3) w a b * gaussian2d (n * 3) w a b)).
(** soapy/scienceinstrument.py:335 *)
Definition norm_mask (n : Z) (mask : image) : image := fun i j => mask i j / sqrt (img_sum n (fun a b => mask a b * mask a b)).
(** soapy/scienceinstrument.py:337, 348-349  [1 - refCouplingLoss] *)
Definition ref_strehl (n : Z) (w : R) (mask : image) : R :=
  1 - (1 - Rabs (img_sum n (fun i j => fibre_mode n w i j * norm_mask n mask i j)) * Rabs (img_sum n (fun i j => fibre_mode n w i j * norm_mask n mask i j))).
(** soapy/lineofsight.py:257, 304, 343  the field along the line of sight in geometric propagation; phases in radians *)
Definition los_field (atmos correction : image) (i j : Z) : C := (RtoC 1 * cis (atmos i j) * cis (- correction i j))%C.
(** soapy/scienceinstrument.py:352-353 *)
Definition fibre_coupling (n : Z) (w : R) (mask : image) (field : Z -> Z -> C) : R :=
  cnorm2 (csum n (fun i => csum n (fun j => RtoC (fibre_mode n w i j) * field i j * RtoC (norm_mask n mask i j)))%C).

(** the attributes the instrument shows: fibreSize (as scipy's minimiser left it), the mask, instStrehl, longExpStrehl *)
Record fibre := mkFibre { fb_n : Z; fb_size : R; fb_mask : image; fb_inst : R; fb_long : R }.
(** soapy/scienceinstrument.py:334-339 after 171-175: a new one *)
Definition fibre_new (n : Z) (w : R) (mask : image) : fibre := mkFibre n w mask 0 0.
(** numpy's broadcasting of one axis *)
Definition broadcast (a b : Z) : result Z := if (a =? b)%Z then Ok a else if (a =? 1)%Z then Ok b else if (b =? 1)%Z then Ok a else Err ValueError.
(** soapy/scienceinstrument.py:98-106 with soapy/lineofsight.py:247-248: size of the field of the line of sight *)
Definition field_size (physical : bool) (g : geom) (sim : Z) : Z := if physical then g_padfov g else sim.
(** soapy/scienceinstrument.py:321-327 with 352-353: a frame; the image it makes as well is that of the camera (Model/Science.v).  The
    field has [size] elements along each axis *)
Definition fibre_frame (size : Z) (field : Z -> Z -> C) (f : fibre) : result fibre :=
  match broadcast (fb_n f) size with
  | Err e => Err e
  | Ok _ => Ok (mkFibre (fb_n f) (fb_size f) (fb_mask f) (fibre_coupling (fb_n f) (fb_size f) (fb_mask f) field) (fb_long f))
  end.
(** soapy/scienceinstrument.py:177-179 *)
Definition fibre_reset (f : fibre) : fibre := mkFibre (fb_n f) (fb_size f) (fb_mask f) 0 0.
(** what a simulation does with it in geometric propagation *)
Inductive fibre_act := FFrame (atmos correction : image) | FReset.
Fixpoint fibre_run (acts : list fibre_act) (f : fibre) : result fibre :=
  match acts with
  | nil => Ok f
  | FReset :: t => fibre_run t (fibre_reset f)
  | FFrame a c :: t => match fibre_frame (fb_n f) (los_field a c) f with Err e => Err e | Ok f' => fibre_run t f' end
  end.

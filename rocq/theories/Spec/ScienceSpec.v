(** What the science camera theorems talk about. *)
From Coq Require Import Reals.
From Coquelicot Require Import Complex.
From Verif.Base Require Import Vec CSum.
From Verif.Model Require Import Science.
Open Scope R_scope.

(** The far field of an F x F aperture at spatial frequency (u, v) / P cycles per element. *)
Definition far_field (F P : Z) (e : Z -> Z -> C) (u v : Z) : C :=
  csum F (fun a => csum F (fun b => e a b * cis (- (2 * PI * IZR (u * a + v * b) / IZR P))))%C.
(** Sum over an n x n array. *)
Definition total (n : Z) (d : Z -> Z -> R) : R := rsum n (fun i => rsum n (fun j => d i j)).
(** Mean and variance of a phase over the open elements of a binary mask. *)
Definition pupil_mean (n : Z) (mask phase : Z -> Z -> R) : R := total n (fun i j => mask i j * phase i j) / total n mask.
Definition pupil_var (n : Z) (mask phase : Z -> Z -> R) : R :=
  total n (fun i j => mask i j * ((phase i j - pupil_mean n mask phase) * (phase i j - pupil_mean n mask phase))) / total n mask.
Definition binary (n : Z) (mask : Z -> Z -> R) : Prop := forall i j, (0 <= i < n)%Z -> (0 <= j < n)%Z -> mask i j = 0 \/ mask i j = 1.
(** Sum of a list of images. *)
Definition img_total (ds : list (Z -> Z -> R)) (i j : Z) : R := fold_right (fun d s => d i j + s) 0 ds.
(** A camera the library can build: sizes as computed from a pupil, a padding, a field of view and a detector, and consistent. *)
Definition camera (k : cam) : Prop :=
  exists pupil pad os ratio fuel n, (0 < pupil)%Z /\ (0 < pad)%Z /\ (0 < k_nx k)%Z /\ (0 < ratio)%Qc /\
    sci_geometry pupil (pupil + 2 * pad) (k_nx k) os ratio fuel = Some (Ok (k_geom k)) /\ focal_check (k_geom k) = Ok n.
(** Some of the aperture is open. *)
Definition lit (k : cam) : Prop := exists a b, (0 <= a < g_fov (k_geom k))%Z /\ (0 <= b < g_fov (k_geom k))%Z /\ k_mask k a b <> 0.
Definition mask_nonneg (k : cam) : Prop := forall a b, (0 <= a < g_fov (k_geom k))%Z -> (0 <= b < g_fov (k_geom k))%Z -> 0 <= k_mask k a b.

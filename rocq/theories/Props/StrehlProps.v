(** C187: how small the Strehl ratio can get.  Vocabulary: Spec/ScienceSpec.v and Spec/StrehlSpec.v. *)
From Coq Require Import Reals.
From Verif.Base Require Import Vec CSum CSumFacts.
From Verif.Model Require Import Science.
From Verif.Spec Require Import ScienceSpec.
From Verif.Spec Require Import StrehlSpec.
From Verif.Proofs Require Import ScienceProofs ScienceFourier ScienceStrehl.
From Verif.Proofs Require Import StrehlProofs.
From Verif.Props Require Import ScienceProps.
From Coq Require Import Lra Lia.
Local Open Scope R_scope.

(** C187: without oversampling and with an uncropped focal plane (even transform, aperture without negative transmission), no wavefront has a Strehl
    ratio of either kind below 1 minus its variance over the aperture (Marechal)... *)
Theorem C187_marechal :
  forall (k : cam) (phase : image), camera k -> Z.even (g_fft (k_geom k)) = true -> lit k -> mask_nonneg k -> g_os (k_geom k) = 1%Z -> g_factor (k_geom k) = 1%Z ->
    exists s t, inst_strehl k true phase = Some s /\ inst_strehl k false phase = Some t /\
      1 - pupil_var (g_fov (k_geom k)) (k_mask k) phase <= s /\ s <= t.
Proof. exact strehl_marechal. Qed.
Print Assumptions C187_marechal.
(** ... with a cropped focal plane, whatever the crop, below that times the share of the flat wavefront's light that the detector catches... *)
Theorem C187_cropped :
  forall (k : cam) (phase : image), camera k -> Z.even (g_fft (k_geom k)) = true -> lit k -> mask_nonneg k -> g_os (k_geom k) = 1%Z ->
    exists s t, inst_strehl k true phase = Some s /\ inst_strehl k false phase = Some t /\
      (1 - pupil_var (g_fov (k_geom k)) (k_mask k) phase) * caught k <= s /\ s <= t /\ 0 < caught k <= 1.
Proof. exact strehl_marechal_cropped. Qed.
Print Assumptions C187_cropped.
(** ... and two wavefronts within B radians of each other have Strehl ratios (central pixel) whose square roots differ by at most B. *)
Theorem C187_close :
  forall (k : cam) (B : R) (p q : image), camera k -> Z.even (g_fft (k_geom k)) = true -> lit k -> mask_nonneg k -> g_os (k_geom k) = 1%Z -> g_factor (k_geom k) = 1%Z ->
    phases_within k B p q ->
    exists s t, inst_strehl k true p = Some s /\ inst_strehl k true q = Some t /\ Rabs (sqrt s - sqrt t) <= B.
Proof. exact strehl_close. Qed.
Print Assumptions C187_close.
(** The camera of C60_centre_instance, with a step of half a radian. *)
Definition step (a b : Z) : R := if (a =? 0)%Z then / 2 else 0.
Example C187_instance :
  camera plain_cam /\ Z.even (g_fft (k_geom plain_cam)) = true /\ lit plain_cam /\ mask_nonneg plain_cam /\ g_os (k_geom plain_cam) = 1%Z /\ g_factor (k_geom plain_cam) = 1%Z /\
  phases_within plain_cam (/ 2) step (fun _ _ => 0) /\ pupil_var (g_fov (k_geom plain_cam)) (k_mask plain_cam) step = / 18 /\ caught plain_cam = 1.
Proof.
  destruct C60_centre_instance as (A & B & C & D & E). repeat (split; [assumption || reflexivity|]). split; [|split].
  - intros a b _ _. unfold step. destruct (a =? 0)%Z; rewrite Rminus_0_r; [rewrite Rabs_pos_eq|rewrite Rabs_R0]; lra.
  - unfold pupil_var, pupil_mean, total, rsum, step, plain_cam. cbn. change (Pos.to_nat 3) with 3%nat. cbn. field.
  - apply caught_all; auto.
Qed.

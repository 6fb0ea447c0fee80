(** C167: removing the tip and tilt common to several sensors (LgsTT.removeCommonTT, soapy/reconstruction.py:803-829). *)
From Verif.Base Require Import Vec.
From Verif.Model Require Import Recon Control.
From Verif.Spec Require Import CommonTtSpec.
From Verif.Proofs Require Import CommonTtProofs.

(** ** C167.  Full property: for any sensors, the mean x slope and the mean y slope over all of them are removed
    from their slopes.  Proved when the sensors have equally many sub-apertures. *)
Theorem C167_removed_partial :
  forall (ws : list sensor) (n : nat) (l : list nat) (bs : readings),
    Forall (has_active ws n) l -> length l = length bs -> readings_of n bs ->
    remove_common_tt ws (slopes_of bs) l = Ok (slopes_of (tilted (- mean_of (all_x bs)) (- mean_of (all_y bs)) bs)).
Proof. exact removed. Qed.
Print Assumptions C167_removed_partial.
(** So nothing of it is left, ... *)
Theorem C167_zero_partial :
  forall (n : nat) (bs : readings), (0 < n)%nat -> readings_of n bs -> bs <> [] ->
    mean_of (all_x (tilted (- mean_of (all_x bs)) (- mean_of (all_y bs)) bs)) = 0%Qc /\
    mean_of (all_y (tilted (- mean_of (all_x bs)) (- mean_of (all_y bs)) bs)) = 0%Qc.
Proof. exact mean_zero. Qed.
Print Assumptions C167_zero_partial.
(** ... a tip and tilt added to every sensor makes no difference, and removing twice is removing once. *)
Theorem C167_insensitive_partial :
  forall (ws : list sensor) (n : nat) (l : list nat) (bs : readings) (cx cy : Qc),
    (0 < n)%nat -> Forall (has_active ws n) l -> length l = length bs -> readings_of n bs ->
    remove_common_tt ws (slopes_of (tilted cx cy bs)) l = remove_common_tt ws (slopes_of bs) l.
Proof. exact insensitive. Qed.
Print Assumptions C167_insensitive_partial.
Theorem C167_twice_partial :
  forall (ws : list sensor) (n : nat) (l : list nat) (bs : readings) (r : vec),
    (0 < n)%nat -> Forall (has_active ws n) l -> length l = length bs -> readings_of n bs ->
    remove_common_tt ws (slopes_of bs) l = Ok r -> remove_common_tt ws r l = Ok r.
Proof. exact twice. Qed.
Print Assumptions C167_twice_partial.
(** REFUTED for sensors of different sizes, as each sensor's place is computed from its own size: with the
    smaller first the call raises ValueError, ... *)
Theorem C167_smaller_first_refuted :
  forall (ws : list sensor) (a b w0 w1 : nat) (sl : vec),
    (0 < a)%nat -> (a < b)%nat -> has_active ws a w0 -> has_active ws b w1 -> length sl = (2 * a + 2 * b)%nat ->
    remove_common_tt ws sl [w0; w1] = Err ValueError.
Proof. exact smaller_first. Qed.
Print Assumptions C167_smaller_first_refuted.
(** ... and with the larger first the last slope is returned as it came, whatever the common tilt. *)
Theorem C167_larger_first_refuted :
  forall (ws : list sensor) (a b w0 w1 : nat) (sl r : vec),
    (0 < b)%nat -> (b < a)%nat -> has_active ws a w0 -> has_active ws b w1 -> length sl = (2 * a + 2 * b)%nat ->
    remove_common_tt ws sl [w0; w1] = Ok r -> last r 0%Qc = last sl 0%Qc.
Proof. exact larger_first. Qed.
Print Assumptions C167_larger_first_refuted.

(** Two sensors of two sub-apertures: x slopes 1 3 and 5 7 have mean 4, y slopes 0 2 and 2 0 mean 1.  Sensors of
    one and two, and of two and one, sub-apertures seeing nothing but the tilt 1: ValueError, and slopes left at
    1 where there should be none. *)
Definition ctt_ws : list sensor := [mkSensor 4 None (Some 2%nat); mkSensor 4 None (Some 2%nat); mkSensor 2 None (Some 1%nat)].
Example C167_instance :
  (Forall (has_active ctt_ws 2) [0; 1]%nat /\
   readings_of 2 [([qz 1; qz 3], [qz 0; qz 2]); ([qz 5; qz 7], [qz 2; qz 0])] /\
   remove_common_tt ctt_ws [qz 1; qz 3; qz 0; qz 2; qz 5; qz 7; qz 2; qz 0] [0; 1]%nat
   = Ok [qz (-3); qz (-1); qz (-1); qz 1; qz 1; qz 3; qz 1; qz (-1)]) /\
  (has_active ctt_ws 1 2 /\ remove_common_tt ctt_ws (repeat (qz 1) 6) [2; 0]%nat = Err ValueError) /\
  (exists r, remove_common_tt ctt_ws (repeat (qz 1) 6) [0; 2]%nat = Ok r /\ nth 5 r 0%Qc = qz 1).
Proof.
  split; [split; [|split]|split; [split|]].
  - repeat constructor; eexists; split; reflexivity.
  - repeat constructor.
  - vm_compute; repeat f_equal; qc_compute.
  - eexists; split; reflexivity.
  - vm_compute. reflexivity.
  - eexists. split; [reflexivity|]. vm_compute. repeat f_equal; qc_compute.
Qed.

(** Definitions used by the common tip-tilt theorems. *)
From Verif.Base Require Import Vec.
From Verif.Model Require Import Recon Control.

(** The measurements of several sensors: of each, all its x slopes and then all its y slopes. *)
Definition readings := list (vec * vec).
Definition slopes_of (bs : readings) : vec := flat_map (fun b => fst b ++ snd b) bs.
Definition all_x (bs : readings) : vec := flat_map fst bs.
Definition all_y (bs : readings) : vec := flat_map snd bs.
(** each sensor has [n] sub-apertures *)
Definition readings_of (n : nat) (bs : readings) : Prop := Forall (fun b => length (fst b) = n /\ length (snd b) = n) bs.
(** sensor [w] exists and says it has [n] active sub-apertures *)
Definition has_active (ws : list sensor) (n : nat) (w : nat) : Prop :=
  exists s, nth_error ws w = Some s /\ s_active s = Some n.
(** the mean of some slopes *)
Definition mean_of (v : vec) : Qc := (lsum v / qz (Z.of_nat (length v)))%Qc.
(** the readings with one more tip and one more tilt in every slope *)
Definition tilted (cx cy : Qc) (bs : readings) : readings :=
  map (fun b => (map (fun v => v + cx)%Qc (fst b), map (fun v => v + cy)%Qc (snd b))) bs.

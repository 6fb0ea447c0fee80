(** Specification of the other reconstructors. *)
From Verif.Base Require Import Vec.
From Verif.Model Require Import Recon Control.

(** A matrix of r rows and c columns. *)
Definition shaped (r c : nat) (M : mat) : Prop := length M = r /\ Forall (fun x => length x = c) M.

(** Elements o .. o+n-1. *)
Definition segment {A} (o n : nat) (v : list A) : list A := firstn n (skipn o v).
(** The rows o .. o+n-1 and columns p .. p+q-1 of a matrix. *)
Definition submatrix (o n p q : nat) (M : mat) : mat := map (segment p q) (segment o n M).

(** A pseudo-inverse that never fails; transposed, it keeps the shape. *)
Definition inverts (pinvT : Qc -> mat -> result mat) : Prop :=
  forall c r k M, shaped r k M -> exists P, pinvT c M = Ok P /\ shaped r k P.

(** A mirror that names an existing WFS, and whose actuators have all been kept in calibration. *)
Definition attached (ws : list sensor) (m : mirror) : Prop :=
  exists w s, m_wfs m = Some w /\ nth_error ws w = Some s.
Definition all_kept (m : mirror) : Prop := n_valid (m_dm m) = Some (n_acts (m_dm m)).

(** A Shack-Hartmann-like sensor: it measures something; if it counts its sub-apertures (under either name)
    it makes two measurements for each. *)
Definition sensor_ok (s : sensor) : Prop :=
  (0 < s_meas s)%nat /\ (forall n, s_subaps s = Some n -> s_meas s = (2 * n)%nat)
  /\ (forall n, s_active s = Some n -> s_meas s = (2 * n)%nat).

(** The first WFS is a ShackHartmann of [n] measurements. *)
Definition first_sh (ws : list sensor) (n : nat) : Prop :=
  exists s r h, ws = s :: r /\ s_subaps s = Some h /\ n = (2 * h)%nat /\ s_meas s = n.

(** Deviation of element j of a record from its mean over all records. *)
Definition deviation (records : mat) (r : vec) (j : nat) : Qc :=
  (nth j r 0 - lsum (map (fun q => nth j q 0%Qc) records) / qz (Z.of_nat (length records)))%Qc.
(** Error of estimating the (deviation of the) i-th measurement as the combination [w] of the measurements
    n, n+1, ...; squared and summed over the records. *)
Definition estimate_error (records : mat) (n i : nat) (w : vec) (r : vec) : Qc :=
  (deviation records r i - lsum (map (fun k => nth k w 0 * deviation records r (n + k))%Qc (seq 0 (length w))))%Qc.
Definition sq_error (records : mat) (n i : nat) (w : vec) : Qc :=
  lsum (map (fun r => estimate_error records n i w r * estimate_error records n i w r)%Qc records).

(** P (transposed) is a generalised inverse of C: C * pinv * C = C. *)
Definition generalised_inverse (C PT : mat) : Prop :=
  forall i l, (i < length C)%nat -> (l < length C)%nat ->
    lsum (map (fun k => nth k (nth i C []) 0 * lsum (map (fun j => nth k (nth j PT []) 0 * nth l (nth j C []) 0)%Qc
                                                    (seq 0 (length C))))%Qc (seq 0 (length C)))
    = nth l (nth i C []) 0%Qc.

(** What numpy documents of pinv(M, c), on diagonal matrices: singular values not above c times the largest count as zero. *)
Definition cuts_off (pinvT : Qc -> mat -> result mat) : Prop :=
  forall c a b : Qc, (0 <= c)%Qc -> (c < 1)%Qc -> (0 < a)%Qc -> (0 <= b)%Qc -> (b <= c * a)%Qc -> pinvT c [[a; 0%Qc]; [0%Qc; b]] = Ok [[(1 / a)%Qc; 0%Qc]; [0%Qc; 0%Qc]].

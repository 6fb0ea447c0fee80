(** Specification of a loop whose control matrix is a pseudo-inverse. *)
From Verif.Base Require Import Vec.
From Verif.Model Require Import Recon Loop.
From Verif.Spec Require Import ReconSpec LoopSpec.

(** The measurements that the interaction matrix predicts for the commands [c]: its rows, one per actuator, times the commands. *)
Definition predicted (nmeas : nat) (imat : mat) (c : vec) : vec :=
  map (fun k => lsum (map (fun x => elem c x * elem (nth x imat []) k)%Qc (seq 0 (length imat)))) (seq 0 nmeas).
(** What every pseudo-inverse satisfies (inverse * matrix * inverse = inverse), whether or not small singular values have been cut off, and whether or
    not there are commands that no sensor sees: predicted measurements of reconstructed commands reconstruct to the same commands. *)
Definition pseudo_inverse (nmeas : nat) (imat ctrl : mat) : Prop :=
  length ctrl = length imat /\ forall s, length s = nmeas -> mvm ctrl (predicted nmeas imat (mvm ctrl s)) = mvm ctrl s.
(** A system calibrated with such a control matrix (compare [calibrated_system], whose control matrix recovers every single actuator). *)
Record projecting_system (fit : nat -> vec -> vec) (npix npx nmeas : nat) (wfss : list (list vec -> vec))
    (ds0 ds : list dm) (imat ctrl : mat) : Prop := mkPro {
  ps_fresh : Forall (fresh npix) ds0;
  ps_imat : make_imat fit npx wfss ds0 = (ds, Ok imat);
  ps_live : Forall (fun d => exists n, n_valid d = Some (S n)) ds;
  ps_fit : linear_fit npix npx fit;
  ps_wfs : Forall (linear_sensor (length ds0) npx) wfss;
  ps_nmeas : forall s, stack_ok (length ds0) npx s -> length (all_slopes wfss s) = nmeas;
  ps_pinv : pseudo_inverse nmeas imat ctrl }.
(** All mirrors in closed loop, with the gain [g]. *)
Definition all_closed_at (g : Qc) (ds : list dm) : Prop := Forall (fun d => closed d = true /\ gain d = g) ds.
(** The corrections are least-squares ones: what is left of the measurements is orthogonal to whatever the reconstructed commands can do. This also holds of
    every pseudo-inverse made from a singular value decomposition, cut off or not. *)
Definition least_squares (nmeas : nat) (imat ctrl : mat) : Prop :=
  forall s t, length s = nmeas -> length t = nmeas -> dot (vsub s (predicted nmeas imat (mvm ctrl s))) (predicted nmeas imat (mvm ctrl t)) = 0%Qc.
(** The share of the disturbance that is left in frame n of a loop with gain [g] and [dl] frames of delay, the disturbance being constant: all of it as long as no
    correction has reached the mirrors, and then less, in each frame, by [g] times what was left when the frame's correction was measured. *)
Definition left_over (g : Qc) (dl : nat) (E : nat -> Qc) : Prop :=
  (forall n, (n <= dl)%nat -> E n = 1%Qc) /\ forall k, (E (S (k + dl)) = E (k + dl)%nat - g * E k)%Qc.

(** Specification of a loop made of mirrors, lines of sight and sensors. *)
From Verif.Base Require Import Vec.
From Verif.Model Require Import Recon Numerics Dm Los Loop.
From Verif.Spec Require Import ReconSpec LoopSpec DmSpec LosSpec.
From Verif.Model Require Import Chain.

(** A mirror that fits screens of N x N: square influence functions, of an even number of elements more or less than the screens. *)
Definition mirror_ok (N : Z) (npix : nat) (m : mirror) : Prop :=
  0 < m_size m /\ Z.even (m_size m - N) = true /\ square_shapes (m_size m) (m_shapes m) /\ m_shapes m <> [] /\
  (Z.to_nat (m_size m * m_size m) <= npix)%nat.
(** A line of sight through screens of N x N and past [ndm] mirrors *)
Definition geom_ok (N : Z) (ndm : nat) (g : geom) : Prop :=
  g_nscrn g = N /\ g_rad g <> 0%Qc /\ (ndm <= length (g_dmalts g))%nat.
(** ... that has altitudes for all layers *)
Definition turbulence_ok (N : Z) (scrns : list (arr Qc)) (g : geom) : Prop := screens_ok N scrns /\ (length scrns <= length (g_alts g))%nat.
(** Slopes that are linear in the phase of [p] pixels *)
Definition linear_slopes (p : nat) (f : vec -> vec) : Prop :=
  (exists q, forall v, length v = p -> length (f v) = q) /\
  forall a u v, length u = p -> length v = p -> f (axpy a u v) = axpy a (f u) (f v).
Definition sensor_ok (N : Z) (ndm : nat) (w : sensor) : Prop :=
  geom_ok N ndm (s_geom w) /\ linear_slopes (Z.to_nat (g_nout (s_geom w) * g_nout (s_geom w))) (s_slopes w).
(** No phase on any pixel *)
Definition no_phase (r : result vec) : Prop := exists p, r = Ok p /\ Forall (fun x => x = 0%Qc) p.
(** Flat mirrors *)
Definition flat_mirrors (N : Z) (ms : list mirror) : list vec := repeat (vzero (Z.to_nat (N * N))) (length ms).
(** A calibrated system: every mirror keeps an actuator, and the control matrix recovers each of them from its row of the interaction matrix. *)
Definition calibrated_chain (N : Z) (npix nmeas : nat) (ms : list mirror) (ws : list sensor) (ds : list dm) (imat ctrl : mat) : Prop :=
  chain_imat N npix ms ws = (ds, Ok imat) /\ Forall (fun d => exists n, n_valid d = Some (S n)) ds /\
  length (concat (map (fun w => sensor_frame N None w (flat_mirrors N ms)) ws)) = nmeas /\
  length ctrl = length imat /\ forall x row, nth_error imat x = Some row -> mvm ctrl row = unit_vec (length imat) x.

(** Gains for which a mirror settles with a loop delay (Props/LoopProps.v C103) *)
Definition settles (loop_delay : nat) (m : mirror) : Prop :=
  if m_closed m then (0 < m_gain m)%Qc /\ (m_gain m <= 1)%Qc /\ (m_gain m * qz (Z.of_nat loop_delay) < 1)%Qc
  else (0 < m_gain m)%Qc /\ (m_gain m < 1 + 1)%Qc.

(** Specification for the stored calibration files. *)
From Verif.Base Require Import Vec.
From Verif.Model Require Import Recon Persist.

(** No influence function files in the directory (no version of this code writes one). *)
Definition no_shape_files (fs : fsys) : Prop := forall i, f_shapes fs i = Absent.

(** Every readable calibration file of the directory belongs to the calibration (ds, M). *)
Definition only_files_of (hdr_acts hdr_slop : nat) (ds : list dm) (M : mat) (fs : fsys) : Prop :=
  (forall f, f_imat fs = Data f -> f = mkImatFile hdr_acts hdr_slop M) /\
  (forall i d flags, nth_error ds i = Some d -> f_acts fs i = Data flags -> flags = valid d) /\
  no_shape_files fs.

(** All the actuators the DMs were built with. *)
Definition all_acts (ds : list dm) : nat := fold_left Nat.add (map n_acts ds) 0%nat.

(** A non-empty matrix with [m] columns. *)
Definition has_columns (m : nat) (M : mat) : Prop := M <> [] /\ (0 < m)%nat /\ Forall (fun r => length r = m) M.

(** A stored conditioning value agrees with the current one (numpy.allclose's tolerance). *)
Definition cond_agrees (stored current : Qc) : Prop :=
  (qc_abs (stored - current) <= qfrac 1 100000000 + qfrac 1 100000 * qc_abs current)%Qc.

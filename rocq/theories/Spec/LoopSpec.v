(** Specification of the closed loop. *)
From Verif.Base Require Import Vec.
From Verif.Model Require Import Recon Loop.
From Verif.Spec Require Import ReconSpec.

(** A stack of [ndm] screens of [npx] pixels. *)
Definition stack_ok (ndm npx : nat) (s : list vec) : Prop := length s = ndm /\ Forall (fun v => length v = npx) s.

(** a*s + t *)
Definition axpy (a : Qc) (s t : vec) : vec := vadd (vscale a s) t.
Definition stack_axpy (a : Qc) (s t : list vec) : list vec := map (fun p => axpy a (fst p) (snd p)) (combine s t).

(** A WFS whose response to the mirrors is linear. *)
Definition linear_sensor (ndm npx : nat) (w : list vec -> vec) : Prop :=
  (exists m, forall s, stack_ok ndm npx s -> length (w s) = m) /\
  forall a s t, stack_ok ndm npx s -> stack_ok ndm npx t -> w (stack_axpy a s t) = axpy a (w s) (w t).

(** The mirror geometry is linear: from shapes of [npix] pixels to screens of [npx] pixels. *)
Definition linear_fit (npix npx : nat) (fit : nat -> vec -> vec) : Prop :=
  forall k, (forall v, length v = npix -> length (fit k v) = npx) /\
            (forall n, fit k (vzero n) = vzero npx) /\
            (forall a u v, length u = npix -> length v = npix -> fit k (axpy a u v) = axpy a (fit k u) (fit k v)).

(** All WFSs' measurements of a stack of corrections... *)
Definition all_slopes (wfss : list (list vec -> vec)) (s : list vec) : vec := concat (map (fun w => w s) wfss).
(** ... and their measurements when the turbulence alone gives [base]. *)
Definition with_turbulence (wfss : list (list vec -> vec)) (base : vec) (s : list vec) : vec :=
  vadd base (all_slopes wfss s).

(** A calibrated system: mirrors [ds0] have been calibrated, giving [ds] and the interaction matrix; the
    control matrix reconstructs the command of every single actuator from its row of the interaction
    matrix. *)
Record calibrated_system (fit : nat -> vec -> vec) (npix npx nmeas : nat) (wfss : list (list vec -> vec))
    (ds0 ds : list dm) (imat ctrl : mat) : Prop := mkCal {
  cs_fresh : Forall (fresh npix) ds0;
  cs_imat : make_imat fit npx wfss ds0 = (ds, Ok imat);
  cs_live : Forall (fun d => exists n, n_valid d = Some (S n)) ds;
  cs_fit : linear_fit npix npx fit;
  cs_wfs : Forall (linear_sensor (length ds0) npx) wfss;
  cs_nmeas : forall s, stack_ok (length ds0) npx s -> length (all_slopes wfss s) = nmeas;
  cs_rows : length ctrl = length imat;
  cs_inverse : forall x row, nth_error imat x = Some row -> mvm ctrl row = unit_vec (length imat) x }.

(** Element [x] of the command vector belongs to mirror [d]. *)
Definition belongs (ds : list dm) (x : nat) (d : dm) : Prop :=
  exists i o n, nth_error ds i = Some d /\ n_valid d = Some n /\
    nth_error (dm_offsets 0 (nvalids ds)) i = Some o /\ (o <= x < o + n)%nat.

(** Element x of a vector. *)
Definition elem (v : vec) (x : nat) : Qc := nth x v 0%Qc.

(** A run of a calibrated system from the start. *)
Definition system_run (fit : nat -> vec -> vec) (npx nmeas : nat) (wfss : list (list vec -> vec))
    (ds : list dm) (ctrl : mat) (loop_delay : nat) (bases : list vec) : result (list loop_out) :=
  match loop_run fit ds nmeas (total_acts (nvalids ds)) ctrl (Z.of_nat loop_delay)
          (loop_init (length ds) npx nmeas) (map (with_turbulence wfss) bases) with
  | Ok (_, outs) => Ok outs
  | Err e => Err e
  end.

(** The command applied to actuator x in frame n (the first frame is 0). *)
Definition command (outs : list loop_out) (n x : nat) : Qc :=
  match nth_error outs n with Some o => elem (applied o) x | None => 0%Qc end.

(** Specification of calibration and control law. *)
From Verif.Base Require Import Vec.
From Verif.Model Require Import Recon.

(** Row [r] of the response matrix [M] has an element more than 1/1000 of every element of M. *)
Definition responds (M : mat) (r : vec) : Prop :=
  exists x, In x r /\ forall row y, In row M -> In y row -> (qc_abs y * qfrac 1 1000 < qc_abs x)%Qc.

(** The slopes processed since the last reset. *)
Fixpoint since_reset (acc : list vec) (ops : list recon_op) : list vec :=
  match ops with
  | [] => acc
  | RFrame m :: r => since_reset (acc ++ [m]) r
  | RReset :: r => since_reset [] r
  end.

(** Integrator: gain times the sum of the inputs. *)
Definition integrator (n : nat) (g : Qc) (rs : list vec) : vec := vscale g (fold_left vadd rs (vzero n)).
(** Exponential filter: a' = g*new + (1-g)*a, from zero. *)
Definition exp_filter (n : nat) (g : Qc) (rs : list vec) : vec :=
  fold_left (fun a r => vadd (vscale g r) (vscale (1 - g) a)) rs (vzero n).

(** All slopes in a history have [n] elements. *)
Definition slopes_ok (n : nat) (ops : list recon_op) : Prop :=
  Forall (fun o => match o with RFrame m => length m = n | RReset => True end) ops.

(** Histories with the same resets, the slopes of the third being alpha times those of the first plus
    beta times those of the second. *)
Inductive combined (alpha beta : Qc) : list recon_op -> list recon_op -> list recon_op -> Prop :=
| comb_nil : combined alpha beta [] [] []
| comb_frame : forall m1 m2 o1 o2 o3, combined alpha beta o1 o2 o3 ->
    combined alpha beta (RFrame m1 :: o1) (RFrame m2 :: o2)
             (RFrame (vadd (vscale alpha m1) (vscale beta m2)) :: o3)
| comb_reset : forall o1 o2 o3, combined alpha beta o1 o2 o3 ->
    combined alpha beta (RReset :: o1) (RReset :: o2) (RReset :: o3).

(** The commands in a state (zeros if no frame has been processed). *)
Definition commands (total : nat) (s : recon_state) : vec :=
  match s with None => vzero total | Some a => a end.

(** A DM as built: one influence function per actuator, all of [npix] pixels. *)
Definition dm_shaped (d : dm) (npix : nat) : Prop := Forall (fun s => length s = npix) (shapes d).
Definition fresh (npix : nat) (d : dm) : Prop := dm_shaped d npix /\ n_acts d = length (shapes d).

(** A DM whose valid actuators are known (calibration has been run or loaded). *)
Definition has_valid (d : dm) : Prop := n_valid d <> None.

(** No actuator / some actuator has been rejected. *)
Definition none_dropped (d : dm) : Prop := Forall (fun b => b = true) (valid d).
Definition some_dropped (d : dm) : Prop := In false (valid d).

(** New commands of a DM from its old commands [a] and its reconstructed vector [n]. *)
Definition control_law (d : dm) (a n : vec) : vec :=
  if closed d then vadd a (vscale (gain d) n)
  else vadd (vscale (gain d) n) (vscale (1 - gain d) a).

(** Specification of the read-out schedule, the exposures and the measurement layout. *)
From Verif.Base Require Import Vec.

(** Exposures of length [et] completed in [n] loop periods of length [lt]. *)
Definition exposures_completed (lt et : Qc) (n : Z) : Z := qc_floor (qz n * lt / et)%Qc.

(** The flag of WFS [w] at frame [k] of a run. *)
Definition flag (fs : list (list bool)) (k w : nat) : option bool :=
  match nth_error fs k with Some f => nth_error f w | None => None end.

(** Number of frames among the first [n] on which WFS [w] is read. *)
Fixpoint reads (fs : list (list bool)) (w n : nat) : Z :=
  match n with
  | O => 0
  | S m => reads fs w m + match flag fs m w with Some true => 1 | _ => 0 end
  end.

(** Sum of a list of images of [n] pixels. *)
Definition image_sum (n : nat) (ims : list vec) : vec := fold_left vadd ims (vzero n).

(** [first] is the first frame after the previous read before frame [k] (0 if none). *)
Definition exposure_start (read : nat -> bool) (first k : nat) : Prop :=
  (first <= k)%nat /\
  (forall j, (first <= j < k)%nat -> read j = false) /\
  (first = 0%nat \/ (exists p, first = S p /\ read p = true)).

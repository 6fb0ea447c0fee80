(** Definitions used by the theorems about missing light. *)
From Verif.Base Require Import Vec.
From Verif.Model Require Import Recon.
From Verif.Model Require Import NoLight.

Definition is_num (a : fl) : Prop := exists q, a = Num q.
(** The centre of gravity of a window of [p] columns, along its columns and its rows: the mean coordinate weighted by
    the pixels; 0/0 for a window without light.  (The default centMethod; aotools, not part of /repo.) *)
Definition window := list (list Qc).
Definition weight (w : window) : Qc := lsum (map lsum w).
Definition along (l : list Qc) : Qc := lsum (map (fun p => qz (Z.of_nat (fst p)) * snd p)%Qc (combine (seq 0 (length l)) l)).
Definition cog_x (w : window) : fl := fdiv (Num (lsum (map along w))) (Num (weight w)).
Definition cog_y (w : window) : fl := fdiv (Num (along (map lsum w))) (Num (weight w)).
Definition dark (w : window) : Prop := Forall (Forall (fun v => v = 0%Qc)) w.
(** [k]-th of a vector is that value *)
Definition at_k {A} (v : list A) (k : nat) (x : A) : Prop := nth_error v k = Some x.

(** A calibrated reconstructor: every mirror knows its actuators, the matrix has a row for each and a column for each
    measurement. *)
Definition acts_of (d : dm) : nat := match n_valid d with Some n => n | None => 0 end.
Definition fitted (ds : list dm) (nmeas total : nat) (ctrl : mat) : Prop :=
  Forall (fun d => n_valid d <> None) ds /\ total = fold_right plus 0%nat (map acts_of ds) /\
  length ctrl = total /\ Forall (fun r : vec => length r = nmeas) ctrl.
Definition frame_of_length (n : nat) (o : frecon_op) : Prop := match o with FFrame m => length m = n | FReset => False end.
(** every value is NaN *)
Definition lost (v : fvec) : Prop := Forall (fun x => x = NaN) v.
Definition rmap {A B} (f : A -> B) (r : result A) : result B := match r with Ok a => Ok (f a) | Err e => Err e end.

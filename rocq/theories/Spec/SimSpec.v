(** What the simulation loop theorems talk about. *)
From Verif.Base Require Import Vec.
From Verif.Model Require Import Sim.
Open Scope Z_scope.

(** ** Records *)
(** After frames number [it], [it]+1, ... with values [vs], a record of N entries holds the value of each of the last N frames at the
    frame number modulo N, and entries no frame fell on are as before. *)
Definition ring_ok {A} (N it : Z) (vs : list A) (before after : list A) : Prop :=
  length after = length before /\
  (forall k v, nth_error vs k = Some v -> Z.of_nat (length vs) - N <= Z.of_nat k -> nth_error after (Z.to_nat ((it + Z.of_nat k) mod N)) = Some v) /\
  (forall j, (forall k, (k < length vs)%nat -> (it + Z.of_nat k) mod N <> Z.of_nat j) -> nth_error after j = nth_error before j).
Definition rec_len (N : Z) (r : records) : Prop :=
  Z.of_nat (length (r_slopes r)) = N /\ Z.of_nat (length (r_cmds r)) = N /\ Z.of_nat (length (r_inst r)) = N /\ Z.of_nat (length (r_long r)) = N /\
  Z.of_nat (length (r_wfe r)) = N /\ Z.of_nat (length (r_imgs r)) = N.

(** ** Threads *)
Definition alive (s : tsim) (i : nat) : Prop := exists t, nth_error (t_threads s) i = Some t /\ t <> TDone.
Definition in_frame (s : tsim) (i : nat) : Prop := nth_error (t_threads s) i = Some TFrame.
(** Steps a loop thread still takes once it has been asked to stop. *)
Definition work (t : thread) : nat := match t with TNew => 3 | TFrame => 2 | TTest => 1 | TDone => 0 end.
Definition total_work (s : tsim) : nat := fold_right (fun t n => (work t + n)%nat) 0%nat (t_threads s).

(** ** Reset *)
Definition all_zero (v : vec) : Prop := Forall (fun x => x = 0%Qc) v.
Definition same_size (v w : vec) : Prop := length v = length w.

(** What the theorems on parallel loops talk about. *)
From Coq Require Import List ZArith Bool.
From Verif.Base Require Import Vec.
From Verif.Model Require Import Numerics Parallel.
Import ListNotations.
Open Scope Z_scope.

Section S.
  Context {V : Type}.
  Inductive steps : memory V * list (prog V) -> memory V * list (prog V) -> Prop :=
  | steps_refl s : steps s s
  | steps_more s s' s'' : step s s' -> steps s' s'' -> steps s s''.
  Definition finished (s : memory V * list (prog V)) : Prop := Forall (eq Done) (snd s).
  (** Whatever the schedule, the execution ends (there is no infinite one), and it can only end with every iteration
      finished and the memory [f]. *)
  Definition always_gives (m : memory V) (l : list (prog V)) (f : memory V) : Prop :=
    Acc (fun s' s => step s s') (m, l) /\
    forall s, steps (m, l) s -> (exists s', step s s') \/ (finished s /\ forall a, fst s a = f a).
  (** The memory with the array [out] holding g in the region [inside], and everything else as before. *)
  Definition with_array (m : memory V) (out : nat) (inside : Z -> Z -> Z -> bool) (g : Z -> Z -> Z -> V) : memory V :=
    fun a => let '(n, i, j, k) := a in if Nat.eqb n out && inside i j k then g i j k else m a.
  Definition box2 (nr nc : Z) : Z -> Z -> Z -> bool := fun i j k => (0 <=? i) && (i <? nr) && (0 <=? j) && (j <? nc) && (k =? 0).
  Definition box3 (n nr nc : Z) : Z -> Z -> Z -> bool := fun n' i j => (0 <=? n') && (n' <? n) && (0 <=? i) && (i <? nr) && (0 <=? j) && (j <? nc).

  (** The array named n holds a. *)
  Definition holds (m : memory V) (n : nat) (a : arr V) : Prop := forall i j, 0 <= i < nrow a -> 0 <= j < ncol a -> m (n, i, j, 0) = at2 a i j.
  Variables (add sub mul : V -> V -> V) (ofZ : Z -> V) (int32 : V -> Z).
  (** Bilinear interpolation of the n0 x n1 array [d] at (x, y), in the arithmetic given. *)
  Definition bilinear_value (n0 n1 : Z) (d : Z -> Z -> V) (x y : V) : V :=
    let x1 := int32 x in let y1 := int32 y in
    let at_ i j := d (nb_index n0 i) (nb_index n1 j) in
    let a1 := add (at_ x1 y1) (mul (sub (at_ (x1 + 1) y1) (at_ x1 y1)) (sub x (ofZ x1))) in
    let a2 := add (at_ x1 (y1 + 1)) (mul (sub (at_ (x1 + 1) (y1 + 1)) (at_ x1 (y1 + 1))) (sub x (ofZ x1))) in
    add a1 (mul (sub a2 a1) (sub y (ofZ y1))).
  (** The sum over a b x b block, row by row, added up from 0 in this order. *)
  Definition block_sum (b : Z) (g : Z -> Z -> V) : V :=
    fold_left (fun s x => fold_left (fun s y => add s (g x y)) (zseq b) s) (zseq b) (ofZ 0).
End S.

(** Specification for deformable mirrors. *)
From Verif.Base Require Import Vec.

(** All influence functions are m x m. *)
Definition square_shapes (m : Z) (sh : list (arr Qc)) : Prop := Forall (fun s => nrow s = m /\ ncol s = m) sh.

(** Sum over the actuators of command times influence function, at one point. *)
Definition superposition (cs : vec) (sh : list (arr Qc)) (i j : Z) : Qc :=
  zsum (Z.of_nat (length cs)) (fun k => nth (Z.to_nat k) cs 0 * at2 (nth (Z.to_nat k) sh (mkArr 0 0 (fun _ _ => 0))) i j)%Qc.

(** Average of a function over an m x m square. *)
Definition average (m : Z) (f : Z -> Z -> Qc) : Qc := (zsum m (fun i => zsum m (fun j => f i j)) / qz (m * m))%Qc.

(** The piston-free surface. *)
Definition piston_free (m : Z) (cs : vec) (sh : list (arr Qc)) (i j : Z) : Qc :=
  (superposition cs sh i j - average m (superposition cs sh))%Qc.

(** The function f on an m x m square seen in the middle of an n x n square (m, n of the same parity):
    cropped if m > n, surrounded by zeros if m < n. *)
Definition centred (m n : Z) (f : Z -> Z -> Qc) : arr Qc :=
  let off := (m - n) / 2 in
  mkArr n n (fun i j => let i' := i + off in let j' := j + off in
    if (0 <=? i') && (i' <? m) && (0 <=? j') && (j' <? m) then f i' j' else 0%Qc).

(** What the theorems on the progress bar talk about. *)
From Coq Require Import String.
From Verif.Base Require Import Vec.
From Verif.Model Require Import GuiProgress.
Local Open Scope Z_scope.

(** The bar shows the share k / n, to the nearest percent. *)
Definition shows_share (p : panel) (k n : Z) : Prop := 2 * Z.abs (bar p * n - 100 * k) <= n.
(** The label reads "m: Iteration k of n". *)
Definition reads (p : panel) (m : string) (k n : Z) : Prop := text p = Counting (Str m) (Num k) (Num n).

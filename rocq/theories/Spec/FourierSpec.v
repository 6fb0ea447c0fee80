(** What the Fourier transform, convolution and correlation theorems talk about. *)
From Coq Require Import ZArith Reals List String.
From Coquelicot Require Import Complex.
From Verif.Base Require Import CSum.
From Verif.Model Require Import FftObject.
Import ListNotations.
Open Scope R_scope.

(** Circular convolution of two P x Q images about element (c, d): Sum of a(s, t) b(i + c - s, j + d - t). *)
Definition conv_about (P Q c d : Z) (a b : Z -> Z -> R) (i j : Z) : R :=
  rsum P (fun s => rsum Q (fun t => a s t * b ((i + c - s) mod P)%Z ((j + d - t) mod Q)%Z)).
(** Circular cross correlation of image a with reference b, at a displacement of (i - c, j - d). *)
Definition corr_about (P Q c d : Z) (a b : Z -> Z -> R) (i j : Z) : R :=
  rsum P (fun s => rsum Q (fun t => a s t * b ((s - (i - c)) mod P)%Z ((t - (j - d)) mod Q)%Z)).
(** Image b displaced circularly by (x, y). *)
Definition displaced (P Q x y : Z) (b : Z -> Z -> R) (i j : Z) : R := b ((i - x) mod P)%Z ((j - y) mod Q)%Z.
Definition total (P Q : Z) (a : Z -> Z -> R) : R := rsum P (fun i => rsum Q (fun j => a i j)).
Definition inside (P Q i j : Z) : Prop := (0 <= i < P /\ 0 <= j < Q)%Z.
(** All the light, 1, in one element. *)
Definition star (c d : Z) (i j : Z) : R := if ((i =? c) && (j =? d))%Z%bool then 1 else 0.
(** b is unchanged by turning it half a turn about element (P/2, Q/2). *)
Definition half_turn_symmetric (P Q : Z) (b : Z -> Z -> R) : Prop :=
  forall i j, inside P Q i j -> b ((2 * (P / 2) - i) mod P)%Z ((2 * (Q / 2) - j) mod Q)%Z = b i j.

(** ** Histories of an FFT object *)
Definition is_bind {D} (a : action D) : Prop := match a with Bind _ => True | _ => False end.
Definition is_fill {D} (a : action D) : Prop := match a with Fill _ => True | _ => False end.
(** The user writes into array l themselves. *)
Definition writes {D} (l : nat) (a : action D) : Prop := match a with Write l' _ => l' = l | _ => False end.
Definition never {D} (p : action D -> Prop) (h : list (action D)) : Prop := Forall (fun a => ~ p a) h.
(** Only arrays that exist are named. *)
Definition names_ok {D} (n : nat) (a : action D) : Prop :=
  match a with New _ => True | Write l _ | Fill l | Bind l => (l < n)%nat | Fft (Some l) => (l < n)%nat | Fft None => True end.
Section Exist.
Variable D : Type.
Variable fwd bwd left : D -> D.
Fixpoint names_exist (h : list (action D)) (m : mem D) : Prop :=
  match h with [] => True | a :: r => names_ok (used D m) a /\ names_exist r (act D fwd bwd left a m) end.
End Exist.
(** The documented values of [mode]. *)
Definition documented_mode (m : string) : Prop := m = "pyfftw"%string \/ m = "scipy"%string \/ m = "gpu"%string.

(** Finite sums of real and complex numbers over 0 .. n-1, and the discrete Fourier transform. *)
From Coq Require Import ZArith Reals Lra Lia.
From Coquelicot Require Import Complex.
Open Scope R_scope.

Fixpoint rsumn (n : nat) (f : Z -> R) : R := match n with O => 0 | S m => rsumn m f + f (Z.of_nat m) end.
Definition rsum (n : Z) (f : Z -> R) : R := rsumn (Z.to_nat n) f.
Fixpoint csumn (n : nat) (f : Z -> C) : C := match n with O => RtoC 0 | S m => (csumn m f + f (Z.of_nat m))%C end.
Definition csum (n : Z) (f : Z -> C) : C := csumn (Z.to_nat n) f.

(** |z|^2 *)
Definition cnorm2 (z : C) : R := fst z * fst z + snd z * snd z.
(** exp(i t) *)
Definition cis (t : R) : C := (cos t, sin t).

(** numpy.fft over both axes of an n x n array, and its inverse (with the factor 1/n^2) *)
Definition dft2 (n : Z) (f : Z -> Z -> C) (u v : Z) : C :=
  csum n (fun i => csum n (fun j => f i j * cis (- (2 * PI * IZR (v * j) / IZR n)))%C * cis (- (2 * PI * IZR (u * i) / IZR n)))%C.
Definition idft2 (n : Z) (f : Z -> Z -> C) (i j : Z) : C :=
  (RtoC (/ (IZR n * IZR n)) *
   csum n (fun u => csum n (fun v => f u v * cis (2 * PI * IZR (v * j) / IZR n)) * cis (2 * PI * IZR (u * i) / IZR n)))%C.

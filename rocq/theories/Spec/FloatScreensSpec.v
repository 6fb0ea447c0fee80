(** What the theorem on finite screens in floating-point arithmetic talks about. *)
From Coq Require Import ZArith Reals.
From Flocq Require Import Core BinarySingleNaN.
From Verif.Base Require Import Float64.
From Verif.Model Require Import FloatScreens.
Local Open Scope R_scope.

(** Where pixel k of the window lies on the turbulence as it was at the start (continued cyclically): the stored screen has been rolled by
    [x_roll]. *)
Definition place (a : axis64) (k : Z) : R := B2R (x_co a k) - IZR (x_roll a).
(** 2^-50 of the size of the screen: what one frame can add to the error of a coordinate *)
Definition slip (W : Z) : R := IZR W * bpow radix2 (-50).

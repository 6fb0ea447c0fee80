(** Vocabulary for the read-out schedule in floats. *)
From Coq Require Import ZArith Reals List Bool.
From Flocq Require Import Core BinarySingleNaN.
From Verif.Base Require Import Float64.
Open Scope R_scope.

(** x is the float a program gets for the number r: the nearest one. *)
Definition nearest (x : b64) (r : R) : Prop := is_finite x = true /\ B2R x = rnd64 r.
(** How often a sensor was read. *)
Definition reads (l : list bool) : Z := Z.of_nat (length (filter (fun b => b) l)).
(** A time, in seconds, well inside the range of floats. *)
Definition time64 (x : b64) : Prop := is_finite x = true /\ bpow radix2 (-400) <= B2R x <= bpow radix2 400.
(** A time that is m/2^k seconds with a small m: all its multiples up to the n-th are floats. *)
Definition short_time (x : b64) (n : nat) : Prop := exists m e : Z, (0 < m)%Z /\ (m * Z.of_nat n <= 2 ^ 53)%Z /\ (-1000 <= e <= 400)%Z /\ is_finite x = true /\ B2R x = IZR m * bpow radix2 e.

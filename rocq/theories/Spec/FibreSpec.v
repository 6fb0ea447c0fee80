(** What the theorems on the single mode fibre talk about. *)
From Coq Require Import Reals.
From Verif.Base Require Import Vec CSum.
From Verif.Model Require Import Science.
Local Open Scope R_scope.

Definition inside (n i j : Z) : Prop := (0 <= i < n)%Z /\ (0 <= j < n)%Z.
(** An aperture: transmissions that are not negative, and light somewhere. *)
Definition aperture (n : Z) (mask : image) : Prop :=
  (forall i j, inside n i j -> 0 <= mask i j) /\ exists i j, inside n i j /\ 0 < mask i j.
(** What holds of each element the light comes through *)
Definition through (n : Z) (mask : image) (P : Z -> Z -> Prop) : Prop := forall i j, inside n i j -> 0 < mask i j -> P i j.
(** Two phases a whole number of waves apart *)
Definition whole_waves (p q : R) : Prop := exists m : Z, p - q = IZR m * (2 * PI).

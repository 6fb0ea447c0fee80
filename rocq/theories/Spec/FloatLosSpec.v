(** Specification of a geometric line of sight in exact arithmetic. *)
From Coq Require Import ZArith List Reals.
From Flocq Require Import Core BinarySingleNaN.
From Verif.Base Require Import Float64.
From Verif.Model Require Import FloatInterp.
From Verif.Spec Require Import FloatInterpSpec.
From Verif.Model Require Import FloatLos.
Import ListNotations.
Local Open Scope R_scope.

(** What the straight-line interpolation of a screen is at the nearest point on it. *)
Definition seen (c : crossing) : R :=
  bilinear (numbers (cr_screen c)) (nearest_on (fa_rows (cr_screen c)) (B2R (cr_x c))) (nearest_on (fa_cols (cr_screen c)) (B2R (cr_y c))).
(** The sum over screens. *)
Definition total_seen (l : list crossing) : R := fold_right Rplus 0 (map seen l).
(** Screens of 2 to 2^20 elements a side that are numbers, the k-th no larger than the k-th bound; coordinates that are numbers. *)
Definition moderate (l : list crossing) (As : list R) : Prop :=
  Forall2 (fun c A => fits (cr_screen c) /\ bounded_by (cr_screen c) A /\ is_finite (cr_x c) = true /\ is_finite (cr_y c) = true) l As.
Definition total (As : list R) : R := fold_right Rplus 0 As.

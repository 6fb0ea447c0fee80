(** Definitions used by the theorems about the gain boxes. *)
From Verif.Base Require Import Vec.
From Verif.Model Require Import GuiGain.

(** the user loads no configuration *)
Definition no_load (o : gui_op) : Prop := match o with Reload _ | LoadFile _ => False | _ => True end.
Definition is_move (o : gui_op) : Prop := match o with MoveBox _ _ => True | _ => False end.
(** the init button and the thread it starts, undisturbed *)
Definition initialise : list gui_op := [PressInit; AoInit; InitDone].
(** [v] with the [k]-th replaced *)
Definition with_nth (v v' : list Qc) (k : nat) (x : Qc) : Prop :=
  length v' = length v /\ forall j, nth_error v' j = if (j =? k)%nat then Some x else nth_error v j.
(** what a box of two decimals can hold *)
Definition hundredths (x : Qc) : Prop := exists z : Z, x = (qz z / qz 100)%Qc.
Definition rounds (two_decimals : Qc -> Qc) : Prop :=
  (forall g, hundredths (two_decimals g)) /\ (forall g, hundredths g -> two_decimals g = g) /\
  (forall g h, (g <= h)%Qc -> (two_decimals g <= two_decimals h)%Qc).
(** a gain the box can show *)
Definition showable (g : Qc) : Prop := hundredths g /\ (0 <= g)%Qc /\ (g <= 1)%Qc.
(** rounding half up, one way to round *)
Definition half_up (g : Qc) : Qc := (qz (qc_floor (qz 100 * g + qfrac 1 2)) / qz 100)%Qc.

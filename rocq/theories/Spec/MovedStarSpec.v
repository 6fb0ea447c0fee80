(** What the theorems on moved guide stars talk about. *)
From Verif.Base Require Import Vec.
From Verif.Model Require Import MovedStar.
Local Open Scope Qc_scope.

(** The configuration of a sensor and of a science camera, once calculated *)
Definition sensor (p : Qc * Qc) (h : Qc) : conf := mkConf (Some p) (Some p) None (Some h).
Definition camera (p : Qc * Qc) (h : Qc) : conf := mkConf (Some p) None (Some h) None.
Definition configured (is_sensor : bool) (p : Qc * Qc) (h : Qc) : conf := if is_sensor then sensor p h else camera p h.
(** The height last set, in whatever way *)
Fixpoint last_height (ms : list move) (h : Qc) : Qc :=
  match ms with [] => h | SetHeight h' :: r => last_height r h' | AssignHeight h' :: r => last_height r h' | _ :: r => last_height r h end.
(** The position last set on the light path, or on the configuration of a camera; a change of a sensor's configuration ([gs]) counts from the next calcParams, which also puts back what
    it says ([p]: before the moves). *)
Fixpoint last_position (is_sensor : bool) (ms : list move) (gs p : Qc * Qc) : Qc * Qc :=
  match ms with
  | [] => p
  | SetPosition q :: r => last_position is_sensor r gs q
  | AssignPosition q :: r => if is_sensor then last_position is_sensor r q p else last_position is_sensor r gs q
  | CalcParams :: r => last_position is_sensor r gs (if is_sensor then gs else p)
  | _ :: r => last_position is_sensor r gs p
  end.
Definition is_recalc (m : move) : bool := match m with Recalc => true | _ => false end.
(** The middle and the width of a piece of a screen *)
Definition middle (s : square) : Qc * Qc := let '(x1, x2, y1, y2) := s in ((x1 + x2) / qz 2, (y1 + y2) / qz 2).
Definition width (s : square) : Qc * Qc := let '(x1, x2, y1, y2) := s in (x2 - x1, y2 - y1).
(** The beam from a source at height [h] (0: at infinity) at altitude [a], as a share of the beam at the telescope *)
Definition cone (h a : Qc) : Qc := if Qc_eq_dec h 0 then 1 else 1 - a / h.

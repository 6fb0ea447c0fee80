(** The progress bar of the GUI. *)
From Coq Require Import String.
From Verif.Base Require Import Vec.
Local Open Scope Z_scope.

(** The strings a thread emits (soapy/gui/gui.py:643-645, 669-673, 701-703): str() of an integer, or text that is no number. *)
Inductive txt := Num (k : Z) | Str (s : string).
Definition nonempty (t : txt) : bool := match t with Str EmptyString => false | _ => true end.
(** What the label shows: the message, the message and a number, "message: Iteration i of n". *)
Inductive label := Plain (m : txt) | Numbered (m i : txt) | Counting (m i n : txt).
Record panel := mkPanel { bar : Z; text : label }.
(** soapy/gui/gui.py:579-591  without the rounding of float(i) / float(maxIter) and of its product with 100 *)
Definition progress_update (m i n : txt) (p : panel) : result panel :=
  if nonempty i && nonempty n then
    match i, n with
    | Num a, Num b => if b =? 0 then Err ZeroDivisionError else Ok (mkPanel (qc_round (qz 100 * (qz a / qz b))%Qc) (Counting m i n))
    | _, _ => Err ValueError
    end
  else if nonempty i then Ok (mkPanel (bar p) (Numbered m i)) else Ok (mkPanel (bar p) (Plain m)).
(** an exception in a slot is printed (soapy/gui/gui.py:97-101) and changes nothing *)
Definition slot (e : txt * txt * txt) (p : panel) : panel := let '(m, i, n) := e in match progress_update m i n p with Ok q => q | Err _ => p end.
Definition panel_after (es : list (txt * txt * txt)) (p : panel) : panel := fold_left (fun q e => slot e q) es p.

(** soapy/logger.py:68-74 with a status function set, and lines 100-101: (message, i, maxIter), and message alone *)
Definition status_emit (i n : Z) (m : string) : txt * txt * txt := (Str m, Num i, Num n).
Definition message_emit (m : string) : txt * txt * txt := (Str m, Str EmptyString, Str EmptyString).
(** soapy/reconstruction.py:317-318 within its loop (285-318), the first k of n actuators; and soapy/simulation.py:582-604 with 1082, the first k of n frames *)
Definition steps_emit (m : string) (n : Z) (k : nat) : list (txt * txt * txt) := map (fun i => status_emit (Z.of_nat i) n m) (seq 0 k).
(** soapy/reconstruction.py:571-585  the first k of n frames of the Learn *)
Definition learn_emit (n : Z) (k : nat) : list (txt * txt * txt) :=
  flat_map (fun i => status_emit (Z.of_nat i + 1) n "Performing Learn" :: (Str "Performing Learn", Num (Z.of_nat i), Num n) :: nil) (seq 0 k).
(** soapy/reconstruction.py:606, 687, 914 *)
Definition covariance_emit : txt * txt * txt := (Num 1, Num 1, Str "Calculating Covariance Matrices").

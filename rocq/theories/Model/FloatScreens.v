(** Finite screens in binary64: the window that moves over a stored screen. *)
From Coq Require Import ZArith.
From Flocq Require Import BinarySingleNaN.
From Verif.Base Require Import Float64.
Local Open Scope Z_scope.

(** One axis of one layer: scrnPos, the sample coordinates of the pixels of the window (xCoords or yCoords), and by how much the stored screen
    has been rolled so far, for the record. *)
Record axis64 := mkAxis64 { x_pos : b64; x_co : Z -> b64; x_roll : Z }.
(** soapy/atmosphere.py:243-250, 263-264 *)
Definition axis_init64 (W s : Z) (v : b64) : axis64 :=
  let p := if lt64 v (ofZ64 0) then W - s else 0 in mkAxis64 (ofZ64 p) (fun k => add64 (ofZ64 k) (ofZ64 p)) 0.
(** soapy/atmosphere.py:316-327, 340-350  the test at the end of the screen.  None: int() raises *)
Definition wrap_end64 (W s : Z) (a : axis64) : option axis64 :=
  if ge64 (add64 (x_pos a) (ofZ64 s)) (ofZ64 W) then
    match int64 (Bopp (x_pos a)) with
    | Some k => Some (mkAxis64 (ofZ64 0) (fun i => ofZ64 i) (x_roll a + k))
    | None => None
    end
  else Some a.
(** soapy/atmosphere.py:328-338, 351-361  the test at its beginning *)
Definition wrap_start64 (W s : Z) (a : axis64) : option axis64 :=
  if lt64 (x_pos a) (ofZ64 0) then
    match int64 (sub64 (sub64 (ofZ64 W) (x_pos a)) (ofZ64 s)) with
    | Some k => Some (mkAxis64 (ofZ64 (W - s)) (fun i => add64 (ofZ64 i) (ofZ64 (W - s))) (x_roll a + k))
    | None => None
    end
  else Some a.
Definition wrap64 (W s : Z) (a : axis64) : option axis64 := match wrap_end64 W s a with Some b => wrap_start64 W s b | None => None end.
(** soapy/atmosphere.py:366-368 *)
Definition advance64 (v : b64) (a : axis64) : axis64 := mkAxis64 (add64 (x_pos a) v) (fun k => add64 (x_co a k) v) (x_roll a).
(** the axis from which frame n is sampled (soapy/atmosphere.py:363) *)
Fixpoint sampled64 (W s : Z) (v : b64) (n : nat) : option axis64 :=
  match n with
  | O => wrap64 W s (axis_init64 W s v)
  | S m => match sampled64 W s v m with Some a => wrap64 W s (advance64 v a) | None => None end
  end.

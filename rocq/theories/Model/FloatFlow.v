(** Infinite screens in binary64: what is added, and what is shown. *)
From Coq Require Import ZArith List.
From Flocq Require Import BinarySingleNaN.
From Verif.Base Require Import Float64.
From Verif.Model Require Import Rounding64 FloatInterp.
Import ListNotations.
Local Open Scope Z_scope.

(** The stored rows, newest first, float_position, and how many rows have been made. *)
Definition frow := Z -> b64.
Record finf := mkFinf { fn_scr : list frow; fn_frac : b64; fn_made : nat }.
Section Infinite.
  (** [row k]: the row returned by the k-th call of get_new_row (aotools); [v]: n_move_pixels; [stencil]: stencil_length (aotools) *)
  Variable row : nat -> frow.
  Variables (v : b64) (stencil : nat).
  (** soapy/atmosphere.py:513-517  for i in range(n_new_rows): append(new_row, _scrn, axis=0) *)
  Fixpoint add_rows64 (n : nat) (made : nat) (sc : list frow) : list frow :=
    match n with O => sc | S m => add_rows64 m (S made) (row made :: sc) end.
  (** soapy/atmosphere.py:489-495, 503-519  move_screen up to the crop.  None: int() of something that is not a number raises *)
  Definition inf_move64 (s : finf) : option finf :=
    match int64 v with
    | None => None
    | Some im =>
        let f := add64 (fn_frac s) (sub64 v (ofZ64 im)) in
        let '(k, f') := if ge64 f (ofZ64 1) then (im + 1, sub64 f (ofZ64 1)) else (im, f) in
        let n := Z.to_nat k in
        Some (mkFinf (firstn stencil (add_rows64 n (fn_made s) (fn_scr s))) f' (fn_made s + n)%nat)
    end.
  (** soapy/atmosphere.py:487-500  n calls of move_screen after the construction with [init] as the first screen *)
  Fixpoint inf_run64 (init : list frow) (n : nat) : option finf :=
    match n with O => Some (mkFinf init (ofZ64 0) 0) | S m => match inf_run64 init m with Some s => inf_move64 s | None => None end end.
End Infinite.
(** The stored rows as an array with nx columns *)
Definition inf_arr64 (nx : Z) (s : finf) : farr :=
  mkFarr (Z.of_nat (length (fn_scr s))) nx (fun i j => match nth_error (fn_scr s) (Z.to_nat i) with Some r => r j | None => ofZ64 0 end).
(** soapy/atmosphere.py:498, 521-522  element (i, j) of output_screen: coordinates 1..nx less float_position, and 1..nx *)
Definition inf_output64 (nx : Z) (s : finf) (i j : Z) : option b64 :=
  interp64 (inf_arr64 nx s) (sub64 (ofZ64 (i + 1)) (fn_frac s)) (ofZ64 (j + 1)).

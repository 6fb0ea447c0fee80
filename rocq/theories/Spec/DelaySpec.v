(** Specification of a pure delay line in terms of the history of inputs only. *)
From Verif.Base Require Import Py.
From Verif.Model Require Import Delay.

Section DelaySpec.
  Variable V : Type.
  Variable zero_like : V -> V.

  (** [ys] is [xs] delayed by exactly [d] positions, with zeros at the start. *)
  Definition delayed_by (d : nat) (xs : list V) (ys : list (result V)) : Prop :=
    length ys = length xs /\
    forall n x, nth_error xs n = Some x ->
      nth_error ys n =
        if (n <? d)%nat then Some (Ok (zero_like x))
        else option_map (@Ok V) (nth_error xs (n - d)).

  (** With a delay setting that may change between calls: at call [n] with setting [c] the item
      wanted is the one put in at call [n - c]; it is available iff at every call [j] since then
      (before n) its age was below the setting in force at that call. *)
  Definition available (calls : list (V * Z)) (n c : nat) : Prop :=
    (c <= n)%nat /\
    forall j vj cj, (n - c <= j < n)%nat -> nth_error calls j = Some (vj, cj) ->
      Z.of_nat (j - (n - c)) < cj.

  Definition delay_history (calls : list (V * Z)) (ys : list (result V)) : Prop :=
    length ys = length calls /\
    forall n x c, nth_error calls n = Some (x, c) ->
      (available calls n (Z.to_nat c) ->
         exists v cv, nth_error calls (n - Z.to_nat c) = Some (v, cv) /\ nth_error ys n = Some (Ok v)) /\
      (~ available calls n (Z.to_nat c) -> nth_error ys n = Some (Ok (zero_like x))).

  (** The (value, setting) pairs of the frames in a history of frames and resets
      (None if a frame ran without a deformable mirror). *)
  Fixpoint frames_of (ops : list (lop V)) : option (list (V * Z)) :=
    match ops with
    | [] => Some []
    | LFrame v c :: r => option_map (cons (v, c)) (frames_of r)
    | LReset :: r => frames_of r
    | LFrameNoDM _ :: _ => None
    end.
End DelaySpec.
Arguments delayed_by {V} zero_like d xs ys.
Arguments available {V} calls n c.
Arguments delay_history {V} zero_like calls ys.
Arguments frames_of {V} ops.

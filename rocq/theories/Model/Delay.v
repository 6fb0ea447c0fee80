(** Model of the loop-delay buffer and of the way [loopFrame] handles the command array. *)
From Verif.Base Require Import Py.

Section Delay.
  (** V: a command array. [zero_like v] is [value*0.0]: a new array of the same shape filled with 0. *)
  Variable V : Type.
  Variable zero_like : V -> V.

  (** soapy/simulation.py:1250-1251   for _ in range(n): result = self.pop(0)
      Returns the remaining buffer and the last popped value; popping an empty list raises
      IndexError.  [n >= 1] whenever it is called, so [result] is always bound on success. *)
  Fixpoint pops (n : nat) (b : list V) (r : result V) : list V * result V :=
    match n with
    | O => (b, r)
    | S n' => match pop0 b with
              | Some (x, b') => pops n' b' (Ok x)
              | None => (b, Err IndexError)
              end
    end.

  (** soapy/simulation.py:1245-1252   DelayBuffer.delay(value, count)
      The buffer is returned together with the outcome.  NameError stands for the unbound local
      [result], which cannot happen because range(len-count) is not empty in that branch. *)
  Definition delay (b : list V) (value : V) (count : Z) : list V * result V :=
    let b1 := b ++ [value] in
    let len := Z.of_nat (length b1) in
    if len <=? count then (b1, Ok (zero_like value))
    else pops (Z.to_nat (len - count)) b1 (Err NameError).

  (** A run of the buffer: consecutive calls with (value, count); stops at the first exception. *)
  Fixpoint run_delay (b : list V) (calls : list (V * Z)) : list (result V) :=
    match calls with
    | [] => []
    | (v, c) :: rest =>
        match delay b v c with
        | (b', Ok x) => Ok x :: run_delay b' rest
        | (_, Err e) => [Err e]
        end
    end.

  (** soapy/simulation.py:302  self.buffer = DelayBuffer()  -- empty *)
  Definition new_buffer : list V := [].

  (** ** Object identity: arrays live in a heap, the buffer holds references. *)

  (** Heap: location k holds the k-th allocated array.  Never freed (garbage collection only
      removes unreachable arrays, which nothing below reads). *)
  Definition heap := list V.

  Record lstate := mkL {
    hp : heap;
    cur : nat;          (* self.dmCommands *)
    buf : list nat      (* self.buffer: references *)
  }.

  Definition deref (h : heap) (l : nat) (dflt : V) : V := nth l h dflt.

  (** Operations that touch the command array during a run.
      [LFrame v c]: loopFrame with nDM > 0, reconstructor output v, loopDelay c
                    (soapy/simulation.py:547-552)
      [LFrameNoDM c]: loopFrame with nDM = 0 (the assignment at 548 is skipped)
      [LReset]: reset_loop (soapy/simulation.py:657  self.dmCommands[:] = 0). *)
  Inductive lop := LFrame (v : V) (c : Z) | LFrameNoDM (c : Z) | LReset.

  (** DelayBuffer.delay on references: the buffer stores the reference of [value]; in the "not yet
      full" case [value*0.0] allocates a new array (soapy/simulation.py:1245-1252). *)
  Fixpoint pops_ref (n : nat) (b : list nat) (r : result nat) : list nat * result nat :=
    match n with
    | O => (b, r)
    | S n' => match b with
              | x :: b' => pops_ref n' b' (Ok x)
              | [] => (b, Err IndexError)
              end
    end.

  Definition delay_ref (dflt : V) (h : heap) (b : list nat) (l : nat) (count : Z)
    : heap * list nat * result nat :=
    let b1 := b ++ [l] in
    let len := Z.of_nat (length b1) in
    if len <=? count then (h ++ [zero_like (deref h l dflt)], b1, Ok (length h))
    else let '(b2, r) := pops_ref (Z.to_nat (len - count)) b1 (Err NameError) in (h, b2, r).

  (** One operation.  The second component is the contents of self.dmCommands that runDM reads
      (None for reset, which runs no frame). *)
  Definition lstep (dflt : V) (s : lstate) (o : lop) : result (lstate * option V) :=
    match o with
    | LFrame v c =>
        let h1 := upd (hp s) (cur s) v in                         (* 548: in-place store *)
        let '(h2, b2, r) := delay_ref dflt h1 (buf s) (cur s) c in (* 552 *)
        match r with
        | Ok l => Ok (mkL h2 l b2, Some (deref h2 l dflt))
        | Err e => Err e
        end
    | LFrameNoDM c =>
        let '(h2, b2, r) := delay_ref dflt (hp s) (buf s) (cur s) c in
        match r with
        | Ok l => Ok (mkL h2 l b2, Some (deref h2 l dflt))
        | Err e => Err e
        end
    | LReset =>                                                  (* 657: in-place store *)
        Ok (mkL (upd (hp s) (cur s) (zero_like (deref (hp s) (cur s) dflt))) (cur s) (buf s), None)
    end.

  (** A whole run: the contents applied in each frame. *)
  Fixpoint lrun (dflt : V) (s : lstate) (ops : list lop) : list (result V) :=
    match ops with
    | [] => []
    | o :: rest =>
        match lstep dflt s o with
        | Ok (s', Some v) => Ok v :: lrun dflt s' rest
        | Ok (s', None) => lrun dflt s' rest
        | Err e => [Err e]
        end
    end.

  (** The state after a run (None if some operation raised). *)
  Fixpoint lexec (dflt : V) (s : lstate) (ops : list lop) : option lstate :=
    match ops with
    | [] => Some s
    | o :: rest => match lstep dflt s o with Ok (s', _) => lexec dflt s' rest | Err _ => None end
    end.

  (** soapy/simulation.py:301-302  after aoinit: one zero array, empty buffer *)
  Definition linit (z : V) : lstate := mkL [z] O [].
End Delay.

Arguments pops {V} n b r.
Arguments delay {V} zero_like b value count.
Arguments run_delay {V} zero_like b calls.
Arguments new_buffer {V}.
Arguments LFrame {V} v c.
Arguments LFrameNoDM {V} c.
Arguments LReset {V}.
Arguments mkL {V} hp cur buf.
Arguments hp {V} l.
Arguments cur {V} l.
Arguments buf {V} l.
Arguments lstep {V} zero_like dflt s o.
Arguments lrun {V} zero_like dflt s ops.
Arguments linit {V} z.
Arguments lexec {V} zero_like dflt s ops.
Arguments delay_ref {V} zero_like dflt h b l count.
Arguments deref {V} h l dflt.

(** Python semantics shared by all models: exceptions as values, [int()], [round()], slices,
    list assignment and indexing.  Nothing in this file models a particular soapy function. *)
From Coq Require Export List ZArith Lia Bool.
Export ListNotations.
Open Scope Z_scope.

(** Python exception classes that occur in the modelled code. *)
Inductive exn : Type :=
| IndexError | ValueError | TypeError | AttributeError | KeyError
| ZeroDivisionError | AssertionError | NameError
| OSError                 (* IOError is an alias of OSError in Python 3 *)
| ConfigurationError      (* soapy/confParse.py: class ConfigurationError(Exception) *)
| LinAlgError             (* numpy.linalg *)
| KeyboardInterrupt.

Inductive result (A : Type) : Type :=
| Ok (a : A)
| Err (e : exn).
Arguments Ok {A} a.
Arguments Err {A} e.

Definition bind {A B} (r : result A) (f : A -> result B) : result B :=
  match r with Ok a => f a | Err e => Err e end.
Notation "'let*' x ':=' e1 'in' e2" := (bind e1 (fun x => e2))
  (at level 200, x name, e1 at level 100, e2 at level 200).

Definition is_ok {A} (r : result A) : bool := match r with Ok _ => true | Err _ => false end.

(** ** Integer conversions of rationals given as numerator and positive denominator *)

(** Python 3 [round(x)] for x = n/d, d > 0: nearest integer, ties to even. *)
Definition round_div (n d : Z) : Z :=
  let q := n / d in
  let r := n mod d in
  if 2 * r <? d then q
  else if d <? 2 * r then q + 1
  else if Z.even q then q else q + 1.

(** Python [int(x)] for x = n/d: truncation toward zero. *)
Definition trunc_div (n d : Z) : Z := Z.quot n d.

(** numpy.ceil(n/d) for d > 0 *)
Definition ceil_div (n d : Z) : Z := - ((- n) / d).

(** ** Slices *)

(** Normalisation of a slice end point against a length n (step 1). *)
Definition norm_ix (n i : Z) : Z :=
  if i <? 0 then Z.max 0 (i + n) else Z.min i n.

(** Number of elements of x[a:b] when len(x) = n. *)
Definition slice_len (n a b : Z) : Z := Z.max 0 (norm_ix n b - norm_ix n a).

(** x[a:b] on a list. *)
Definition pyslice {A} (l : list A) (a b : Z) : list A :=
  let n := Z.of_nat (length l) in
  let lo := norm_ix n a in
  let hi := norm_ix n b in
  firstn (Z.to_nat (hi - lo)) (skipn (Z.to_nat lo) l).

(** x[i] on a list: negative indices count from the end, out of range raises IndexError. *)
Definition pyget {A} (l : list A) (i : Z) : result A :=
  let n := Z.of_nat (length l) in
  let j := if i <? 0 then i + n else i in
  if (0 <=? j) && (j <? n) then
    match nth_error l (Z.to_nat j) with Some a => Ok a | None => Err IndexError end
  else Err IndexError.

(** list.pop(0): None models IndexError on an empty list. *)
Definition pop0 {A} (l : list A) : option (A * list A) :=
  match l with [] => None | x :: r => Some (x, r) end.

(** x[k] = v for a list/1-d array and an index already known to be in range; out of range leaves
    the list unchanged, callers guard it. *)
Fixpoint upd {A} (l : list A) (k : nat) (v : A) : list A :=
  match l, k with
  | [], _ => []
  | _ :: r, O => v :: r
  | x :: r, S k' => x :: upd r k' v
  end.

(** Checked x[k] = v. *)
Definition pyset {A} (l : list A) (i : Z) (v : A) : result (list A) :=
  let n := Z.of_nat (length l) in
  let j := if i <? 0 then i + n else i in
  if (0 <=? j) && (j <? n) then Ok (upd l (Z.to_nat j) v) else Err IndexError.

(** x[a:a+len(v)] = v for a in range; the caller guarantees 0 <= a and a + len v <= len x. *)
Definition splice {A} (l : list A) (a : nat) (v : list A) : list A :=
  firstn a l ++ v ++ skipn (a + length v) l.

(** ** 2-d numpy arrays: shape and index function *)
Record arr (A : Type) : Type := mkArr { nrow : Z; ncol : Z; at2 : Z -> Z -> A }.
Arguments mkArr {A} nrow ncol at2.
Arguments nrow {A} a.
Arguments ncol {A} a.
Arguments at2 {A} a.

(** Equality of arrays: same shape, same value at every valid index. *)
Definition arr_eq {A} (x y : arr A) : Prop :=
  nrow x = nrow y /\ ncol x = ncol y /\
  forall i j, 0 <= i < nrow x -> 0 <= j < ncol x -> at2 x i j = at2 y i j.

(** x[a:b, c:d] *)
Definition slice2 {A} (x : arr A) (a b c d : Z) : arr A :=
  let r0 := norm_ix (nrow x) a in
  let c0 := norm_ix (ncol x) c in
  mkArr (slice_len (nrow x) a b) (slice_len (ncol x) c d)
        (fun i j => at2 x (r0 + i) (c0 + j)).

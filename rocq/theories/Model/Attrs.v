(** A small language of attribute effects: what running a Python method does to
    the attributes of the object it is called on, with everything else dropped.

    Models how the classes of soapy are executed: instance attributes, methods
    and properties found along the method resolution order, `super`, loops,
    branches, exceptions.  The programs themselves (Model/AttrsCode.v) are read
    off /repo by tools/extract_attrs.py, e.g. soapy/DM.py:77-136 becomes
    [m_DM_init].

    Simplifications: a test that is not a configuration switch, a `hasattr` or a
    comparison of an attribute with 0/None/False may go either way; a loop may
    run any number of times; any statement may raise an exception of its own
    before doing anything; attributes are never deleted (the script checks that
    the code has no `del self.x`) and are written only by methods of the object;
    configuration switches do not change during the life of the object. *)
From Coq Require Import List String Bool.
Import ListNotations.
Open Scope string_scope.

(** Statements.  (soapy/*.py: every method body.) *)
Inductive stmt :=
| Skip
| Get (a : string)                     (* self.a *)
| Put (a : string)                     (* self.a = ... *)
| Inv (m : string)                     (* self.m(...) *)
| Undef (x : string)                   (* a name that nothing binds *)
| Sup (k m : string)                   (* super(k, self).m(...) *)
| Own (k m : string)                   (* k.m(self, ...) *)
| Seq (s1 s2 : stmt)
| Or (s1 s2 : stmt)                    (* if <anything>: s1 else: s2 *)
| Cond (c : string) (s1 s2 : stmt)     (* if <configuration switch c>: s1 else: s2 *)
| IfHas (a : string) (s1 s2 : stmt)    (* if hasattr(self, a): s1 else: s2 *)
| Loop (s : stmt)
| Try (ca cn : bool) (s h : stmt)      (* try: s except ...: h; ca, cn: the handler
                                          catches AttributeError, NameError *)
| Ret | Rse | Brk.                     (* return, raise, break/continue *)

Notation "a ;; b" := (Seq a b) (at level 61, right associativity).

(** A class: its own methods, properties, setters and class attributes, and the
    list of classes searched for an instance (type.__mro__). *)
Record cls := { c_name : string;
                c_meth : list (string * stmt);
                c_get : list (string * stmt);
                c_set : list (string * stmt);
                c_attrs : list string }.
Definition mro := list cls.

(** How running a statement can end: falling off its end, at a return or a
    break, by an exception, or by one of the two errors this model is about: an
    attribute the object does not have, a name that is not bound. *)
Inductive outcome :=
| Norm | Retn | Brkn | Exc
| MissA (a : string)                   (* AttributeError on self.a *)
| MissN (x : string).                  (* NameError on x *)

Fixpoint assoc (m : string) (l : list (string * stmt)) : option stmt :=
  match l with
  | [] => None
  | (k, s) :: l => if String.eqb k m then Some s else assoc m l
  end.

(** First class along the resolution order with an entry for [m]. *)
Fixpoint find_in (f : cls -> list (string * stmt)) (M : mro) (m : string) : option stmt :=
  match M with
  | [] => None
  | c :: M => match assoc m (f c) with
              | Some s => Some s
              | None => find_in f M m
              end
  end.

Definition mem (a : string) (l : list string) : bool := existsb (String.eqb a) l.

(** Classes searched by super(k, self), and by k.m. *)
Fixpoint after (k : string) (M : mro) : option mro :=
  match M with
  | [] => None
  | c :: M => if String.eqb (c_name c) k then Some M else after k M
  end.
Fixpoint from (k : string) (M : mro) : option mro :=
  match M with
  | [] => None
  | c :: M' => if String.eqb (c_name c) k then Some M else from k M'
  end.

(** self.a: a property, an instance attribute, a method, a class attribute, or
    nothing (object.__getattribute__, with the properties of soapy's classes as
    data descriptors). *)
Inductive found := IsProp (g : stmt) | IsPlain | IsMeth (b : stmt) | IsMissing.
Definition lookup (M : mro) (S : list string) (a : string) : found :=
  match find_in c_get M a with
  | Some g => IsProp g
  | None =>
    if mem a S then IsPlain
    else match find_in c_meth M a with
         | Some b => IsMeth b
         | None => if existsb (fun c => mem a (c_attrs c)) M then IsPlain else IsMissing
         end
  end.

(** What a call makes of the way its body ended. *)
Definition returned (o : outcome) : outcome :=
  match o with Retn | Brkn => Norm | o => o end.

(** Which body a statement that calls something runs; [inl] is the outcome when
    it runs none. *)
Definition callee (M : mro) (S : list string) (s : stmt) : option (outcome + stmt) :=
  match s with
  | Get a =>
    Some match lookup M S a with
         | IsProp g => inr g
         | IsMissing => inl (MissA a)
         | _ => inl Norm
         end
  | Inv m =>
    Some match lookup M S m with
         | IsProp g => inr g
         | IsMeth b => inr b
         | IsPlain => inl Norm
         | IsMissing => inl (MissA m)
         end
  | Sup k m =>
    Some match after k M with
         | None => inl Exc                       (* TypeError: obj must be an instance *)
         | Some M' => match find_in c_meth M' m with
                      | Some b => inr b
                      | None => if String.eqb m "__init__" then inl Norm else inl (MissA m)
                      end
         end
  | Own k m =>
    Some match from k M with
         | None => inl Exc
         | Some M' => match find_in c_meth M' m with
                      | Some b => inr b
                      | None => inl (MissA m)
                      end
         end
  | Put a =>
    match find_in c_set M a with
    | Some b => Some (inr b)
    | None => match find_in c_get M a with
              | Some _ => Some (inl (MissA a))   (* property without a setter *)
              | None => None                     (* plain instance attribute *)
              end
    end
  | _ => None
  end.

(** Running a statement: [exec rho M s S S' o] holds when [s], run on an object
    of a class with resolution order [M] whose attributes are [S], under the
    configuration in which exactly the switches [rho] are on, can end with
    outcome [o] and attributes [S']. *)
Inductive exec (rho : list string) (M : mro) :
  stmt -> list string -> list string -> outcome -> Prop :=
| X_raise s S : exec rho M s S S Exc
| X_skip S : exec rho M Skip S S Norm
| X_ret S : exec rho M Ret S S Retn
| X_brk S : exec rho M Brk S S Brkn
| X_undef x S : exec rho M (Undef x) S S (MissN x)
| X_none s S o : callee M S s = Some (inl o) -> exec rho M s S S o
| X_call s S b S' o : callee M S s = Some (inr b) -> exec rho M b S S' o ->
    exec rho M s S S' (returned o)
| X_put a S : callee M S (Put a) = None -> exec rho M (Put a) S (a :: S) Norm
| X_seq s1 s2 S S1 S2 o : exec rho M s1 S S1 Norm -> exec rho M s2 S1 S2 o ->
    exec rho M (Seq s1 s2) S S2 o
| X_seq_stop s1 s2 S S1 o : exec rho M s1 S S1 o -> o <> Norm ->
    exec rho M (Seq s1 s2) S S1 o
| X_or_l s1 s2 S S' o : exec rho M s1 S S' o -> exec rho M (Or s1 s2) S S' o
| X_or_r s1 s2 S S' o : exec rho M s2 S S' o -> exec rho M (Or s1 s2) S S' o
| X_cond c s1 s2 S S' o : exec rho M (if mem c rho then s1 else s2) S S' o ->
    exec rho M (Cond c s1 s2) S S' o
| X_has a s1 s2 S S' o : exec rho M (if mem a S then s1 else s2) S S' o ->
    exec rho M (IfHas a s1 s2) S S' o
| X_loop_end s S : exec rho M (Loop s) S S Norm
| X_loop_more s S S1 S2 o1 o : exec rho M s S S1 o1 -> o1 = Norm \/ o1 = Brkn ->
    exec rho M (Loop s) S1 S2 o -> exec rho M (Loop s) S S2 o
| X_loop_stop s S S1 o : exec rho M s S S1 o -> o <> Norm -> o <> Brkn ->
    exec rho M (Loop s) S S1 o
| X_try ca cn s h S S' o : exec rho M s S S' o ->
    (forall a, o = MissA a -> ca = false) -> (forall x, o = MissN x -> cn = false) ->
    exec rho M (Try ca cn s h) S S' o
| X_try_exc ca cn s h S S1 S2 o : exec rho M s S S1 Exc -> exec rho M h S1 S2 o ->
    exec rho M (Try ca cn s h) S S2 o
| X_try_attr cn s h S S1 S2 a o : exec rho M s S S1 (MissA a) -> exec rho M h S1 S2 o ->
    exec rho M (Try true cn s h) S S2 o
| X_try_name ca s h S S1 S2 x o : exec rho M s S S1 (MissN x) -> exec rho M h S1 S2 o ->
    exec rho M (Try ca true s h) S S2 o.

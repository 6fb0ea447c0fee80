(** Specification: checkouts, what git says about them, and their names. *)
From Coq Require Import Decimal DecimalString String Ascii Arith Bool List.
From Verif.Model Require Import Version.
Import ListNotations.
Local Open Scope string_scope.

Definition decimal (n : nat) : string := NilZero.string_of_uint (Nat.to_uint n).
(** A checkout: some commits after the nearest version tag, or in a repository without such tags; with the abbreviated (or full) hash of its commit,
    and whether files were changed. *)
Inductive checkout := Tagged (tag : string) (n : nat) (hash : string) (dirty : bool) | Untagged (commits : nat) (hash : string) (dirty : bool).
Definition digit_first (s : string) : Prop := exists c r, s = String c r /\ In c (list_ascii_of_string "0123456789").
Definition all_hex (s : string) : Prop := Forall (fun c => In c (list_ascii_of_string "0123456789abcdef")) (list_ascii_of_string s).
(** Version tags are "v", a digit and anything; hashes are not empty. *)
Definition valid (c : checkout) : Prop :=
  match c with
  | Tagged t _ h _ => digit_first t /\ all_hex h /\ h <> ""
  | Untagged _ h _ => all_hex h /\ h <> ""
  end.
(** git describe --tags --dirty --always --long --match v[[:digit:]]* *)
Definition describe (c : checkout) : string :=
  match c with
  | Tagged t n h d => "v" ++ t ++ "-" ++ decimal n ++ "-g" ++ h ++ (if d then "-dirty" else "")
  | Untagged _ h d => h ++ (if d then "-dirty" else "")
  end.
(** git rev-parse HEAD, and the number of commits *)
Definition full_hash (c : checkout) : string := match c with Tagged _ _ h _ => h | Untagged _ h _ => h end.
Definition commits (c : checkout) : nat := match c with Tagged _ n _ _ => n | Untagged n _ _ => n end.
Definition version (c : checkout) : string := version_of (describe c) (full_hash c) (commits c).
(** The name of a checkout: TAG[+N.gHASH[.dirty]], or 0+untagged.N.gHASH[.dirty] with seven digits of the hash. *)
Definition name_of (c : checkout) : string :=
  match c with
  | Tagged t n h d => if (n =? 0)%nat && negb d then t else t ++ (if in_dec ascii_dec "+"%char (list_ascii_of_string t) then "." else "+") ++ decimal n ++ ".g" ++ h ++ (if d then ".dirty" else "")
  | Untagged n h d => "0+untagged." ++ decimal n ++ ".g" ++ substring 0 7 h ++ (if d then ".dirty" else "")
  end.
Definition plain (c : checkout) : Prop := match c with Tagged t _ _ _ => ~ In "+"%char (list_ascii_of_string t) | Untagged _ _ _ => True end.
(** The same code: the same tag and distance from it, the same changed flag, and, except on the tag itself, the same hash (to seven digits without tags). *)
Definition same_code (c c' : checkout) : Prop :=
  match c, c' with
  | Tagged t n h d, Tagged t' n' h' d' => t = t' /\ n = n' /\ d = d' /\ (n = 0%nat /\ d = false \/ h = h')
  | Untagged n h d, Untagged n' h' d' => n = n' /\ d = d' /\ substring 0 7 h = substring 0 7 h'
  | _, _ => False
  end.

(** ** Archives *)
(** The names git puts in an archive of a commit with these tags, on these branches ([head]: "HEAD" or "HEAD -> master"). *)
Definition names (head : string) (tags branches : list string) : list string := head :: map (append "tag: ") tags ++ branches.
(** A tag or branch that looks like version [v]. *)
Definition looks_like (r v : string) : Prop := r = "v" ++ v /\ digit_first v.
Definition not_a_tag (r : string) : Prop := forall t, r <> "tag: " ++ t.
(** Alphabetical order, by the codes of the characters. *)
Definition before (a b : string) : Prop :=
  (exists s, b = a ++ s) \/ exists p x y a' b', a = p ++ String x a' /\ b = p ++ String y b' /\ (nat_of_ascii x < nat_of_ascii y)%nat.

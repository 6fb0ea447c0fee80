(** The version string of the package (soapy/_version.py). *)
From Coq Require Import Decimal DecimalString String Ascii Arith Bool List.
Import ListNotations.
Local Open Scope string_scope.

(** ** Strings *)
Definition is_digit (c : ascii) : bool := let n := nat_of_ascii c in ((48 <=? n) && (n <=? 57))%nat%bool.
Definition is_hex (c : ascii) : bool := is_digit c || (let n := nat_of_ascii c in ((97 <=? n) && (n <=? 102))%nat%bool).
Definition has (c : ascii) (s : string) : bool := existsb (Ascii.eqb c) (list_ascii_of_string s).
(** str.startswith and the rest *)
Fixpoint after (p s : string) : option string :=
  match p, s with
  | EmptyString, _ => Some s
  | String a p, String b s => if Ascii.eqb a b then after p s else None
  | String _ _, EmptyString => None
  end.
(** The longest end of a list whose elements satisfy [f], and what is before it. *)
Fixpoint span {A} (f : A -> bool) (l : list A) : list A * list A :=
  match l with
  | [] => ([], [])
  | x :: r => if f x then let p := span f r in (x :: fst p, snd p) else ([], l)
  end.
Definition span_end {A} (f : A -> bool) (l : list A) : list A * list A := let p := span f (rev l) in (rev (snd p), rev (fst p)).
(** str.endswith, and what is before *)
Definition before_end (p s : list ascii) : option (list ascii) :=
  let n := length s - length p in
  if list_eq_dec ascii_dec (skipn n s) p then Some (firstn n s) else None.
(** "%d" and int() *)
Definition show_nat (n : nat) : string := NilZero.string_of_uint (Nat.to_uint n).
Definition read_nat (s : string) : option nat := option_map Nat.of_uint (NilZero.uint_of_string s).

(** ** A checkout *)
(** soapy/_version.py:340-345, 363-378  pieces: closest-tag, distance, short, dirty *)
Record pieces := mkPieces { v_tag : option string; v_distance : nat; v_short : string; v_dirty : bool }.
(** soapy/_version.py:350  re.search of TAG-NUM-gHEX: HEX has no "g" and NUM no "-", so there is at most one way to read it *)
Definition read_long (d : list ascii) : option (string * nat * string) :=
  let '(l, h) := span_end is_hex d in
  match h, before_end (list_ascii_of_string "-g") l with
  | _ :: _, Some l =>
      let '(l, n) := span_end is_digit l in
      match before_end ["-"%char] l, read_nat (string_of_list_ascii n) with
      | Some ((_ :: _) as t), Some n => Some (string_of_list_ascii t, n, string_of_list_ascii h)
      | _, _ => None
      end
  | _, _ => None
  end.
(** soapy/_version.py:300, 336-387  git_pieces_from_vcs from the outputs of git: describe, rev-parse HEAD and the number of commits; [None]: an error was noted.
    Left out: git failing, the branch (unused in this style) and the date. *)
Definition pieces_of (tag_prefix describe full : string) (commits : nat) : option pieces :=
  let d := list_ascii_of_string describe in
  let '(dirty, d) := match before_end (list_ascii_of_string "-dirty") d with Some d => (true, d) | None => (false, d) end in
  if existsb (Ascii.eqb "-") d then
    match read_long d with
    | None => None
    | Some (t, n, h) => match after tag_prefix t with None => None | Some t => Some (mkPieces (Some t) n h dirty) end
    end
  else Some (mkPieces None commits (substring 0 7 full) dirty).
(** soapy/_version.py:390-394 *)
Definition plus_or_dot (t : string) : string := if has "+" t then "." else "+".
(** soapy/_version.py:397-419; an empty tag counts as none *)
Definition render_pep440 (p : pieces) : string :=
  match v_tag p with
  | Some ((String _ _) as t) =>
      if negb (v_distance p =? 0)%nat || v_dirty p
      then t ++ plus_or_dot t ++ show_nat (v_distance p) ++ ".g" ++ v_short p ++ (if v_dirty p then ".dirty" else "")
      else t
  | _ => "0+untagged." ++ show_nat (v_distance p) ++ ".g" ++ v_short p ++ (if v_dirty p then ".dirty" else "")
  end.
(** soapy/_version.py:54, 604-617, 669-671  get_versions()['version'] in a checkout, with tag prefix "v" *)
Definition version_of (describe full : string) (commits : nat) : string :=
  match pieces_of "v" describe full commits with None => "unknown" | Some p => render_pep440 p end.

(** ** An archive made by git (git archive) *)
Definition ascii_leb (a b : ascii) : bool := (nat_of_ascii a <=? nat_of_ascii b)%nat.
Fixpoint str_leb (a b : list ascii) : bool :=
  match a, b with
  | [], _ => true
  | _ :: _, [] => false
  | x :: a, y :: b => if Ascii.eqb x y then str_leb a b else ascii_leb x y
  end.
Fixpoint ins (x : string) (l : list string) : list string :=
  match l with [] => [x] | y :: r => if str_leb (list_ascii_of_string x) (list_ascii_of_string y) then x :: l else y :: ins x r end.
(** sorted(tags) *)
Definition sorted (l : list string) : list string := fold_right ins [] l.
Definition starts_with_digit (s : string) : bool := match s with String c _ => is_digit c | EmptyString => false end.
(** soapy/_version.py:229-244: the first of the sorted names that is the prefix and then a digit *)
Fixpoint pick (tag_prefix : string) (l : list string) : option string :=
  match l with
  | [] => None
  | r :: l => match after tag_prefix r with
              | Some v => if starts_with_digit v then Some v else pick tag_prefix l
              | None => pick tag_prefix l
              end
  end.
(** soapy/_version.py:206-249  git_versions_from_keywords()['version'] when git has put the names of the commit in [refs] (separated and stripped) *)
Definition archive_version (refs : list string) : string :=
  let tags := flat_map (fun r => match after "tag: " r with Some t => [t] | None => [] end) refs in
  let tags := match tags with [] => filter (fun r => existsb is_digit (list_ascii_of_string r)) refs | _ => tags end in
  match pick "v" (sorted tags) with Some v => v | None => "0+unknown" end.

(** What the theorems about whole configuration files talk about. *)
From Coq Require Import String Ascii.
From Verif.Base Require Import Vec.
From Verif.Model Require Import Config ConfigFile.
Open Scope string_scope.
Open Scope list_scope.
Open Scope Z_scope.

(** Two objects of one class with the same attributes. *)
Definition same_obj (o o' : obj) : Prop := o_kind o = o_kind o' /\ forall p, o_attr o p = o_attr o' p.
Definition same_opt (a b : option obj) : Prop :=
  match a, b with Some x, Some y => same_obj x y | None, None => True | _, _ => False end.
Definition same_wfs (w w' : wobj) : Prop := same_obj (w_obj w) (w_obj w') /\ same_opt (w_lgs w) (w_lgs w').
Definition same_config (c c' : config) : Prop :=
  same_obj (c_sim c) (c_sim c') /\ same_obj (c_atmos c) (c_atmos c') /\ same_obj (c_tel c) (c_tel c') /\ same_obj (c_recon c) (c_recon c') /\
  Forall2 same_wfs (c_wfss c) (c_wfss c') /\ Forall2 same_obj (c_dms c) (c_dms c') /\ Forall2 same_obj (c_scis c) (c_scis c').
(** Both loads give the same configuration, or both raise. *)
Definition same_outcome (r r' : result config) : Prop :=
  match r, r' with Ok c, Ok c' => same_config c c' | Err _, Err _ => True | _, _ => False end.

(** A python group, which gives a list of values for each parameter, says the same as a list of mappings, one for each component. *)
Definition column_of (p : string) (col : pdict) (rows : list pdict) : Prop :=
  (col p = None /\ forall r, In r rows -> r p = None) \/
  (exists l, col p = Some (VList l) /\ length l = length rows /\
             forall i r, nth_error rows i = Some r -> r p = nth_error l i).
Definition transposed (col : pdict) (rows : list pdict) : Prop := forall p, column_of p col rows.
(** For the sensors: [flags] tells which have a laser guide star; the group "LGS" gives the parameters of guide stars for all of them
    ([lrows]), and those of the sensors without one could be loaded. *)
Definition same_sensors (fl : string -> option Qc) (col lcol : pdict) (rows : list wrow) : Prop :=
  exists flags lrows, length flags = length rows /\ length lrows = length rows /\
    (forall p, p <> "lgs" -> column_of p col (map r_par rows)) /\
    (col "lgs" = Some (VList (map VBool flags)) \/ (col "lgs" = None /\ forall b, In b flags -> b = false)) /\
    transposed lcol lrows /\
    (forall i r b l, nth_error rows i = Some r -> nth_error flags i = Some b -> nth_error lrows i = Some l ->
       if b then r_lgs r = Some (LMap l)
       else r_lgs r = None /\ exists o, load_onto fl None l (blank KLgs) = Ok o).
(** A python file and a YAML file with the same contents. *)
Record same_file (fl : string -> option Qc) (p : pyfile) (y : yfile) : Prop := {
  sf_sim : p "Sim" = Some (match y_sim y with Some d => d | None => y_top y end);
  sf_groups : forall g, In g ["Atmosphere"; "Telescope"; "Reconstructor"] -> p g = y_group y g;
  sf_wfs : match p "WFS", p "LGS", y_wfs y with
           | Some c, Some l, Some rows => same_sensors fl c l rows
           | None, None, None => True
           | _, _, _ => False end;
  sf_dm : match p "DM", y_dm y with Some c, Some rows => transposed c rows | None, None => True | _, _ => False end;
  sf_sci : match p "Science", y_sci y with Some c, Some rows => transposed c rows | None, None => True | _, _ => False end }.

(** The loaders in a module whose names are as it defines them. *)
Definition from_python (fl : string -> option Qc) (p : pyfile) : result config := load_py fl (find_class module_env) p empty_config.
Definition from_yaml (fl : string -> option Qc) (y : yfile) : result config := load_yaml fl (find_class module_env) y empty_config.

(** The groups a configuration needs from a python file: the four of the system as a whole, and those of the components it has. *)
Definition needed (c : config) (g : string) : bool :=
  existsb (String.eqb g) ["Sim"; "Atmosphere"; "Telescope"; "Reconstructor"] ||
  (existsb (String.eqb g) ["WFS"; "LGS"] && negb (Nat.eqb (length (c_wfss c)) 0)) ||
  (String.eqb g "DM" && negb (Nat.eqb (length (c_dms c)) 0)) ||
  (String.eqb g "Science" && negb (Nat.eqb (length (c_scis c)) 0)).
Definition drop_group (p : pyfile) (g : string) : pyfile := fun n => if String.eqb n g then None else p n.
Definition drop_ygroup (y : yfile) (g : string) : yfile :=
  mkY (y_top y) (if String.eqb g "Sim" then None else y_sim y) (fun n => if String.eqb n g then None else y_group y n)
      (if String.eqb g "WFS" then None else y_wfs y) (if String.eqb g "DM" then None else y_dm y)
      (if String.eqb g "Science" then None else y_sci y).
(** soapy/confParse.py:61  the groups named by the documentation of python files *)
Definition documented_groups : list string := ["Sim"; "Atmosphere"; "Telescope"; "WFS"; "LGS"; "DM"; "Science"].

(** The number given by a parameter of an object. *)
Definition number_is (o : obj) (p : string) (n : nat) : Prop := exists v, o_attr o p = Some v /\ as_count v = Ok n.
(** Groups of two files that agree on the first [n] values of every parameter. *)
Definition agree_upto (n : nat) (a b : option pdict) : Prop :=
  match a, b with
  | Some d, Some d' => forall p, match d p, d' p with
                                 | Some v, Some v' => forall i, (i < n)%nat -> subscript v i = subscript v' i
                                 | None, None => True
                                 | _, _ => False end
  | None, None => True
  | _, _ => False
  end.
Definition rows_upto {A} (n : nat) (a b : option (list A)) : Prop :=
  match a, b with Some l, Some l' => firstn n l = firstn n l' | None, None => True | _, _ => False end.

(** ** Histories *)
(** The names a configuration file binds. *)
Definition binds (p : list pstmt) : list string :=
  flat_map (fun s => match s with Bind x _ | Copy x _ => [x] | Raise => [] end) p.
(** A file that reads no name it has not bound itself. *)
Fixpoint own_names (bound : list string) (p : list pstmt) : Prop :=
  match p with
  | [] => True
  | Bind x _ :: r => own_names (x :: bound) r
  | Copy x y :: r => In y bound /\ own_names (x :: bound) r
  | Raise :: r => own_names bound r
  end.
Definition self_contained (p : list pstmt) : Prop := own_names [] p /\ In "simConfiguration" (binds p).
(** A file that leaves the classes of the module alone. *)
Definition keeps_classes (p : list pstmt) : Prop := forall x, In x (binds p) -> ~ In x (map fst module_names).
(** The global names after loading files one after another. *)
Fixpoint after (fl : string -> option Qc) (h : list (list pstmt)) (e : env) : env :=
  match h with [] => e | p :: r => after fl r (snd (load_python fl p e)) end.
(** A file that does not raise when run. *)
Definition runs (p : list pstmt) (e : env) : Prop := snd (exec p e) = true.

(** ** Names of files *)
Definition no_dot (s : string) : Prop := ~ In "."%char (list_ascii_of_string s).

(** ** Numbers written as text *)
(** soapy/confParse.py:832-833, 954-955, 1041-1043, 1174  the parameters turned into numbers when loaded *)
Definition converted (k : kind) : list string :=
  match k with KWfs => ["wavelength"] | KLgs => ["wavelength"; "height"] | KDm => ["iMatValue"; "svdConditioning"] | KSci => ["wavelength"] | _ => [] end.
(** soapy/confParse.py:827-833, 945-955, 1040-1043, 1171-1184  the parameters that loading may replace by a value worked out from the file *)
Definition derived (k : kind) : list string :=
  match k with KWfs => ["position"; "wavelength"] | KLgs => ["naProfile"; "wavelength"; "height"] | KDm => ["iMatValue"; "svdConditioning"] | KSci => ["wavelength"; "pxlScale"; "FOV"] | _ => [] end.
(** A group in which a parameter is given a value. *)
Definition with_par (d : pdict) (p : string) (v : val) : pdict := fun n => if String.eqb n p then Some v else d n.
(** Loading one object from both groups gives the same object, or raises for both. *)
Definition same_load (r r' : result obj) : Prop :=
  match r, r' with Ok o, Ok o' => same_obj o o' | Err _, Err _ => True | _, _ => False end.
(** A group written down as a list. *)
Definition dict_of (l : list (string * val)) : pdict := fun p => option_map snd (find (fun e => String.eqb (fst e) p) l).

(** Loading a whole configuration file: soapy/confParse.py, PY_Configurator, YAML_Configurator and loadSoapyConfig.

    Values are those of Model/Config.v; a numpy array is the list of its entries and an integer is the float of the same value.
    The sizes which calcParams derives are in Model/Config.v and are left out here. *)
From Coq Require Import String Ascii.
From Verif.Base Require Import Vec.
From Verif.Model Require Import Config.
Open Scope string_scope.
Open Scope list_scope.
Open Scope Z_scope.

(** ** Configuration objects *)
(** soapy/confParse.py:449, 573, 660, 839, 876, 957, 1045, 1090  the configuration classes *)
Inductive kind := KSim | KAtmos | KWfs | KTel | KLgs | KDm | KRecon | KSci.
Definition cls_of (k : kind) : cls :=
  match k with KSim => sim_cls | KAtmos => atmos_cls | KWfs => wfs_cls | KTel => tel_cls | KLgs => lgs_cls | KDm => dm_cls
             | KRecon => recon_cls | KSci => sci_cls end.
(** The attributes of an object, by name; the class is needed to find calcParams.  The index N is left out: it is only read while the
    object is loaded, where it is an argument below. *)
Record obj := mkObj { o_kind : kind; o_attr : pdict }.
(** soapy/confParse.py:342-345  an object just made *)
Definition blank (k : kind) : obj := mkObj k (fun _ => None).
(** self.p *)
Definition get (o : pdict) (p : string) : result val := match o p with Some v => Ok v | None => Err AttributeError end.

(** float(v); [fl] is Python's reading of a text as a number.  A list of one element, which numpy accepts as an array, is refused. *)
Definition to_float (fl : string -> option Qc) (v : val) : result val :=
  match v with
  | VNum q => Ok (VNum q)
  | VBool b => Ok (VNum (if b then 1 else 0)%Qc)
  | VStr s => match fl s with Some q => Ok (VNum q) | None => Err ValueError end
  | VNone | VList _ => Err TypeError
  end.
(** a value used as a number *)
Definition as_num (v : val) : option Qc :=
  match v with VNum q => Some q | VBool b => Some (if b then 1 else 0)%Qc | _ => None end.
(** a value used as a count, in range() or numpy.ones(); a fraction is refused *)
Definition as_int (v : val) : result Z :=
  match as_num v with
  | Some q => if qc_eqb (qz (qc_round q)) q then Ok (qc_round q) else Err TypeError
  | None => Err TypeError
  end.
Definition as_count (v : val) : result nat := let* z := as_int v in Ok (Z.to_nat z).
(** bool(v) *)
Definition truthy (v : val) : bool :=
  match v with VNone => false | VBool b => b | VNum q => negb (qc_eqb q 0) | VStr s => negb (String.eqb s "") | VList l => negb (Nat.eqb (length l) 0) end.
(** len(v) *)
Definition vlen (v : val) : result nat :=
  match v with VList l => Ok (length l) | VStr s => Ok (String.length s) | _ => Err TypeError end.
(** self.p = float(self.p) *)
Definition floated (fl : string -> option Qc) (k : cls) (p : string) (o : pdict) : result pdict :=
  let* v := get o p in let* x := to_float fl v in assigned k o p x.

(** soapy/confParse.py:650-657  numpy.array() of a list leaves its entries *)
Definition calc_atmos (o : pdict) : result pdict :=
  let* _ := get o "scrnHeights" in let* _ := get o "scrnStrengths" in let* _ := get o "windDirs" in let* _ := get o "windSpeeds" in
  let* _ := get o "L0" in Ok o.
(** soapy/confParse.py:827-833 *)
Definition calc_wfs_obj (fl : string -> option Qc) (o : pdict) : result pdict :=
  let* g := get o "GSPosition" in let* o1 := assigned wfs_cls o "position" g in floated fl wfs_cls "wavelength" o1.
(** soapy/confParse.py:945-955 *)
Definition calc_lgs (fl : string -> option Qc) (o : pdict) : result pdict :=
  let* o1 := match o "naProfile" with
             | None | Some VNone => let* e := get o "elongationLayers" in let* n := as_int e in
                                    if n <? 0 then Err ValueError else assigned lgs_cls o "naProfile" (VList (repeat (num 1 1) (Z.to_nat n)))
             | Some _ => Ok o
             end in
  let* p := get o1 "naProfile" in let* n := vlen p in
  let* e := get o1 "elongationLayers" in
  match as_num e with
  | None => Err TypeError
  | Some q => if qc_ltb (qz (Z.of_nat n)) q then Err ConfigurationError
              else let* o2 := floated fl lgs_cls "wavelength" o1 in floated fl lgs_cls "height" o2
  end.
(** soapy/confParse.py:1040-1043 *)
Definition calc_dm (fl : string -> option Qc) (o : pdict) : result pdict :=
  let* o1 := floated fl dm_cls "iMatValue" o in floated fl dm_cls "svdConditioning" o1.
(** soapy/confParse.py:1184  self.pxlScale = float(self.FOV)/self.pxls *)
Definition scale_from_fov (fl : string -> option Qc) (f n : val) (o : pdict) : result pdict :=
  let* x := to_float fl f in
  match as_num x, as_num n with
  | Some a, Some b => if qc_eqb b 0 then Err ZeroDivisionError else assigned sci_cls o "pxlScale" (VNum (a / b)%Qc)
  | _, _ => Err TypeError
  end.
(** soapy/confParse.py:1180-1184  a scale is given; a product of a text or a list with a number (which Python repeats) is refused *)
Definition fov_from_scale (fl : string -> option Qc) (s f n : val) (o : pdict) : result pdict :=
  match as_num s, as_num n with
  | Some a, Some b => if match as_num f with Some c => qc_eqb (a * b)%Qc c | None => false end then scale_from_fov fl f n o
                      else assigned sci_cls o "FOV" (VNum (a * b)%Qc)
  | _, _ => Err TypeError
  end.
(** soapy/confParse.py:1171-1184 *)
Definition calc_sci_obj (fl : string -> option Qc) (o : pdict) : result pdict :=
  let* _ := get o "position" in
  let* o1 := floated fl sci_cls "wavelength" o in
  let* s := get o1 "pxlScale" in let* f := get o1 "FOV" in let* n := get o1 "pxls" in
  match s, f with
  | VNone, VNone => Err ConfigurationError
  | VNone, _ => scale_from_fov fl f n o1
  | _, _ => fov_from_scale fl s f n o1
  end.
(** calcParams of each class; soapy/confParse.py:411-415 for those which define none *)
Definition calc_obj (fl : string -> option Qc) (k : kind) (o : pdict) : result pdict :=
  match k with
  | KSim | KTel | KRecon => Ok o
  | KAtmos => calc_atmos o
  | KWfs => calc_wfs_obj fl o
  | KLgs => calc_lgs fl o
  | KDm => calc_dm fl o
  | KSci => calc_sci_obj fl o
  end.
(** soapy/confParse.py:359-409  loadParams: the required and optional parameters are written over what the object held *)
Definition load_onto (fl : string -> option Qc) (N : option nat) (d : pdict) (o : obj) : result obj :=
  let k := cls_of (o_kind o) in
  let* a := load_required k N d (required k) (o_attr o) in
  let* b := load_optional k N d (optional k) a in
  let* c := calc_obj fl (o_kind o) b in
  Ok (mkObj (o_kind o) c).

(** ** The configuration *)
(** An object made by calling the class found under a name. *)
Definition new (cl : string -> result kind) (name : string) : result obj := let* k := cl name in Ok (blank k).
(** A sensor's object, with the guide-star object that replaces its parameter "lgs". *)
Record wobj := mkW { w_obj : obj; w_lgs : option obj }.
Record config := mkC { c_sim : obj; c_atmos : obj; c_tel : obj; c_recon : obj; c_wfss : list wobj; c_dms : list obj; c_scis : list obj }.
(** soapy/confParse.py:76-87  __init__ *)
Definition empty_config : config := mkC (blank KSim) (blank KAtmos) (blank KTel) (blank KRecon) [] [] [].
Definition put (o : pdict) (p : string) (v : val) : pdict := fun n => if String.eqb n p then Some v else o n.
Definition put_obj (o : obj) (p : string) (v : val) : obj := mkObj (o_kind o) (put (o_attr o) p v).

(** [map] of a function that may raise, in order *)
Fixpoint map_r {A B} (f : A -> result B) (l : list A) : result (list B) :=
  match l with [] => Ok [] | a :: r => let* b := f a in let* t := map_r f r in Ok (b :: t) end.
Fixpoint upd {A} (l : list A) (i : nat) (x : A) : list A :=
  match l, i with
  | [], _ => []
  | _ :: r, O => x :: r
  | a :: r, Datatypes.S j => a :: upd r j x
  end.
(** the loops of 104-116, 118-121, 126-129 (and 304-321, 323-328, 334-339): entry [i] of the list is loaded after one fresh object has been appended *)
Fixpoint fill {A} (fresh : result A) (ld : nat -> A -> result A) (n i : nat) (l : list A) : result (list A) :=
  match n with
  | O => Ok l
  | Datatypes.S m => let* f := fresh in
                     let l1 := l ++ [f] in
                     let* x := ld i (nth i l1 f) in fill fresh ld m (Datatypes.S i) (upd l1 i x)
  end.
(** self.sim.nGS and the like, as the bound of range() *)
Definition count (o : obj) (p : string) : result nat := let* v := get (o_attr o) p in as_count v.

(** soapy/confParse.py:215-218 *)
Definition set_exposure (sim : obj) (w : wobj) : result wobj :=
  let* e := get (o_attr (w_obj w)) "exposureTime" in
  if truthy e then Ok w else let* t := get (o_attr sim) "loopTime" in
    let* a := assigned (cls_of (o_kind (w_obj w))) (o_attr (w_obj w)) "exposureTime" t in Ok (mkW (mkObj (o_kind (w_obj w)) a) (w_lgs w)).
(** soapy/confParse.py:225-228 *)
Definition set_L0 (atm : obj) : result obj :=
  let* l := get (o_attr atm) "L0" in
  match l with
  | VNone => let* n := count atm "scrnNo" in
             let* a := assigned (cls_of (o_kind atm)) (o_attr atm) "L0" (VList (repeat (num 10000000000 1) n)) in Ok (mkObj (o_kind atm) a)
  | _ => Ok atm
  end.
(** soapy/confParse.py:230-234 *)
Definition is_one (v : val) : bool := match as_num v with Some q => qc_eqb q 1 | None => false end.
Definition is_zero (v : val) : bool := match as_num v with Some q => qc_eqb q 0 | None => false end.
Definition set_stop (w : wobj) : result wobj :=
  let* n := get (o_attr (w_obj w)) "nxSubaps" in
  if is_one n then
    let* s := get (o_attr (w_obj w)) "subapFieldStop" in
    if is_zero s then let* a := assigned (cls_of (o_kind (w_obj w))) (o_attr (w_obj w)) "subapFieldStop" (VBool true) in
                      Ok (mkW (mkObj (o_kind (w_obj w)) a) (w_lgs w))
    else Ok w
  else Ok w.
(** soapy/confParse.py:236-239 *)
Definition set_diameter (tel : obj) (d : obj) : result obj :=
  let* v := get (o_attr d) "diameter" in
  match v with
  | VNone => let* t := get (o_attr tel) "telDiam" in
             let* a := assigned (cls_of (o_kind d)) (o_attr d) "diameter" t in Ok (mkObj (o_kind d) a)
  | _ => Ok d
  end.
Definition recalc (fl : string -> option Qc) (o : obj) : result obj := let* a := calc_obj fl (o_kind o) (o_attr o) in Ok (mkObj (o_kind o) a).
(** soapy/confParse.py:133-239  calcParams of the configurator, without the sizes (152-212) *)
Definition calc_config (fl : string -> option Qc) (c : config) : result config :=
  let* sim := recalc fl (c_sim c) in
  let* atm := recalc fl (c_atmos c) in
  let* tel := recalc fl (c_tel c) in
  let* ws := map_r (fun w => let* o := recalc fl (w_obj w) in Ok (mkW o (w_lgs w))) (c_wfss c) in
  let* ds := map_r (recalc fl) (c_dms c) in
  let* ss := map_r (recalc fl) (c_scis c) in
  let* ws := map_r (set_exposure sim) ws in
  let* atm := set_L0 atm in
  let* ws := map_r set_stop ws in
  let* ds := map_r (set_diameter tel) ds in
  Ok (mkC sim atm tel (c_recon c) ws ds ss).

(** ** Python files *)
(** The dictionary ``simConfiguration``: its groups, by name. *)
Definition pyfile := string -> option pdict.
Definition group (f : pyfile) (g : string) : result pdict := match f g with Some d => Ok d | None => Err KeyError end.
(** soapy/confParse.py:104-116  the sensor of one turn of the loop over the sensors; [w_lgs w] is the guide-star object loaded just before *)
Definition py_wfs (fl : string -> option Qc) (f : pyfile) (i : nat) (w : wobj) : result wobj :=
  let* d := group f "WFS" in
  let* o := load_onto fl (Some i) d (w_obj w) in
  let* t := get (o_attr o) "lgs" in
  Ok (mkW (put_obj o "lgs" VNone) (if truthy t then w_lgs w else None)).
(** The guide-star object is loaded first (105-107), then the sensor is appended; [cl] finds a class by its name. *)
Fixpoint py_wfss (fl : string -> option Qc) (cl : string -> result kind) (f : pyfile) (n i : nat) (l : list wobj) : result (list wobj) :=
  match n with
  | O => Ok l
  | Datatypes.S m =>
      let* kl := cl "LgsConfig" in
      let* gl := group f "LGS" in
      let* lgs := load_onto fl (Some i) gl (blank kl) in
      let* kw := cl "WfsConfig" in
      let l1 := l ++ [mkW (blank kw) None] in
      let* x := py_wfs fl f i (mkW (w_obj (nth i l1 (mkW (blank kw) None))) (Some lgs)) in
      py_wfss fl cl f m (Datatypes.S i) (upd l1 i x)
  end.
Definition py_each (fl : string -> option Qc) (f : pyfile) (g : string) (i : nat) (o : obj) : result obj :=
  let* d := group f g in load_onto fl (Some i) d o.
(** soapy/confParse.py:91-131  loadSimParams, the file having been read *)
Definition load_py (fl : string -> option Qc) (cl : string -> result kind) (f : pyfile) (c : config) : result config :=
  let* g := group f "Sim" in let* sim := load_onto fl None g (c_sim c) in
  let* g := group f "Atmosphere" in let* atm := load_onto fl None g (c_atmos c) in
  let* g := group f "Telescope" in let* tel := load_onto fl None g (c_tel c) in
  let* n := count sim "nGS" in let* ws := py_wfss fl cl f n 0 (c_wfss c) in
  let* n := count sim "nDM" in let* ds := fill (new cl "DmConfig") (py_each fl f "DM") n 0 (c_dms c) in
  let* g := group f "Reconstructor" in let* rec := load_onto fl None g (c_recon c) in
  let* n := count sim "nSci" in let* ss := fill (new cl "SciConfig") (py_each fl f "Science") n 0 (c_scis c) in
  calc_config fl (mkC sim atm tel rec ws ds ss).

(** ** YAML files *)
(** The "lgs" of a sensor: a mapping or any other value. *)
Inductive lgsv := LVal (v : val) | LMap (d : pdict).
(** An entry of the list "WFS": its parameters other than "lgs", and "lgs". *)
Record wrow := mkRow { r_par : pdict; r_lgs : option lgsv }.
(** The mapping in the file: the parameters at its top, the groups which are mappings, and the lists of components. *)
Record yfile := mkY { y_top : pdict; y_sim : option pdict; y_group : string -> option pdict;
                      y_wfs : option (list wrow); y_dm : option (list pdict); y_sci : option (list pdict) }.
Definition list_group {A} (l : option (list A)) (i : nat) : result A :=
  match l with None => Err KeyError | Some l => match nth_error l i with Some x => Ok x | None => Err IndexError end end.
Definition ygroup (f : yfile) (g : string) : result pdict := match y_group f g with Some d => Ok d | None => Err KeyError end.
Definition without (d : pdict) (p : string) : pdict := fun n => if String.eqb n p then None else d n.
(** soapy/confParse.py:304-321; what is not a mapping has no item "uplink": ConfigurationError (405-408) *)
Definition y_wfs_load (fl : string -> option Qc) (cl : string -> result kind) (f : yfile) (i : nat) (w : wobj) : result wobj :=
  let* r := list_group (y_wfs f) i in
  let* o := load_onto fl None (without (r_par r) "lgs") (w_obj w) in
  match r_lgs r with
  | None | Some (LVal VNone) => Ok (mkW (put_obj o "lgs" VNone) None)
  | Some (LVal _) => let* _ := new cl "LgsConfig" in Err ConfigurationError
  | Some (LMap d) => let* b := new cl "LgsConfig" in let* l := load_onto fl None d b in Ok (mkW (put_obj o "lgs" VNone) (Some l))
  end.
Definition y_each (fl : string -> option Qc) (l : option (list pdict)) (i : nat) (o : obj) : result obj :=
  let* d := list_group l i in load_onto fl None d o.
(** soapy/confParse.py:288-341  loadSimParams, the file having been read *)
Definition load_yaml (fl : string -> option Qc) (cl : string -> result kind) (f : yfile) (c : config) : result config :=
  let* sim := load_onto fl None (match y_sim f with Some d => d | None => y_top f end) (c_sim c) in
  let* g := ygroup f "Atmosphere" in let* atm := load_onto fl None g (c_atmos c) in
  let* g := ygroup f "Telescope" in let* tel := load_onto fl None g (c_tel c) in
  let* n := count sim "nGS" in let* ws := fill (let* o := new cl "WfsConfig" in Ok (mkW o None)) (y_wfs_load fl cl f) n 0 (c_wfss c) in
  let* n := count sim "nDM" in let* ds := fill (new cl "DmConfig") (y_each fl (y_dm f)) n 0 (c_dms c) in
  let* g := ygroup f "Reconstructor" in let* rec := load_onto fl None g (c_recon c) in
  let* n := count sim "nSci" in let* ss := fill (new cl "SciConfig") (y_each fl (y_sci f)) n 0 (c_scis c) in
  calc_config fl (mkC sim atm tel rec ws ds ss).

(** soapy/confParse.py:417-431  dict(obj) *)
Definition to_dict (k : cls) (o : pdict) : pdict :=
  fun p => if existsb (String.eqb p) (required k ++ map fst (optional k)) then o p else None.
Definition obj_dict (o : obj) : pdict := to_dict (cls_of (o_kind o)) (o_attr o).
(** soapy/confParse.py:242-272  dict(config).  The guide-star object stands as the value of "lgs"; subscripting it (445-446) reads its attributes. *)
Definition config_dict (c : config) : yfile :=
  mkY (fun _ => None) (Some (obj_dict (c_sim c)))
      (fun g => if String.eqb g "Atmosphere" then Some (obj_dict (c_atmos c))
                else if String.eqb g "Telescope" then Some (obj_dict (c_tel c))
                else if String.eqb g "Reconstructor" then Some (obj_dict (c_recon c)) else None)
      (Some (map (fun w => mkRow (without (obj_dict (w_obj w)) "lgs")
                                 (Some (match w_lgs w with Some l => LMap (obj_dict l) | None => LVal VNone end))) (c_wfss c)))
      (Some (map obj_dict (c_dms c))) (Some (map obj_dict (c_scis c))).

(** ** The module's global names *)
(** What a global name of soapy/confParse.py may hold. *)
Inductive gval := GVal (v : val) | GFile (f : pyfile) | GClass (k : kind).
Definition env := string -> option gval.
(** A configuration file as a program: it binds names to values or to what other names hold, or raises. *)
Inductive pstmt := Bind (x : string) (v : gval) | Copy (x y : string) | Raise.
Definition bind_name (e : env) (x : string) (v : gval) : env := fun n => if String.eqb n x then Some v else e n.
(** exec(text, globals()): what was bound before an exception stays bound *)
Fixpoint exec (p : list pstmt) (e : env) : env * bool :=
  match p with
  | [] => (e, true)
  | Bind x v :: r => exec r (bind_name e x v)
  | Copy x y :: r => match e y with Some v => exec r (bind_name e x v) | None => (e, false) end
  | Raise :: _ => (e, false)
  end.
(** calling a class found by its name *)
Definition find_class (e : env) (n : string) : result kind :=
  match e n with Some (GClass k) => Ok k | Some _ => Err TypeError | None => Err NameError end.
(** the classes defined by the module *)
Definition module_names : list (string * kind) :=
  [("SimConfig", KSim); ("AtmosConfig", KAtmos); ("WfsConfig", KWfs); ("TelConfig", KTel); ("LgsConfig", KLgs); ("DmConfig", KDm);
   ("ReconstructorConfig", KRecon); ("SciConfig", KSci)].
Definition module_env : env :=
  fun n => match find (fun p => String.eqb (fst p) n) module_names with Some (_, k) => Some (GClass k) | None => None end.
(** soapy/confParse.py:76-87  PY_Configurator(filename) *)
Definition new_config (e : env) : result config :=
  let* s := new (find_class e) "SimConfig" in let* a := new (find_class e) "AtmosConfig" in let* t := new (find_class e) "TelConfig" in
  let* r := new (find_class e) "ReconstructorConfig" in Ok (mkC s a t r [] [] []).
(** soapy/confParse.py:76-131  PY_Configurator(filename).loadSimParams(): the configuration and the global names afterwards *)
Definition load_python (fl : string -> option Qc) (p : list pstmt) (e : env) : result config * env :=
  match new_config e with
  | Err x => (Err x, e)
  | Ok c => let (e', ok) := exec p e in
            (if ok then match e' "simConfiguration" with
                        | Some (GFile f) => load_py fl (find_class e') f c
                        | Some _ => Err TypeError
                        | None => Err NameError
                        end
             else Err ConfigurationError, e')
  end.

(** ** Choosing the loader *)
(** configfile.split('.')[-1] *)
Fixpoint ext (s : string) : string :=
  match s with
  | EmptyString => EmptyString
  | String c r => if existsb (Ascii.eqb ".") (list_ascii_of_string r) then ext r else if Ascii.eqb c "." then r else s
  end.
(** A file, as PyYAML reads it and as Python runs it. *)
Record text := mkT { t_yaml : result yfile; t_python : list pstmt }.
(** soapy/confParse.py:1186-1205  loadSoapyConfig, PyYAML being installed; a file that cannot be opened raises OSError, which readfile of
    PY_Configurator turns into ConfigurationError (76-88) *)
Definition is_yaml (name : string) : bool := String.eqb (ext name) "yml" || String.eqb (ext name) "yaml".
Definition load_config (fl : string -> option Qc) (fs : string -> option text) (name : string) (e : env) : result config * env :=
  if is_yaml name then
    (match new_config e with
     | Err x => Err x
     | Ok c => match fs name with
               | None => Err OSError
               | Some t => let* y := t_yaml t in load_yaml fl (find_class e) y c
               end
     end, e)
  else match fs name with
       | None => (let* _ := new_config e in Err ConfigurationError, e)
       | Some t => load_python fl (t_python t) e
       end.
(** soapy/simulation.py:723-731  the name under which a run keeps a copy of its configuration file *)
Definition saved_name (path name : string) : string := String.append path (if is_yaml name then "/conf.yaml" else "/conf.py").

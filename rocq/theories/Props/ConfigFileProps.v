(** C125-C132: whole configuration files: the two formats, groups, numbers of components, histories of loading, file names,
    dictionaries of a configuration, numbers written as text. *)
From Coq Require Import String Ascii.
From Verif.Base Require Import Vec.
From Verif.Proofs Require Import ConfigProofs.
From Verif.Model Require Import Config ConfigFile.
From Verif.Spec Require Import ConfigSpec ConfigFileSpec.
From Verif.Proofs Require Import ConfigFileProofs ConfigFileMore ConfigFileHist ConfigFileDict ConfigFileTrip ConfigFileReload.
Open Scope string_scope.
Open Scope list_scope.
Open Scope Z_scope.

(** A small system for the examples: one sensor, one mirror, one camera; "600e-9" is a number for float(). *)
Definition demo_fl (s : string) : option Qc := if String.eqb s "600e-9" then Some (qfrac 6 10000000) else None.
Definition demo_sim := dict_of [("pupilSize", num 100 1); ("nIters", num 50 1); ("loopTime", num 1 400); ("nGS", num 1 1); ("nDM", num 1 1); ("nSci", num 1 1)].
Definition demo_atm := dict_of [("scrnNo", num 1 1); ("scrnHeights", VList [num 0 1]); ("scrnStrengths", VList [num 1 1]); ("r0", num 15 100);
                                ("windDirs", VList [num 0 1]); ("windSpeeds", VList [num 10 1])].
Definition demo_tel := dict_of [("telDiam", num 8 1)].
Definition demo_rec := dict_of [("type", VStr "MVM")].
Definition demo_wfs := dict_of [("GSPosition", VList [num 0 1; num 0 1]); ("wavelength", VStr "600e-9"); ("nxSubaps", num 8 1)].
Definition demo_dm := dict_of [("type", VStr "Piezo")].
Definition demo_sci := dict_of [("position", VList [num 0 1; num 0 1]); ("wavelength", num 2 1000000); ("pxls", num 64 1); ("FOV", num 2 1)].
Definition demo_y : yfile :=
  mkY (fun _ => None) (Some demo_sim)
    (fun g => if String.eqb g "Atmosphere" then Some demo_atm else if String.eqb g "Telescope" then Some demo_tel
              else if String.eqb g "Reconstructor" then Some demo_rec else None)
    (Some [mkRow demo_wfs None]) (Some [demo_dm]) (Some [demo_sci]).
Definition col (d : pdict) : pdict := fun p => option_map (fun v => VList [v]) (d p).
Definition demo_p : pyfile :=
  fun g => if String.eqb g "Sim" then Some demo_sim else if String.eqb g "Atmosphere" then Some demo_atm else if String.eqb g "Telescope" then Some demo_tel
           else if String.eqb g "Reconstructor" then Some demo_rec else if String.eqb g "WFS" then Some (col demo_wfs) else if String.eqb g "LGS" then Some (fun _ => None)
           else if String.eqb g "DM" then Some (col demo_dm) else if String.eqb g "Science" then Some (col demo_sci) else None.
Definition sizes (r : result config) : option (nat * nat * nat) :=
  match r with Ok c => Some (length (c_wfss c), length (c_dms c), length (c_scis c)) | Err _ => None end.
Lemma demo_python : exists c, from_python demo_fl demo_p = Ok c /\ length (c_wfss c) = 1%nat /\ length (c_dms c) = 1%nat /\ length (c_scis c) = 1%nat.
Proof.
  assert (H : sizes (from_python demo_fl demo_p) = Some (1, 1, 1)%nat) by (vm_compute; reflexivity).
  destruct (from_python demo_fl demo_p) as [c|]; [|discriminate]. exists c. injection H as -> -> ->. auto.
Qed.
Lemma demo_yaml : exists c, from_yaml demo_fl demo_y = Ok c /\ length (c_wfss c) = 1%nat /\ length (c_dms c) = 1%nat /\ length (c_scis c) = 1%nat.
Proof.
  assert (H : sizes (from_yaml demo_fl demo_y) = Some (1, 1, 1)%nat) by (vm_compute; reflexivity).
  destruct (from_yaml demo_fl demo_y) as [c|]; [|discriminate]. exists c. injection H as -> -> ->. auto.
Qed.
Lemma demo_column d q : column_of q (col d) [d].
Proof.
  unfold col. destruct (d q) as [v|] eqn:E.
  - right. exists [v]. rewrite E. split; [reflexivity|]. split; [reflexivity|]. intros [|[|i]] r H; simpl in H; try discriminate. injection H as <-. exact E.
  - left. rewrite E. split; [reflexivity|]. intros r [<- | []]. exact E.
Qed.

(** ** C125: the two formats *)
(** A python file and a YAML file that say the same give the same configuration, or both raise. *)
Theorem C125_formats_partial : forall fl p y, same_file fl p y -> same_outcome (from_python fl p) (from_yaml fl y).
Proof. exact same_configuration. Qed.
Print Assumptions C125_formats_partial.
(** But "LGS" may be left out of a YAML file only: a python file without it has no sensors, or does not load. *)
Theorem C125_formats_refuted : forall fl p c, from_python fl p = Ok c -> p "LGS" = None -> c_wfss c = [].
Proof. exact no_lgs. Qed.
Print Assumptions C125_formats_refuted.
Example C125_instance : same_file demo_fl demo_p demo_y /\ (exists c, from_yaml demo_fl demo_y = Ok c /\ c_wfss c <> []) /\ y_group demo_y "LGS" = None.
Proof.
  split; [|split; [destruct demo_yaml as (c & E & L & _); exists c; split; [exact E | intros X; rewrite X in L; discriminate] | reflexivity]].
  constructor.
  - reflexivity.
  - intros g Hg. simpl in Hg. destruct Hg as [<- | [<- | [<- | []]]]; reflexivity.
  - change (same_sensors demo_fl (col demo_wfs) (fun _ => None) [mkRow demo_wfs None]).
    exists [false], [fun _ => None]. split; [reflexivity|]. split; [reflexivity|]. split; [intros q _; apply demo_column|].
    split; [right; split; [reflexivity | intros b [<- | []]; reflexivity]|].
    split; [intros q; left; split; [reflexivity | intros r [<- | []]; reflexivity]|].
    intros [|[|i]] r b l H1 H2 H3; simpl in H1, H2, H3; try discriminate. injection H1 as <-. injection H2 as <-. injection H3 as <-. split; [reflexivity|].
    eexists. vm_compute. reflexivity.
  - intros q. apply demo_column.
  - intros q. apply demo_column.
Qed.

(** ** C126: the groups a file needs *)
(** Taking a group out of a python file that loads: if the system uses the group, KeyError; otherwise nothing changes. *)
Theorem C126_groups_partial : forall fl p c g, from_python fl p = Ok c ->
  from_python fl (drop_group p g) = if needed c g then Err KeyError else Ok c.
Proof. exact python_groups. Qed.
Print Assumptions C126_groups_partial.
(** The same for YAML files, where guide stars are given with their sensors. *)
Theorem C126_yaml_groups_partial : forall fl y c g, from_yaml fl y = Ok c -> g <> "Sim" ->
  from_yaml fl (drop_ygroup y g) = if needed c g && negb (String.eqb g "LGS") then Err KeyError else Ok c.
Proof. exact yaml_groups. Qed.
Print Assumptions C126_yaml_groups_partial.
(** But a file with the documented groups and no other never loads. *)
Theorem C126_documented_refuted : forall fl p, (forall g, p g <> None -> In g documented_groups) -> forall c, from_python fl p <> Ok c.
Proof.
  intros fl p H c E. apply no_recon in E. apply H in E. simpl in E. intuition discriminate.
Qed.
Print Assumptions C126_documented_refuted.
Example C126_instance : exists c, from_python demo_fl demo_p = Ok c /\ map (needed c) (documented_groups ++ ["Reconstructor"; "Other"]) = [true; true; true; true; true; true; true; true; false].
Proof. destruct demo_python as (c & E & L1 & L2 & L3). exists c. split; [exact E|]. unfold needed. rewrite L1, L2, L3. reflexivity. Qed.

(** ** C127: as many components as the file says *)
Theorem C127_counts : forall fl c, (exists p, from_python fl p = Ok c) \/ (exists y, from_yaml fl y = Ok c) ->
  number_is (c_sim c) "nGS" (length (c_wfss c)) /\ number_is (c_sim c) "nDM" (length (c_dms c)) /\ number_is (c_sim c) "nSci" (length (c_scis c)).
Proof. intros fl c [(p & H) | (y & H)]; [apply (python_counts fl p), H | apply (yaml_counts fl y), H]. Qed.
Print Assumptions C127_counts.
(** Values beyond these numbers are ignored. *)
Theorem C127_extras : forall fl p p' c, from_python fl p = Ok c ->
  (forall g, In g ["Sim"; "Atmosphere"; "Telescope"; "Reconstructor"] -> p g = p' g) ->
  agree_upto (length (c_wfss c)) (p "WFS") (p' "WFS") -> agree_upto (length (c_wfss c)) (p "LGS") (p' "LGS") ->
  agree_upto (length (c_dms c)) (p "DM") (p' "DM") -> agree_upto (length (c_scis c)) (p "Science") (p' "Science") ->
  from_python fl p' = Ok c.
Proof. exact python_extras. Qed.
Print Assumptions C127_extras.
Theorem C127_yaml_extras : forall fl y y' c, from_yaml fl y = Ok c ->
  y_top y = y_top y' -> y_sim y = y_sim y' -> (forall g, y_group y g = y_group y' g) ->
  rows_upto (length (c_wfss c)) (y_wfs y) (y_wfs y') -> rows_upto (length (c_dms c)) (y_dm y) (y_dm y') ->
  rows_upto (length (c_scis c)) (y_sci y) (y_sci y') -> from_yaml fl y' = Ok c.
Proof. exact yaml_extras. Qed.
Print Assumptions C127_yaml_extras.
(** Every parameter of a class that a file gives must have a value for each component. *)
Theorem C127_enough : forall fl p c g k n, from_python fl p = Ok c ->
  In (g, k, n) [("WFS", KWfs, length (c_wfss c)); ("LGS", KLgs, length (c_wfss c)); ("DM", KDm, length (c_dms c)); ("Science", KSci, length (c_scis c))] ->
  forall d q v i, p g = Some d -> In q (required (cls_of k) ++ map fst (optional (cls_of k))) -> d q = Some v -> (i < n)%nat -> exists x, has_entry v i x.
Proof. exact python_enough. Qed.
Print Assumptions C127_enough.
Theorem C127_yaml_enough : forall fl y c, from_yaml fl y = Ok c ->
  (forall rows, y_wfs y = Some rows -> (length (c_wfss c) <= length rows)%nat) /\
  (forall rows, y_dm y = Some rows -> (length (c_dms c) <= length rows)%nat) /\
  (forall rows, y_sci y = Some rows -> (length (c_scis c) <= length rows)%nat).
Proof. exact yaml_enough. Qed.
Print Assumptions C127_yaml_enough.
(* one mirror, with three values for each parameter in the second file *)
Example C127_instance :
  let p' := fun g => if String.eqb g "DM" then Some (dict_of [("type", VList [VStr "Piezo"; VStr "TT"; VStr "Zernike"])]) else demo_p g in
  exists c, from_python demo_fl demo_p = Ok c /\ from_python demo_fl p' = Ok c /\ length (c_dms c) = 1%nat.
Proof.
  intros p'. destruct demo_python as (c & E & L1 & L2 & L3). exists c. split; [exact E|]. split; [|exact L2].
  apply (C127_extras demo_fl demo_p p' c E).
  - intros g Hg. simpl in Hg. destruct Hg as [<- | [<- | [<- | [<- | []]]]]; reflexivity.
  - change (p' "WFS") with (demo_p "WFS"). intros q. destruct (col demo_wfs q); auto.
  - intros q. exact I.
  - rewrite L2. change (p' "DM") with (Some (dict_of [("type", VList [VStr "Piezo"; VStr "TT"; VStr "Zernike"])])). intros q. change (demo_p "DM") with (Some (col demo_dm)). unfold col, demo_dm, dict_of, find. cbn [fst].
    destruct (String.eqb "type" q) eqn:Eq; cbn [option_map snd]; [|exact I]. intros i Hi. destruct i; [reflexivity | lia].
  - change (p' "Science") with (demo_p "Science"). intros q. destruct (col demo_sci q); auto.
Qed.

(** ** C128: what is loaded depends on the file only *)
(** After files which leave the classes of the module alone, a file that binds simConfiguration and uses only its own names loads as in a new session. *)
Theorem C128_history_partial : forall fl h p, Forall keeps_classes h -> self_contained p -> keeps_classes p ->
  fst (load_python fl p (after fl h module_env)) = fst (load_python fl p module_env).
Proof. exact history. Qed.
Print Assumptions C128_history_partial.
(** But a file that does not bind simConfiguration gets the configuration of the file before it, where a new session raises. *)
Theorem C128_stale_refuted : forall fl pa pb c, keeps_classes pa -> keeps_classes pb -> fst (load_python fl pa module_env) = Ok c ->
  ~ In "simConfiguration" (binds pb) -> runs pb module_env -> runs pb (snd (load_python fl pa module_env)) ->
  fst (load_python fl pb (snd (load_python fl pa module_env))) = Ok c /\ fst (load_python fl pb module_env) = Err NameError.
Proof.
  intros fl pa pb c KA KB H N R R'. split; [|apply fresh_name_error; assumption].
  apply (stale fl pa pb module_env c); auto. intros n _. reflexivity.
Qed.
Print Assumptions C128_stale_refuted.
(** And once a file has used the name DmConfig for a value of its own, no later file of the session loads a mirror. *)
Theorem C128_class_refuted : forall fl h e v c p, e "DmConfig" = Some (GVal v) -> Forall (fun q => ~ In "DmConfig" (binds q)) (h ++ [p]) ->
  fst (load_python fl p (after fl h e)) = Ok c -> c_dms c = [].
Proof. exact class_gone. Qed.
Print Assumptions C128_class_refuted.
Definition demo_prog : list pstmt := [Bind "simConfiguration" (GFile demo_p)].
Lemma demo_program : exists c, fst (load_python demo_fl demo_prog module_env) = Ok c /\ length (c_dms c) = 1%nat.
Proof. destruct demo_python as (c & E & _ & L & _). exists c. split; [exact E | exact L]. Qed.
Lemma demo_keeps x v : ~ In x (map fst module_names) -> keeps_classes [Bind x v].
Proof. intros H y [<- | []]. exact H. Qed.
Example C128_instance : exists c,
  fst (load_python demo_fl demo_prog (after demo_fl [[Bind "n" (GVal (num 3 1))]; demo_prog] module_env)) = Ok c /\
  fst (load_python demo_fl [Bind "n" (GVal (num 3 1))] (snd (load_python demo_fl demo_prog module_env))) = Ok c /\
  fst (load_python demo_fl [Bind "n" (GVal (num 3 1))] module_env) = Err NameError /\
  snd (load_python demo_fl [Bind "DmConfig" (GVal (num 3 1))] module_env) "DmConfig" = Some (GVal (num 3 1)) /\ length (c_dms c) = 1%nat.
Proof.
  destruct demo_program as (c & E & L). exists c.
  assert (K : keeps_classes demo_prog) by (apply demo_keeps; simpl; intuition discriminate).
  assert (K' : keeps_classes [Bind "n" (GVal (num 3 1))]) by (apply demo_keeps; simpl; intuition discriminate).
  split; [|split; [|split; [|split]]].
  - rewrite C128_history_partial; [exact E | constructor; [exact K' | constructor; [exact K | constructor]] | split; simpl; auto | exact K].
  - apply (C128_stale_refuted demo_fl demo_prog [Bind "n" (GVal (num 3 1))] c); auto; try reflexivity. simpl. intuition discriminate.
  - reflexivity.
  - reflexivity.
  - exact L.
Qed.

(** ** C129: the loader is chosen by the end of the name, and a run's copy of the file loads like the file *)
Theorem C129_by_name_partial : forall fl fs stem x t, no_dot x -> fs (stem ++ String "." x)%string = Some t ->
  fst (load_config fl fs (stem ++ String "." x) module_env) =
  if String.eqb x "yml" || String.eqb x "yaml" then (let* y := t_yaml t in from_yaml fl y) else fst (load_python fl (t_python t) module_env).
Proof. intros fl fs stem x t N F. rewrite (load_by_name fl fs stem x t module_env N F eq_refl). destruct (_ || _); reflexivity. Qed.
Print Assumptions C129_by_name_partial.
Theorem C129_saved_copy : forall fl fs path name e, fs (saved_name path name) = fs name ->
  load_config fl fs (saved_name path name) e = load_config fl fs name e.
Proof. exact saved_copy. Qed.
Print Assumptions C129_saved_copy.
(** But the case of the letters counts: a YAML file named .YAML or .YML is run as a program, and what python cannot run is a ConfigurationError. *)
Theorem C129_case_refuted : forall fl fs stem x t, In x ["YAML"; "YML"; "Yaml"; "Yml"] -> fs (stem ++ String "." x)%string = Some t -> t_python t = [Raise] ->
  fst (load_config fl fs (stem ++ String "." x) module_env) = Err ConfigurationError.
Proof.
  intros fl fs stem x t Hx F E. rewrite (C129_by_name_partial fl fs stem x t) by (first [exact F | unfold no_dot; simpl in Hx; destruct Hx as [<- | [<- | [<- | [<- | []]]]]; simpl; intuition discriminate]).
  rewrite E. simpl in Hx. destruct Hx as [<- | [<- | [<- | [<- | []]]]]; reflexivity.
Qed.
Print Assumptions C129_case_refuted.
Definition demo_text : text := mkT (Ok demo_y) [Raise].
Example C129_instance : exists c,
  fst (load_config demo_fl (fun _ => Some demo_text) "conf/sh.8x8.yaml" module_env) = Ok c /\
  fst (load_config demo_fl (fun _ => Some demo_text) (saved_name "./run" "conf/sh.8x8.yaml") module_env) = Ok c /\
  saved_name "./run" "conf/sh.8x8.yaml" = "./run/conf.yaml" /\ saved_name "./run" "sh.py" = "./run/conf.py" /\
  fst (load_config demo_fl (fun _ => Some demo_text) "conf/sh.8x8.YAML" module_env) = Err ConfigurationError.
Proof.
  destruct demo_yaml as (c & E & _). exists c. split; [exact E|]. split; [exact E|]. split; [reflexivity|]. split; reflexivity.
Qed.

(** ** C130: a configurator can be loaded again *)
(** What a configurator without components has loaded does not matter to the next load. *)
Theorem C130_again_partial : forall fl c, (exists p, from_python fl p = Ok c) \/ (exists y, from_yaml fl y = Ok c) ->
  c_wfss c = [] -> c_dms c = [] -> c_scis c = [] ->
  (forall p, same_outcome (load_py fl (find_class module_env) p c) (from_python fl p)) /\
  (forall y, same_outcome (load_yaml fl (find_class module_env) y c) (from_yaml fl y)).
Proof.
  intros fl c H E1 E2 E3. assert (S : settled c) by (destruct H as [(p & H) | (y & H)]; [apply (python_settled fl p), H | apply (yaml_settled fl y), H]).
  split; intros f; [apply again_python | apply again_yaml]; assumption.
Qed.
Print Assumptions C130_again_partial.
(** But one that holds sensors loads no file that asks for sensors, the same for mirrors and cameras: the first file cannot be read again. *)
Theorem C130_again_refuted : forall fl c c', (exists p, from_python fl p = Ok c) \/ (exists y, from_yaml fl y = Ok c) ->
  (exists p, load_py fl (find_class module_env) p c = Ok c') \/ (exists y, load_yaml fl (find_class module_env) y c = Ok c') ->
  (c_wfss c <> [] -> number_is (c_sim c') "nGS" 0) /\ (c_dms c <> [] -> number_is (c_sim c') "nDM" 0) /\ (c_scis c <> [] -> number_is (c_sim c') "nSci" 0).
Proof.
  intros fl c c' H H'. assert (S : settled c) by (destruct H as [(p & H) | (y & H)]; [apply (python_settled fl p), H | apply (yaml_settled fl y), H]).
  destruct H' as [(p & H') | (y & H')]; [apply (reload_python fl p) | apply (reload_yaml fl y)]; assumption.
Qed.
Print Assumptions C130_again_refuted.
(* the same file twice *)
Example C130_instance : exists c, from_python demo_fl demo_p = Ok c /\ c_wfss c <> [] /\ load_py demo_fl (find_class module_env) demo_p c = Err AttributeError.
Proof.
  destruct demo_python as (c & E & L & _). exists c. split; [exact E|]. split; [intros X; rewrite X in L; discriminate|].
  revert E. unfold from_python. assert (H : match load_py demo_fl (find_class module_env) demo_p empty_config with
     | Ok d => match load_py demo_fl (find_class module_env) demo_p d with Ok _ => None | Err e => Some e end | Err _ => None end = Some AttributeError) by (vm_compute; reflexivity).
  intros E. rewrite E in H. destruct (load_py _ _ _ c); [discriminate | injection H as <-; reflexivity].
Qed.

(** ** C131: a configuration is its dictionary *)
Theorem C131_round_trip : forall fl c, (exists p, from_python fl p = Ok c) \/ (exists y, from_yaml fl y = Ok c) ->
  exists c', from_yaml fl (config_dict c) = Ok c' /\ same_config c' c.
Proof. intros fl c [(p & H) | (y & H)]; apply round_trip; [apply (python_settled fl p), H | apply (yaml_settled fl y), H]. Qed.
Print Assumptions C131_round_trip.
Example C131_instance : exists c, from_python demo_fl demo_p = Ok c /\ length (c_scis c) = 1%nat.
Proof. destruct demo_python as (c & E & _ & _ & L). exists c. auto. Qed.

(** ** C132: numbers written as text *)
(** PyYAML reads 600e-9 as a text.  For the parameters that are converted, the text and the number give the same object. *)
Theorem C132_text_partial : forall fl k p s q d, In p (converted k) -> fl s = Some q ->
  same_load (load_onto fl None (with_par d p (VStr s)) (blank k)) (load_onto fl None (with_par d p (VNum q)) (blank k)).
Proof. exact numerals. Qed.
Print Assumptions C132_text_partial.
(** But every other parameter that is not replaced keeps the text. *)
Theorem C132_text_refuted : forall fl k p s d o, In p (required (cls_of k) ++ map fst (optional (cls_of k))) -> ~ In p (derived k) ->
  load_onto fl None (with_par d p (VStr s)) (blank k) = Ok o -> o_attr o p = Some (VStr s).
Proof. intros fl k p s d o. apply kept_value. Qed.
Print Assumptions C132_text_refuted.
(* wavelengths are converted; the Fried parameter, the telescope's diameter, the time of a frame and the outer scale are not *)
Example C132_instance :
  In "wavelength" (converted KWfs) /\ demo_fl "600e-9" = Some (qfrac 6 10000000) /\
  (exists o, load_onto demo_fl None (with_par demo_wfs "wavelength" (VStr "600e-9")) (blank KWfs) = Ok o /\ o_attr o "wavelength" = Some (VNum (qfrac 6 10000000))) /\
  (exists o, load_onto demo_fl None (with_par demo_atm "r0" (VStr "15e-2")) (blank KAtmos) = Ok o /\ o_attr o "r0" = Some (VStr "15e-2")) /\
  ~ In "telDiam" (derived KTel) /\ ~ In "loopTime" (derived KSim) /\ ~ In "L0" (derived KAtmos) /\
  load_onto demo_fl None (with_par demo_wfs "wavelength" (VStr "red")) (blank KWfs) = Err ValueError.
Proof.
  split; [simpl; auto|]. split; [reflexivity|]. split; [eexists; split; [reflexivity|]; reflexivity|]. split; [eexists; split; [reflexivity|]; reflexivity|].
  simpl. split; [tauto|]. split; [tauto|]. split; [tauto|]. reflexivity.
Qed.

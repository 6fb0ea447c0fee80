From Coq Require Import String Ascii.
From Verif.Base Require Import Vec PyFacts.
From Verif.Proofs Require Import ConfigProofs.
From Verif.Model Require Import Config ConfigFile.
From Verif.Spec Require Import ConfigSpec ConfigFileSpec.
From Verif.Proofs Require Import ConfigFileProofs.
Open Scope string_scope.
Open Scope list_scope.
Open Scope Z_scope.

(** * Lengths *)
Lemma upd_length {A} (l : list A) : forall i x, length (upd l i x) = length l.
Proof. induction l as [|a r IH]; intros [|i] x; simpl; auto. Qed.
Lemma fill_length {A} fresh (ld : nat -> A -> result A) : forall n i l l', fill fresh ld n i l = Ok l' -> length l' = (length l + n)%nat.
Proof.
  induction n as [|n IH]; intros i l l' H; simpl in H; [injection H as <-; lia|].
  apply bind_ok in H as (f & Hf & H). apply bind_ok in H as (x & Hx & H). rewrite (IH _ _ _ H), upd_length, app_length. simpl. lia.
Qed.
Lemma py_wfss_length fl cl p : forall n i l l', py_wfss fl cl p n i l = Ok l' -> length l' = (length l + n)%nat.
Proof.
  induction n as [|n IH]; intros i l l' H; simpl in H; [injection H as <-; lia|].
  apply bind_ok in H as (k & _ & H). apply bind_ok in H as (g & _ & H). apply bind_ok in H as (lg & _ & H). apply bind_ok in H as (kw & _ & H).
  apply bind_ok in H as (x & _ & H). rewrite (IH _ _ _ H), upd_length, app_length. simpl. lia.
Qed.
Lemma map_r_length {A B} (f : A -> result B) : forall l l', map_r f l = Ok l' -> length l' = length l.
Proof.
  induction l as [|a r IH]; intros l' H; simpl in H; [injection H as <-; reflexivity|].
  apply bind_ok in H as (b & _ & H). apply bind_ok in H as (t & Ht & H). injection H as <-. simpl. rewrite (IH _ Ht). reflexivity.
Qed.
(** what calcParams leaves *)
Lemma calc_config_ok fl c c' : calc_config fl c = Ok c' ->
  length (c_wfss c') = length (c_wfss c) /\ length (c_dms c') = length (c_dms c) /\ length (c_scis c') = length (c_scis c) /\
  recalc fl (c_sim c) = Ok (c_sim c') /\ recalc fl (c_tel c) = Ok (c_tel c') /\ c_recon c' = c_recon c.
Proof.
  unfold calc_config. intros H.
  apply bind_ok in H as (s & Hs & H). apply bind_ok in H as (a & _ & H). apply bind_ok in H as (t & Ht & H).
  apply bind_ok in H as (ws & Hw & H). apply bind_ok in H as (ds & Hd & H). apply bind_ok in H as (ss & Hss & H).
  apply bind_ok in H as (w2 & Hw2 & H). apply bind_ok in H as (a2 & _ & H). apply bind_ok in H as (w3 & Hw3 & H).
  apply bind_ok in H as (d2 & Hd2 & H). injection H as <-. simpl.
  rewrite (map_r_length _ _ _ Hw3), (map_r_length _ _ _ Hw2), (map_r_length _ _ _ Hw), (map_r_length _ _ _ Hd2), (map_r_length _ _ _ Hd), (map_r_length _ _ _ Hss).
  auto 10.
Qed.
(** the steps of a load that succeeded *)
Record py_steps (fl : string -> option Qc) (cl : string -> result kind) (p : pyfile) (c0 c : config) := {
  ps_sim : obj; ps_atm : obj; ps_tel : obj; ps_rec : obj; ps_ws : list wobj; ps_ds : list obj; ps_ss : list obj;
  ps_n1 : nat; ps_n2 : nat; ps_n3 : nat;
  ps_gsim : pdict; ps_gatm : pdict; ps_gtel : pdict; ps_grec : pdict;
  ps_1 : group p "Sim" = Ok ps_gsim; ps_2 : load_onto fl None ps_gsim (c_sim c0) = Ok ps_sim;
  ps_3 : group p "Atmosphere" = Ok ps_gatm; ps_4 : load_onto fl None ps_gatm (c_atmos c0) = Ok ps_atm;
  ps_5 : group p "Telescope" = Ok ps_gtel; ps_6 : load_onto fl None ps_gtel (c_tel c0) = Ok ps_tel;
  ps_7 : count ps_sim "nGS" = Ok ps_n1; ps_8 : py_wfss fl cl p ps_n1 0 (c_wfss c0) = Ok ps_ws;
  ps_9 : count ps_sim "nDM" = Ok ps_n2; ps_10 : fill (new cl "DmConfig") (py_each fl p "DM") ps_n2 0 (c_dms c0) = Ok ps_ds;
  ps_11 : group p "Reconstructor" = Ok ps_grec; ps_12 : load_onto fl None ps_grec (c_recon c0) = Ok ps_rec;
  ps_13 : count ps_sim "nSci" = Ok ps_n3; ps_14 : fill (new cl "SciConfig") (py_each fl p "Science") ps_n3 0 (c_scis c0) = Ok ps_ss;
  ps_15 : calc_config fl (mkC ps_sim ps_atm ps_tel ps_rec ps_ws ps_ds ps_ss) = Ok c }.
Lemma bind_ok_sig {A B} (r : result A) (f : A -> result B) b : bind r f = Ok b -> {a | r = Ok a /\ f a = Ok b}.
Proof. destruct r; simpl; intros H; [eauto | discriminate]. Qed.
Lemma load_py_steps fl cl p c0 c : load_py fl cl p c0 = Ok c -> py_steps fl cl p c0 c.
Proof.
  unfold load_py. intros H.
  repeat match goal with H : bind _ _ = Ok _ |- _ => apply bind_ok_sig in H as (? & ? & H) end.
  econstructor; eassumption.
Qed.
Lemma load_py_intro fl cl p c0 c (s : py_steps fl cl p c0 c) : load_py fl cl p c0 = Ok c.
Proof.
  destruct s. unfold load_py.
  repeat match goal with E : ?x = Ok _ |- context [bind ?x _] => rewrite E; cbn [bind] end. assumption.
Qed.
Record y_steps (fl : string -> option Qc) (cl : string -> result kind) (y : yfile) (c0 c : config) := {
  ys_sim : obj; ys_atm : obj; ys_tel : obj; ys_rec : obj; ys_ws : list wobj; ys_ds : list obj; ys_ss : list obj;
  ys_n1 : nat; ys_n2 : nat; ys_n3 : nat; ys_gatm : pdict; ys_gtel : pdict; ys_grec : pdict;
  ys_2 : load_onto fl None (match y_sim y with Some d => d | None => y_top y end) (c_sim c0) = Ok ys_sim;
  ys_3 : ygroup y "Atmosphere" = Ok ys_gatm; ys_4 : load_onto fl None ys_gatm (c_atmos c0) = Ok ys_atm;
  ys_5 : ygroup y "Telescope" = Ok ys_gtel; ys_6 : load_onto fl None ys_gtel (c_tel c0) = Ok ys_tel;
  ys_7 : count ys_sim "nGS" = Ok ys_n1;
  ys_8 : fill (let* o := new cl "WfsConfig" in Ok (mkW o None)) (y_wfs_load fl cl y) ys_n1 0 (c_wfss c0) = Ok ys_ws;
  ys_9 : count ys_sim "nDM" = Ok ys_n2; ys_10 : fill (new cl "DmConfig") (y_each fl (y_dm y)) ys_n2 0 (c_dms c0) = Ok ys_ds;
  ys_11 : ygroup y "Reconstructor" = Ok ys_grec; ys_12 : load_onto fl None ys_grec (c_recon c0) = Ok ys_rec;
  ys_13 : count ys_sim "nSci" = Ok ys_n3; ys_14 : fill (new cl "SciConfig") (y_each fl (y_sci y)) ys_n3 0 (c_scis c0) = Ok ys_ss;
  ys_15 : calc_config fl (mkC ys_sim ys_atm ys_tel ys_rec ys_ws ys_ds ys_ss) = Ok c }.
Lemma load_yaml_steps fl cl p c0 c : load_yaml fl cl p c0 = Ok c -> y_steps fl cl p c0 c.
Proof.
  unfold load_yaml. intros H.
  repeat match goal with H : bind _ _ = Ok _ |- _ => apply bind_ok_sig in H as (? & ? & H) end.
  econstructor; eassumption.
Qed.

(** * Groups *)
Lemma group_drop p g h : group (drop_group p g) h = if String.eqb h g then Err KeyError else group p h.
Proof. unfold group, drop_group. destruct (String.eqb h g); reflexivity. Qed.
Lemma py_wfss_ext fl cl p p' : group p "LGS" = group p' "LGS" -> group p "WFS" = group p' "WFS" ->
  forall n i l, py_wfss fl cl p n i l = py_wfss fl cl p' n i l.
Proof.
  intros H1 H2. induction n as [|n IH]; intros i l; simpl; [reflexivity|]. rewrite H1. destruct (cl "LgsConfig"); simpl; [|reflexivity].
  destruct (group p' "LGS"); simpl; [|reflexivity]. destruct (load_onto _ _ _ _); simpl; [|reflexivity]. destruct (cl "WfsConfig"); simpl; [|reflexivity].
  unfold py_wfs. rewrite H2. destruct (group p' "WFS"); simpl; [|reflexivity]. destruct (load_onto _ _ _ _); simpl; [|reflexivity].
  destruct (get _ _); simpl; [|reflexivity]. apply IH.
Qed.
Lemma fill_ext {A} fresh (ld ld' : nat -> A -> result A) : forall n i l, (forall j x, (j < i + n)%nat -> ld j x = ld' j x) ->
  fill fresh ld n i l = fill fresh ld' n i l.
Proof.
  induction n as [|n IH]; intros i l H; simpl; [reflexivity|]. destruct fresh as [f|]; simpl; [|reflexivity].
  rewrite H by lia. destruct (ld' i _); simpl; [|reflexivity]. apply IH. intros j x Hj. apply H. lia.
Qed.
Lemma fill_key {A} fresh (ld ld' : nat -> A -> result A) n l l' : n <> 0%nat -> fill fresh ld n 0 l = Ok l' ->
  (forall x, ld' 0%nat x = Err KeyError) -> fill fresh ld' n 0 l = Err KeyError.
Proof.
  destruct n as [|n]; intros Hn H K; [congruence|]. simpl in *. destruct fresh as [f|]; simpl in *; [|discriminate]. rewrite K. reflexivity.
Qed.
Ltac use := match goal with E : ?x = Ok _ |- context [bind ?x _] => rewrite E; cbn [bind] end.
Ltac dropped := rewrite group_drop; cbn [bind]; match goal with |- context [if ?b then _ else _] => let v := eval vm_compute in b in change b with v; cbn iota; cbn [bind] end.
Ltac kept G := rewrite group_drop; match goal with |- context [String.eqb ?h ?g] =>
  replace (String.eqb h g) with false by (symmetry; apply String.eqb_neq; first [discriminate | exact G | intros E'; apply G; congruence]) end; cbn iota.
Lemma c_lengths fl cl p c : forall (s : py_steps fl cl p empty_config c),
  length (c_wfss c) = ps_n1 _ _ _ _ _ s /\ length (c_dms c) = ps_n2 _ _ _ _ _ s /\ length (c_scis c) = ps_n3 _ _ _ _ _ s.
Proof.
  intros s. destruct (calc_config_ok _ _ _ (ps_15 _ _ _ _ _ s)) as (L1 & L2 & L3 & _). simpl in *.
  rewrite L1, L2, L3, (py_wfss_length _ _ _ _ _ _ _ (ps_8 _ _ _ _ _ s)), (fill_length _ _ _ _ _ _ (ps_10 _ _ _ _ _ s)),
    (fill_length _ _ _ _ _ _ (ps_14 _ _ _ _ _ s)). auto.
Qed.
Lemma wfss_key fl cl p p' n l ws : n <> 0%nat -> py_wfss fl cl p n 0 l = Ok ws ->
  (group p' "LGS" = Err KeyError \/ (group p' "LGS" = group p "LGS" /\ group p' "WFS" = Err KeyError)) -> py_wfss fl cl p' n 0 l = Err KeyError.
Proof.
  destruct n as [|n]; intros Hn H K; [congruence|]. simpl in *.
  apply bind_ok in H as (k & Hk & H). rewrite Hk. cbn [bind]. destruct K as [K | (K1 & K2)]; [rewrite K; reflexivity|].
  rewrite K1. apply bind_ok in H as (g & Hg & H). rewrite Hg. cbn [bind]. apply bind_ok in H as (lg & Hl & H). rewrite Hl. cbn [bind].
  apply bind_ok in H as (kw & Hkw & H). rewrite Hkw. cbn [bind]. unfold py_wfs. rewrite K2. reflexivity.
Qed.
Lemma python_groups fl p c g : from_python fl p = Ok c -> from_python fl (drop_group p g) = if needed c g then Err KeyError else Ok c.
Proof.
  intros H. apply load_py_steps in H as s. destruct (c_lengths _ _ _ _ s) as (L1 & L2 & L3).
  destruct s as [sim atm tel rec ws ds ss n1 n2 n3 g1 g2 g3 g4 H1 H2 H3 H4 H5 H6 H7 H8 H9 H10 H11 H12 H13 H14 H15]. cbn [ps_n1 ps_n2 ps_n3] in *.
  unfold needed. rewrite L1, L2, L3. unfold from_python, load_py.
  destruct (string_dec g "Sim") as [-> | G1]; [dropped; reflexivity|]. kept G1. do 2 use.
  destruct (string_dec g "Atmosphere") as [-> | G2]; [dropped; reflexivity|]. kept G2. do 2 use.
  destruct (string_dec g "Telescope") as [-> | G3]; [dropped; reflexivity|]. kept G3. do 3 use.
  assert (EW : py_wfss fl (find_class module_env) (drop_group p g) n1 0 (c_wfss empty_config) =
               if existsb (String.eqb g) ["WFS"; "LGS"] && negb (Nat.eqb n1 0) then Err KeyError else Ok ws).
  { destruct (Nat.eqb n1 0) eqn:E0.
    - apply Nat.eqb_eq in E0. rewrite andb_false_r. rewrite E0 in H8 |- *. exact H8.
    - apply Nat.eqb_neq in E0. rewrite andb_true_r. simpl existsb. rewrite orb_false_r.
      destruct (String.eqb g "WFS") eqn:E1; [|destruct (String.eqb g "LGS") eqn:E2]; cbn [orb].
      + apply String.eqb_eq in E1. subst. eapply wfss_key; [exact E0 | exact H8|]. right. rewrite !group_drop. split; reflexivity.
      + apply String.eqb_eq in E2. subst. eapply wfss_key; [exact E0 | exact H8|]. left. rewrite !group_drop. reflexivity.
      + rewrite <- H8. apply py_wfss_ext; rewrite group_drop; rewrite String.eqb_sym; [rewrite E2 | rewrite E1]; reflexivity. }
  assert (EE : forall gg n nm l', fill (new (find_class module_env) nm) (py_each fl p gg) n 0 [] = Ok l' ->
     fill (new (find_class module_env) nm) (py_each fl (drop_group p g) gg) n 0 [] = if String.eqb g gg && negb (Nat.eqb n 0) then Err KeyError else Ok l').
  { intros gg n nm l' HL. destruct (String.eqb g gg) eqn:E1.
    - apply String.eqb_eq in E1. subst. destruct (Nat.eqb n 0) eqn:E0; cbn [andb negb].
      + apply Nat.eqb_eq in E0. subst. exact HL.
      + apply Nat.eqb_neq in E0. eapply fill_key; [exact E0 | exact HL|]. intros x. unfold py_each. rewrite group_drop, String.eqb_refl. reflexivity.
    - cbn [andb]. rewrite <- HL. apply fill_ext. intros j x _. unfold py_each. rewrite group_drop, String.eqb_sym, E1. reflexivity. }
  rewrite EW. cbn [c_dms c_scis empty_config] in *.
  assert (E4 : existsb (String.eqb g) ["Sim"; "Atmosphere"; "Telescope"; "Reconstructor"] = String.eqb g "Reconstructor").
  { simpl. apply String.eqb_neq in G1. apply String.eqb_neq in G2. apply String.eqb_neq in G3. rewrite G1, G2, G3. cbn [orb]. apply orb_false_r. }
  rewrite E4.
  destruct (existsb (String.eqb g) ["WFS"; "LGS"] && negb (Nat.eqb n1 0)) eqn:B1; cbn [bind orb]; [rewrite orb_true_r; reflexivity|]. rewrite orb_false_r.
  use. rewrite (EE _ _ _ _ H10). destruct (String.eqb g "DM" && negb (Nat.eqb n2 0)) eqn:B2; cbn [bind]; [rewrite orb_true_r; reflexivity|]. rewrite orb_false_r.
  rewrite group_drop, String.eqb_sym. destruct (String.eqb g "Reconstructor") eqn:B3; cbn [bind orb]; [reflexivity|]. do 3 use.
  rewrite (EE _ _ _ _ H14). destruct (String.eqb g "Science" && negb (Nat.eqb n3 0)) eqn:B5; cbn [bind]; [reflexivity|]. exact H15.
Qed.
(** the same for YAML files *)
Lemma y_lengths fl cl y c : forall (s : y_steps fl cl y empty_config c),
  length (c_wfss c) = ys_n1 _ _ _ _ _ s /\ length (c_dms c) = ys_n2 _ _ _ _ _ s /\ length (c_scis c) = ys_n3 _ _ _ _ _ s.
Proof.
  intros s. destruct (calc_config_ok _ _ _ (ys_15 _ _ _ _ _ s)) as (L1 & L2 & L3 & _). simpl in *.
  rewrite L1, L2, L3, (fill_length _ _ _ _ _ _ (ys_8 _ _ _ _ _ s)), (fill_length _ _ _ _ _ _ (ys_10 _ _ _ _ _ s)),
    (fill_length _ _ _ _ _ _ (ys_14 _ _ _ _ _ s)). auto.
Qed.
Lemma ygroup_drop y g h : ygroup (drop_ygroup y g) h = if String.eqb h g then Err KeyError else ygroup y h.
Proof. unfold ygroup, drop_ygroup. simpl. destruct (String.eqb h g); reflexivity. Qed.
Ltac ydropped := rewrite ygroup_drop; cbn [bind]; match goal with |- context [if ?b then _ else _] => let v := eval vm_compute in b in change b with v; cbn iota; cbn [bind] end.
Ltac ykept G := rewrite ygroup_drop; match goal with |- context [String.eqb ?h ?g] =>
  replace (String.eqb h g) with false by (symmetry; apply String.eqb_neq; intros E'; apply G; congruence) end; cbn iota.
Lemma fill_dropped {A B} fresh (ld : option (list B) -> nat -> A -> result A) (b : bool) o n l' :
  (forall x, ld None 0%nat x = Err KeyError) -> fill fresh (ld o) n 0 [] = Ok l' ->
  fill fresh (ld (if b then None else o)) n 0 [] = if b && negb (Nat.eqb n 0) then Err KeyError else Ok l'.
Proof.
  intros K H. destruct b; [|exact H]. destruct (Nat.eqb n 0) eqn:E; cbn [andb negb].
  - apply Nat.eqb_eq in E. subst. exact H.
  - apply Nat.eqb_neq in E. eapply fill_key; eauto.
Qed.
Lemma yaml_groups fl y c g : from_yaml fl y = Ok c -> g <> "Sim" ->
  from_yaml fl (drop_ygroup y g) = if needed c g && negb (String.eqb g "LGS") then Err KeyError else Ok c.
Proof.
  intros H G1. apply load_yaml_steps in H as s. destruct (y_lengths _ _ _ _ s) as (L1 & L2 & L3).
  destruct s as [sim atm tel rec ws ds ss n1 n2 n3 g2 g3 g4 H2 H3 H4 H5 H6 H7 H8 H9 H10 H11 H12 H13 H14 H15]. cbn [ys_n1 ys_n2 ys_n3] in *.
  unfold needed. rewrite L1, L2, L3. unfold from_yaml, load_yaml.
  replace (y_sim (drop_ygroup y g)) with (y_sim y) by (simpl; apply String.eqb_neq in G1; rewrite G1; reflexivity).
  change (y_top (drop_ygroup y g)) with (y_top y). use.
  destruct (string_dec g "Atmosphere") as [-> | G2]; [ydropped; reflexivity|]. ykept G2. do 2 use.
  destruct (string_dec g "Telescope") as [-> | G3]; [ydropped; reflexivity|]. ykept G3. do 3 use.
  assert (EW := fill_dropped (let* o := new (find_class module_env) "WfsConfig" in Ok (mkW o None))
     (fun rows i w => y_wfs_load fl (find_class module_env) (mkY (fun _ => None) None (fun _ => None) rows None None) i w)
     (String.eqb g "WFS") (y_wfs y) n1 ws (fun x => eq_refl)).
  cbn beta in EW. specialize (EW H8).
  change (fill (let* o := new (find_class module_env) "WfsConfig" in Ok (mkW o None)) (y_wfs_load fl (find_class module_env) (drop_ygroup y g)) n1 0 (c_wfss empty_config))
    with (fill (let* o := new (find_class module_env) "WfsConfig" in Ok (mkW o None))
       (fun i w => y_wfs_load fl (find_class module_env) (mkY (fun _ => None) None (fun _ => None) (if String.eqb g "WFS" then None else y_wfs y) None None) i w) n1 0 []).
  rewrite EW. clear EW. cbn [c_dms c_scis empty_config] in *.
  assert (E4 : existsb (String.eqb g) ["Sim"; "Atmosphere"; "Telescope"; "Reconstructor"] = String.eqb g "Reconstructor").
  { simpl. apply String.eqb_neq in G1. apply String.eqb_neq in G2. apply String.eqb_neq in G3. rewrite G1, G2, G3. cbn [orb]. apply orb_false_r. }
  rewrite E4. simpl existsb. rewrite orb_false_r.
  destruct (string_dec g "LGS") as [-> | GL].
  { cbn [andb negb bind]. use. change (y_dm (drop_ygroup y "LGS")) with (y_dm y). use.
    rewrite ygroup_drop. change (String.eqb "Reconstructor" "LGS") with false. cbn iota. do 3 use. change (y_sci (drop_ygroup y "LGS")) with (y_sci y). use.
    change (negb (String.eqb "LGS" "LGS")) with false. rewrite andb_false_r. exact H15. }
  apply String.eqb_neq in GL. rewrite GL, andb_true_r, orb_false_r.
  destruct (String.eqb g "WFS" && negb (Nat.eqb n1 0)) eqn:B1; cbn [bind orb]; [rewrite orb_true_r; reflexivity|]. rewrite orb_false_r.
  use. change (y_dm (drop_ygroup y g)) with (if String.eqb g "DM" then None else y_dm y).
  rewrite (fill_dropped _ (y_each fl) (String.eqb g "DM") _ _ _ (fun x => eq_refl) H10).
  destruct (String.eqb g "DM" && negb (Nat.eqb n2 0)) eqn:B2; cbn [bind]; [rewrite orb_true_r; reflexivity|]. rewrite orb_false_r.
  rewrite ygroup_drop, String.eqb_sym. destruct (String.eqb g "Reconstructor") eqn:B3; cbn [bind orb]; [reflexivity|]. do 3 use.
  change (y_sci (drop_ygroup y g)) with (if String.eqb g "Science" then None else y_sci y).
  rewrite (fill_dropped _ (y_each fl) (String.eqb g "Science") _ _ _ (fun x => eq_refl) H14).
  destruct (String.eqb g "Science" && negb (Nat.eqb n3 0)) eqn:B5; cbn [bind]; [reflexivity|]. exact H15.
Qed.

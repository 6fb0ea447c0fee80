From Coq Require Import String Ascii.
From Verif.Base Require Import Vec PyFacts.
From Verif.Proofs Require Import ConfigProofs.
From Verif.Model Require Import Config ConfigFile.
From Verif.Spec Require Import ConfigSpec ConfigFileSpec.
From Verif.Proofs Require Import ConfigFileProofs ConfigFileMore ConfigFileHist ConfigFileDict ConfigFileTrip.
Open Scope string_scope.
Open Scope list_scope.
Open Scope Z_scope.

(** * Loading onto an object that has been loaded before *)
Lemma required_over k N d : forall ps o o', rr (fun a b => forall p, In p ps \/ o p = o' p -> a p = b p) (load_required k N d ps o) (load_required k N d ps o').
Proof.
  induction ps as [|q r IH]; intros o o'; simpl; [intros p [[] | H]; exact H|].
  destruct (d q) as [v|]; [|exact I]. destruct (entry N v) as [x|]; simpl; [|exact I].
  unfold assigned, set_attr. destruct (existsb _ _); simpl; [|exact I].
  eapply rr_mono; [|apply IH]. intros a b H p Hp. apply H.
  destruct (String.eqb p q) eqn:E; [auto|]. destruct Hp as [[-> | Hp] | Hp]; auto. rewrite String.eqb_refl in E. discriminate.
Qed.
Lemma optional_over k N d : forall ps o o', rr (fun a b => forall p, In p (map fst ps) \/ o p = o' p -> a p = b p) (load_optional k N d ps o) (load_optional k N d ps o').
Proof.
  induction ps as [|[q df] r IH]; intros o o'; simpl; [intros p [[] | H]; exact H|].
  assert (G : forall x, rr (fun a b => forall p, (q = p \/ In p (map fst r)) \/ o p = o' p -> a p = b p)
     (load_optional k N d r (fun n => if String.eqb n q then Some x else o n)) (load_optional k N d r (fun n => if String.eqb n q then Some x else o' n))).
  { intros x. eapply rr_mono; [|apply IH]. intros a b H p Hp. apply H.
    destruct (String.eqb p q) eqn:E; [auto|]. destruct Hp as [[-> | Hp] | Hp]; auto. rewrite String.eqb_refl in E. discriminate. }
  unfold assigned, set_attr. destruct (d q) as [v|].
  - destruct (entry N v) as [x|]; simpl; [|exact I]. destruct (existsb _ _); simpl; [apply G | exact I].
  - destruct (existsb _ _); simpl; [apply G | exact I].
Qed.
Lemma onto_params fl N d o : only (o_kind o) (o_attr o) -> o_kind o <> KWfs -> rr same_obj (load_onto fl N d o) (load_onto fl N d (blank (o_kind o))).
Proof.
  intros O K. unfold load_onto. cbn [blank o_kind o_attr].
  eapply rr_bind; [apply required_over|]. intros a b H. eapply rr_bind; [apply optional_over|]. intros a' b' H'.
  eapply rr_bind; [apply calc_obj_rel with (P := all); [apply all_but|]|].
  - intros p _. apply H'. destruct (in_dec string_dec p (map fst (optional (cls_of (o_kind o))))) as [I0 | I0]; [auto|]. right. apply H.
    destruct (in_dec string_dec p (required (cls_of (o_kind o)))) as [I1 | I1]; [auto|]. right.
    destruct (o_attr o p) eqn:E; [|reflexivity]. destruct (O p ltac:(congruence)) as [I2 | (I2 & _)]; [|contradiction].
    unfold params in I2. apply in_app_iff in I2 as [I2 | I2]; contradiction.
  - intros u v Huv. split; [reflexivity | intros p; apply Huv; exact I].
Qed.
Lemma onto_ok fl N d o k P : obj_ok k P o -> k <> KWfs -> rr same_obj (load_onto fl N d o) (load_onto fl N d (blank k)).
Proof. intros (K & (_ & O & _) & _) Nk. subst k. apply onto_params; assumption. Qed.

(** * A fresh object is left at the end *)
Lemma upd_app {A} : forall (l : list A) i f x, (i < length l)%nat -> upd (l ++ [f]) i x = upd l i x ++ [f].
Proof. induction l as [|a r IH]; intros [|i] f x H; simpl in *; try lia; [reflexivity|]. rewrite IH by lia. reflexivity. Qed.
Lemma fill_last {A} (f : A) (ld : nat -> A -> result A) : forall n i l l', (i < length l)%nat -> fill (Ok f) ld (Datatypes.S n) i l = Ok l' -> exists m, l' = m ++ [f].
Proof.
  induction n as [|n IH]; intros i l l' L H; cbn [fill bind] in H.
  - apply bind_ok in H as (x & _ & H). rewrite upd_app in H by exact L. injection H as <-. eauto.
  - apply bind_ok in H as (x & _ & H). eapply IH; [|exact H]. rewrite upd_length, app_length. simpl. lia.
Qed.
Lemma wfss_last fl p : forall n i l l', (i < length l)%nat -> py_wfss fl (find_class module_env) p (Datatypes.S n) i l = Ok l' -> exists m, l' = m ++ [mkW (blank KWfs) None].
Proof.
  induction n as [|n IH]; intros i l l' L H; cbn [py_wfss] in H;
    change (find_class module_env "LgsConfig") with (Ok KLgs) in H; change (find_class module_env "WfsConfig") with (Ok KWfs) in H; cbn [bind] in H.
  - apply bind_ok in H as (d & _ & H). apply bind_ok in H as (lg & _ & H). apply bind_ok in H as (x & _ & H). rewrite upd_app in H by exact L. injection H as <-. eauto.
  - apply bind_ok in H as (d & _ & H). apply bind_ok in H as (lg & _ & H). apply bind_ok in H as (x & _ & H).
    eapply IH; [|exact H]. rewrite upd_length, app_length. simpl. lia.
Qed.
Lemma map_r_bad {A B} (f : A -> result B) m a e : f a = Err e -> forall l, map_r f (m ++ [a]) <> Ok l.
Proof.
  intros Ha. induction m as [|b r IH]; intros l H; simpl in H; [rewrite Ha in H; discriminate|].
  apply bind_ok in H as (x & _ & H). apply bind_ok in H as (t & Ht & _). exact (IH t Ht).
Qed.
Lemma calc_config_lists fl c c' : calc_config fl c = Ok c' ->
  (forall m, c_wfss c <> m ++ [mkW (blank KWfs) None]) /\ (forall m, c_dms c <> m ++ [blank KDm]) /\ (forall m, c_scis c <> m ++ [blank KSci]).
Proof.
  intros H. unfold calc_config in H. apply bind_ok in H as (sim & _ & H). apply bind_ok in H as (atm & _ & H). apply bind_ok in H as (tel & _ & H).
  apply bind_ok in H as (ws & Hws & H). apply bind_ok in H as (ds & Hds & H). apply bind_ok in H as (ss & Hss & H).
  split; [|split]; intros m E.
  - rewrite E in Hws. revert Hws. eapply map_r_bad. reflexivity.
  - rewrite E in Hds. revert Hds. eapply map_r_bad. reflexivity.
  - rewrite E in Hss. revert Hss. eapply map_r_bad. reflexivity.
Qed.
Lemma nonempty {A} (l : list A) : l <> [] -> (0 < length l)%nat.
Proof. destruct l; simpl; [congruence | lia]. Qed.
Lemma sim_kind fl N d o o' : load_onto fl N d o = Ok o' -> o_kind o' = o_kind o.
Proof. apply load_kind. Qed.

(** a configurator holding a component of one sort loads no file that asks for a component of that sort *)
Lemma reload_python fl p c c' : settled c -> load_py fl (find_class module_env) p c = Ok c' ->
  (c_wfss c <> [] -> number_is (c_sim c') "nGS" 0) /\ (c_dms c <> [] -> number_is (c_sim c') "nDM" 0) /\ (c_scis c <> [] -> number_is (c_sim c') "nSci" 0).
Proof.
  intros S H. apply load_py_steps in H as s.
  destruct s as [sim atm tel rec ws ds ss n1 n2 n3 g1 g2 g3 g4 H1 H2 H3 H4 H5 H6 H7 H8 H9 H10 H11 H12 H13 H14 H15].
  destruct (calc_config_ok _ _ _ H15) as (_ & _ & _ & R & _). destruct (calc_config_lists _ _ _ H15) as (A & B & C). cbn [c_sim c_wfss c_dms c_scis] in *.
  assert (K : o_kind sim = KSim) by (rewrite (load_kind _ _ _ _ _ H2); apply (st_sim c S)).
  repeat split; intros N; apply nonempty in N.
  - destruct n1; [eapply number_of; eauto|]. destruct (wfss_last _ _ _ _ _ _ N H8) as (m & ->). destruct (A m eq_refl).
  - destruct n2; [eapply number_of; eauto|]. rewrite (new_module "DmConfig" KDm eq_refl) in H10. destruct (fill_last _ _ _ _ _ _ N H10) as (m & ->). destruct (B m eq_refl).
  - destruct n3; [eapply number_of; eauto|]. rewrite (new_module "SciConfig" KSci eq_refl) in H14. destruct (fill_last _ _ _ _ _ _ N H14) as (m & ->). destruct (C m eq_refl).
Qed.
Lemma reload_yaml fl y c c' : settled c -> load_yaml fl (find_class module_env) y c = Ok c' ->
  (c_wfss c <> [] -> number_is (c_sim c') "nGS" 0) /\ (c_dms c <> [] -> number_is (c_sim c') "nDM" 0) /\ (c_scis c <> [] -> number_is (c_sim c') "nSci" 0).
Proof.
  intros S H. apply load_yaml_steps in H as s.
  destruct s as [sim atm tel rec ws ds ss n1 n2 n3 g1 g2 g3 H2 H3 H4 H5 H6 H7 H8 H9 H10 H11 H12 H13 H14 H15].
  destruct (calc_config_ok _ _ _ H15) as (_ & _ & _ & R & _). destruct (calc_config_lists _ _ _ H15) as (A & B & C). cbn [c_sim c_wfss c_dms c_scis] in *.
  assert (K : o_kind sim = KSim) by (rewrite (load_kind _ _ _ _ _ H2); apply (st_sim c S)).
  repeat split; intros N; apply nonempty in N.
  - destruct n1; [eapply number_of; eauto|]. rewrite (new_module "WfsConfig" KWfs eq_refl) in H8. destruct (fill_last _ _ _ _ _ _ N H8) as (m & ->). destruct (A m eq_refl).
  - destruct n2; [eapply number_of; eauto|]. rewrite (new_module "DmConfig" KDm eq_refl) in H10. destruct (fill_last _ _ _ _ _ _ N H10) as (m & ->). destruct (B m eq_refl).
  - destruct n3; [eapply number_of; eauto|]. rewrite (new_module "SciConfig" KSci eq_refl) in H14. destruct (fill_last _ _ _ _ _ _ N H14) as (m & ->). destruct (C m eq_refl).
Qed.

(** without components the second file loads as into a new configurator *)
Lemma rr_eq {A} (R : A -> A -> Prop) a b : (forall x, R x x) -> a = b -> rr R a b.
Proof. intros Rr ->. apply rr_refl. exact Rr. Qed.
Lemma wobj_refl w : same_wfs w w. Proof. split; [apply same_refl | apply opt_refl]. Qed.
Lemma F2_refl {A} (R : A -> A -> Prop) : (forall x, R x x) -> forall l, Forall2 R l l.
Proof. intros H. induction l; constructor; auto. Qed.
Ltac bare S := destruct S as [S1 S2 S3 S4 _ _ _ _ _ _].
Lemma again_python fl p c : settled c -> c_wfss c = [] -> c_dms c = [] -> c_scis c = [] ->
  same_outcome (load_py fl (find_class module_env) p c) (from_python fl p).
Proof.
  intros S E1 E2 E3. bare S. change (rr same_config (load_py fl (find_class module_env) p c) (from_python fl p)). unfold from_python, load_py. rewrite E1, E2, E3. cbn [empty_config c_sim c_atmos c_tel c_recon c_wfss c_dms c_scis].
  eapply rr_bind; [apply (rr_refl eq); reflexivity|]. intros g1 ? <-. eapply rr_bind; [apply (onto_ok fl None g1 _ KSim any S1); discriminate|]. intros s s' Hs.
  eapply rr_bind; [apply (rr_refl eq); reflexivity|]. intros g2 ? <-. eapply rr_bind; [apply (onto_ok fl None g2 _ KAtmos _ S2); discriminate|]. intros a a' Ha.
  eapply rr_bind; [apply (rr_refl eq); reflexivity|]. intros g3 ? <-. eapply rr_bind; [apply (onto_ok fl None g3 _ KTel any S3); discriminate|]. intros t t' Ht.
  rewrite !(count_same s s') by exact Hs.
  eapply rr_bind; [apply (rr_refl eq); reflexivity|]. intros n1 ? <-. eapply rr_bind; [apply (rr_refl eq); reflexivity|]. intros ws ? <-.
  eapply rr_bind; [apply (rr_refl eq); reflexivity|]. intros n2 ? <-. eapply rr_bind; [apply (rr_refl eq); reflexivity|]. intros ds ? <-.
  eapply rr_bind; [apply (rr_refl eq); reflexivity|]. intros g4 ? <-. eapply rr_bind; [apply (onto_ok fl None g4 _ KRecon any S4); discriminate|]. intros r r' Hr.
  eapply rr_bind; [apply (rr_refl eq); reflexivity|]. intros n3 ? <-. eapply rr_bind; [apply (rr_refl eq); reflexivity|]. intros ss ? <-.
  apply calc_config_same. unfold same_config. cbn. repeat match goal with |- _ /\ _ => split end; auto using F2_refl, same_refl, wobj_refl.
Qed.
Lemma again_yaml fl y c : settled c -> c_wfss c = [] -> c_dms c = [] -> c_scis c = [] ->
  same_outcome (load_yaml fl (find_class module_env) y c) (from_yaml fl y).
Proof.
  intros S E1 E2 E3. bare S. change (rr same_config (load_yaml fl (find_class module_env) y c) (from_yaml fl y)). unfold from_yaml, load_yaml. rewrite E1, E2, E3. cbn [empty_config c_sim c_atmos c_tel c_recon c_wfss c_dms c_scis].
  eapply rr_bind; [eapply onto_ok; [exact S1 | discriminate]|]. intros s s' Hs.
  eapply rr_bind; [apply (rr_refl eq); reflexivity|]. intros g2 ? <-. eapply rr_bind; [apply (onto_ok fl None g2 _ KAtmos _ S2); discriminate|]. intros a a' Ha.
  eapply rr_bind; [apply (rr_refl eq); reflexivity|]. intros g3 ? <-. eapply rr_bind; [apply (onto_ok fl None g3 _ KTel any S3); discriminate|]. intros t t' Ht.
  rewrite !(count_same s s') by exact Hs.
  eapply rr_bind; [apply (rr_refl eq); reflexivity|]. intros n1 ? <-. eapply rr_bind; [apply (rr_refl eq); reflexivity|]. intros ws ? <-.
  eapply rr_bind; [apply (rr_refl eq); reflexivity|]. intros n2 ? <-. eapply rr_bind; [apply (rr_refl eq); reflexivity|]. intros ds ? <-.
  eapply rr_bind; [apply (rr_refl eq); reflexivity|]. intros g4 ? <-. eapply rr_bind; [apply (onto_ok fl None g4 _ KRecon any S4); discriminate|]. intros r r' Hr.
  eapply rr_bind; [apply (rr_refl eq); reflexivity|]. intros n3 ? <-. eapply rr_bind; [apply (rr_refl eq); reflexivity|]. intros ss ? <-.
  apply calc_config_same. unfold same_config. cbn. repeat match goal with |- _ /\ _ => split end; auto using F2_refl, same_refl, wobj_refl.
Qed.

(** * Names of files *)
Lemma ext_no_dot s : no_dot s -> ext s = s.
Proof.
  unfold no_dot. induction s as [|c r IH]; intros H; [reflexivity|]. simpl in H |- *.
  destruct (existsb (Ascii.eqb ".") (list_ascii_of_string r)) eqn:E.
  - apply existsb_exists in E as (x & Hx & Ex). apply Ascii.eqb_eq in Ex. subst x. tauto.
  - destruct (Ascii.eqb c ".") eqn:Ec; [apply Ascii.eqb_eq in Ec; subst c; tauto | reflexivity].
Qed.
Lemma ext_of a b : no_dot b -> ext (a ++ String "." b) = b.
Proof.
  intros H. assert (D : forall s, existsb (Ascii.eqb ".") (list_ascii_of_string (s ++ String "." b)%string) = true).
  { induction s as [|c r IH]; simpl; [reflexivity|]. rewrite IH. apply orb_true_r. }
  induction a as [|c r IH].
  - simpl. destruct (existsb (Ascii.eqb ".") (list_ascii_of_string b)) eqn:E; [|reflexivity].
    apply existsb_exists in E as (x & Hx & Ex). apply Ascii.eqb_eq in Ex. subst x. contradiction.
  - cbn [String.append ext]. rewrite D. exact IH.
Qed.
Lemma str_assoc a b c : ((a ++ b) ++ c = a ++ (b ++ c))%string.
Proof. induction a as [|x r IH]; simpl; [reflexivity|]. rewrite IH. reflexivity. Qed.
Lemma yaml_ext name : is_yaml name = true <-> ext name = "yml" \/ ext name = "yaml".
Proof. unfold is_yaml. rewrite orb_true_iff, !String.eqb_eq. tauto. Qed.
Lemma saved_yaml path name : is_yaml (saved_name path name) = is_yaml name.
Proof.
  unfold saved_name. destruct (is_yaml name).
  - unfold is_yaml. change "/conf.yaml"%string with ("/conf" ++ String "." "yaml")%string. rewrite <- str_assoc, ext_of by (unfold no_dot; simpl; intuition discriminate). reflexivity.
  - unfold is_yaml. change "/conf.py"%string with ("/conf" ++ String "." "py")%string. rewrite <- str_assoc, ext_of by (unfold no_dot; simpl; intuition discriminate). reflexivity.
Qed.
Lemma saved_copy fl fs path name e : fs (saved_name path name) = fs name -> load_config fl fs (saved_name path name) e = load_config fl fs name e.
Proof. intros H. unfold load_config. rewrite saved_yaml, H. reflexivity. Qed.
Lemma load_by_name fl fs stem x t e : no_dot x -> fs (stem ++ String "." x)%string = Some t -> new_config e = Ok empty_config ->
  load_config fl fs (stem ++ String "." x) e =
  if String.eqb x "yml" || String.eqb x "yaml" then (let* y := t_yaml t in load_yaml fl (find_class e) y empty_config, e) else load_python fl (t_python t) e.
Proof. intros N F E. unfold load_config, is_yaml. rewrite ext_of by exact N. destruct (String.eqb x "yml" || String.eqb x "yaml"); rewrite F; [rewrite E|]; reflexivity. Qed.

(** * Classes rebound by a file *)
Lemma broken_class fl p e c v : e "DmConfig" = Some (GVal v) -> ~ In "DmConfig" (binds p) -> fst (load_python fl p e) = Ok c -> c_dms c = [].
Proof.
  intros E N H. unfold load_python in H. destruct (new_config e) as [c0|] eqn:E0; [|discriminate].
  assert (c_dms c0 = []).
  { unfold new_config in E0. repeat (apply bind_ok in E0 as (? & _ & E0)). injection E0 as <-. reflexivity. }
  pose proof (exec_other "DmConfig" p e N) as X. destruct (exec p e) as (e1 & ok). cbn [fst] in *. destruct ok; [|discriminate].
  destruct (e1 "simConfiguration") as [[|f|]|]; try discriminate. apply load_py_steps in H as s.
  destruct (calc_config_ok _ _ _ (ps_15 _ _ _ _ _ s)) as (_ & L2 & _). destruct s as [sim atm tel rec ws ds ss n1 n2 n3 g1 g2 g3 g4 H1 H2 H3 H4 H5 H6 H7 H8 H9 H10 H11 H12 H13 H14 H15]. cbn in *.
  rewrite H0 in H10. destruct n2; simpl in H10; [injection H10 as <-; destruct (c_dms c); [reflexivity | discriminate]|].
  unfold new, find_class in H10. rewrite X, E in H10. discriminate.
Qed.
Lemma class_stays fl p e : ~ In "DmConfig" (binds p) -> snd (load_python fl p e) "DmConfig" = e "DmConfig".
Proof. intros N. destruct (load_python_env fl p e) as [-> | ->]; [reflexivity | apply exec_other, N]. Qed.
Lemma class_gone fl : forall h e v c p, e "DmConfig" = Some (GVal v) -> Forall (fun q => ~ In "DmConfig" (binds q)) (h ++ [p]) ->
  fst (load_python fl p (after fl h e)) = Ok c -> c_dms c = [].
Proof.
  induction h as [|q r IH]; intros e v c p E F H; simpl in *.
  - inversion F; subst. eapply broken_class; eauto.
  - inversion F; subst. eapply (IH (snd (load_python fl q e)) v); eauto. rewrite class_stays by assumption. exact E.
Qed.

(** * Numbers written as text *)
Definition text_for (p s : string) (q : Qc) (o o' : pdict) : Prop := o p = Some (VStr s) /\ o' p = Some (VNum q) /\ forall n, n <> p -> o n = o' n.
Lemma text_assigned k p s q o o' n v : n <> p -> text_for p s q o o' -> rr (text_for p s q) (assigned k o n v) (assigned k o' n v).
Proof.
  intros Nn (A & B & C). unfold assigned, set_attr. destruct (existsb _ _); simpl; [|exact I]. apply not_eq_sym in Nn as Nn'. apply String.eqb_neq in Nn'.
  split; [rewrite Nn'; exact A|]. split; [rewrite Nn'; exact B|]. intros m Hm. destruct (String.eqb m n); [reflexivity | apply C, Hm].
Qed.
Lemma text_get p s q o o' n : n <> p -> text_for p s q o o' -> get o n = get o' n.
Proof. intros Nn (_ & _ & C). unfold get. rewrite C by exact Nn. reflexivity. Qed.
Lemma text_floated fl k p s q o o' n : n <> p -> text_for p s q o o' -> rr (text_for p s q) (floated fl k n o) (floated fl k n o').
Proof.
  intros Nn H. unfold floated. rewrite (text_get _ _ _ _ _ _ Nn H). destruct (get o' n); simpl; [|exact I]. destruct (to_float fl _); simpl; [|exact I].
  apply text_assigned; assumption.
Qed.
Lemma text_done fl k p s q o o' : fl s = Some q -> text_for p s q o o' -> rr (agree all) (floated fl k p o) (floated fl k p o').
Proof.
  intros F (A & B & C). unfold floated, get. rewrite A, B. simpl. rewrite F. simpl. unfold assigned, set_attr. destruct (existsb _ _); simpl; [|exact I].
  intros m _. destruct (String.eqb m p) eqn:E; [reflexivity|]. apply String.eqb_neq in E. apply C, E.
Qed.
Lemma floated_agree fl k n o o' : agree all o o' -> rr (agree all) (floated fl k n o) (floated fl k n o').
Proof.
  intros H. unfold floated, get. rewrite (H n I). destruct (o' n); simpl; [|exact I]. destruct (to_float fl _); simpl; [|exact I].
  unfold assigned, set_attr. destruct (existsb _ _); simpl; [|exact I]. intros m _. destruct (String.eqb m n); [reflexivity | apply H; exact I].
Qed.
Lemma text_calc fl k p s q o o' : In p (converted k) -> fl s = Some q -> text_for p s q o o' -> rr (agree all) (calc_obj fl k o) (calc_obj fl k o').
Proof.
  intros Ip F H. destruct k; simpl in Ip; try contradiction; simpl calc_obj.
  - destruct Ip as [<- | []]. unfold calc_wfs_obj. rewrite (text_get "wavelength" s q o o' "GSPosition"); [|discriminate|exact H]. destruct (get o' _); cbn [bind]; [|exact I].
    eapply rr_bind; [apply (text_assigned _ "wavelength" s q); [discriminate | exact H]|]. intros a1 b1 Hab. apply (text_done fl _ _ s q); assumption.
  - unfold calc_lgs. destruct H as (A & B & C).
    assert (Np : "naProfile" <> p /\ "elongationLayers" <> p) by (split; intros <-; simpl in Ip; intuition discriminate).
    destruct Np as (N1 & N2). rewrite (C _ N1).
    assert (T : text_for p s q o o') by (split; [|split]; assumption).
    eapply rr_bind with (R := text_for p s q).
    + assert (G : rr (text_for p s q) (let* e := get o "elongationLayers" in let* n := as_int e in
           if n <? 0 then Err ValueError else assigned lgs_cls o "naProfile" (VList (repeat (num 1 1) (Z.to_nat n))))
         (let* e := get o' "elongationLayers" in let* n := as_int e in
           if n <? 0 then Err ValueError else assigned lgs_cls o' "naProfile" (VList (repeat (num 1 1) (Z.to_nat n))))).
      { rewrite (text_get _ _ _ _ _ _ N2 T). destruct (get o' "elongationLayers"); cbn [bind]; [|exact I]. destruct (as_int _); cbn [bind]; [|exact I].
        destruct (_ <? 0); [exact I | apply text_assigned; assumption]. }
      destruct (o' "naProfile") as [[]|]; try exact G; exact T.
    + intros a1 b1 Hab. rewrite (text_get _ _ _ _ _ _ N1 Hab). destruct (get b1 "naProfile"); cbn [bind]; [|exact I]. destruct (vlen _); cbn [bind]; [|exact I].
      rewrite (text_get _ _ _ _ _ _ N2 Hab). destruct (get b1 "elongationLayers") as [e|]; cbn [bind]; [|exact I]. destruct (as_num e); [|exact I]. destruct (qc_ltb _ _); [exact I|].
      destruct Ip as [<- | [<- | []]].
      * eapply rr_bind; [apply (text_done fl _ _ s q); eassumption|]. intros u v Huv. apply floated_agree, Huv.
      * eapply rr_bind; [apply (text_floated _ _ "height" s q); [discriminate | exact Hab]|]. intros u v Huv. apply (text_done fl _ _ s q); assumption.
  - unfold calc_dm. destruct Ip as [<- | [<- | []]].
    + eapply rr_bind; [apply (text_done fl _ _ s q); eassumption|]. intros u v Huv. apply floated_agree, Huv.
    + eapply rr_bind; [apply (text_floated _ _ "svdConditioning" s q); [discriminate | exact H]|]. intros u v Huv. apply (text_done fl _ _ s q); assumption.
  - destruct Ip as [<- | []]. unfold calc_sci_obj. rewrite (text_get "wavelength" s q o o' "position"); [|discriminate|exact H]. destruct (get o' _); cbn [bind]; [|exact I].
    eapply rr_bind; [apply (text_done fl _ _ s q); eassumption|]. intros a1 b1 Hab.
    assert (G : forall n, get a1 n = get b1 n) by (intros n; unfold get; rewrite (Hab n I); reflexivity). rewrite !G.
    destruct (get b1 "pxlScale") as [sc|]; cbn [bind]; [|exact I]. destruct (get b1 "FOV") as [f|]; cbn [bind]; [|exact I]. destruct (get b1 "pxls") as [nn|]; cbn [bind]; [|exact I].
    assert (A : forall n v, rr (agree all) (assigned sci_cls a1 n v) (assigned sci_cls b1 n v)).
    { intros n v. unfold assigned, set_attr. destruct (existsb _ _); cbn [bind]; [|exact I]. intros m _. destruct (String.eqb m n); [reflexivity | apply Hab; exact I]. }
    assert (SF : rr (agree all) (scale_from_fov fl f nn a1) (scale_from_fov fl f nn b1)).
    { unfold scale_from_fov. destruct (to_float fl f); cbn [bind]; [|exact I]. destruct (as_num _), (as_num nn); try exact I. destruct (qc_eqb _ _); [exact I | apply A]. }
    assert (FS : rr (agree all) (fov_from_scale fl sc f nn a1) (fov_from_scale fl sc f nn b1)).
    { unfold fov_from_scale. destruct (as_num sc), (as_num nn); try exact I. match goal with |- context [if ?b then _ else _] => destruct b end; [exact SF | apply A]. }
    destruct sc, f; try exact FS; try exact SF; exact I.
Qed.
Lemma text_load k p s q d : In p (params k) ->
  rr (text_for p s q) (load_params (cls_of k) None (with_par d p (VStr s))) (load_params (cls_of k) None (with_par d p (VNum q))).
Proof.
  intros Ip. destruct (ConfigProofs.load_yaml (cls_of k) (with_par d p (VStr s)) (kind_in_all k)) as (L1 & M1).
  destruct (ConfigProofs.load_yaml (cls_of k) (with_par d p (VNum q)) (kind_in_all k)) as (L2 & M2).
  assert (W : forall v n, n <> p -> with_par d p v n = d n) by (intros v n Nn; unfold with_par; apply String.eqb_neq in Nn; rewrite Nn; reflexivity).
  assert (X : forall v, with_par d p v p = Some v) by (intros v; unfold with_par; rewrite String.eqb_refl; reflexivity).
  assert (D : (forall n, In n (required (cls_of k)) -> with_par d p (VStr s) n <> None) \/ exists n, In n (required (cls_of k)) /\ with_par d p (VStr s) n = None).
  { generalize (required (cls_of k)). intros l. induction l as [|a r IH]; [left; intros n []|].
    destruct (with_par d p (VStr s) a) eqn:E; [|right; exists a; simpl; auto].
    destruct IH as [IH | (n & Hn & En)]; [left; intros n [<- | Hn]; [congruence | apply IH, Hn] | right; exists n; simpl; auto]. }
  destruct D as [D | (n & Hn & En)].
  - destruct (L1 D) as (o & E1 & A1 & B1 & C1). destruct L2 as (o' & E2 & A2 & B2 & C2).
    { intros n Hn. destruct (string_dec n p) as [-> | Nn]; [rewrite X; discriminate|]. rewrite W by exact Nn. specialize (D n Hn). rewrite W in D by exact Nn. exact D. }
    rewrite E1, E2. simpl. split; [|split].
    + unfold params in Ip. apply in_app_iff in Ip as [Ip | Ip]; [rewrite A1 by exact Ip; apply X|]. apply in_map_iff in Ip as ((a & v) & Ea & Ip). simpl in Ea. subst a.
      rewrite (B1 p v Ip), X. reflexivity.
    + unfold params in Ip. apply in_app_iff in Ip as [Ip | Ip]; [rewrite A2 by exact Ip; apply X|]. apply in_map_iff in Ip as ((a & v) & Ea & Ip). simpl in Ea. subst a.
      rewrite (B2 p v Ip), X. reflexivity.
    + intros n Nn. destruct (in_dec string_dec n (required (cls_of k))) as [I0 | I0]; [rewrite A1, A2, !W by assumption; reflexivity|].
      destruct (in_dec string_dec n (map fst (optional (cls_of k)))) as [I1 | I1]; [|rewrite C1, C2 by assumption; reflexivity].
      apply in_map_iff in I1 as ((a & v) & Ea & I1). simpl in Ea. subst a. rewrite (B1 n v I1), (B2 n v I1), !W by assumption. reflexivity.
  - rewrite M1 by (exists n; auto). rewrite M2; [exact I|]. exists n. split; [exact Hn|]. destruct (string_dec n p) as [-> | Nn]; [rewrite X in En; discriminate|].
    rewrite W in En by exact Nn. rewrite W by exact Nn. exact En.
Qed.
Lemma load_split fl k N d : load_onto fl N d (blank k) = let* b := load_params (cls_of k) N d in let* c := calc_obj fl k b in Ok (mkObj k c).
Proof. unfold load_onto, load_params. cbn [blank o_kind o_attr]. destruct (load_required _ _ _ _ _); reflexivity. Qed.
Lemma numerals fl k p s q d : In p (converted k) -> fl s = Some q ->
  rr same_obj (load_onto fl None (with_par d p (VStr s)) (blank k)) (load_onto fl None (with_par d p (VNum q)) (blank k)).
Proof.
  intros Ip F. rewrite !load_split. eapply rr_bind; [apply text_load|].
  - destruct k; simpl in Ip; repeat (destruct Ip as [<- | Ip]; [inp|]); destruct Ip.
  - intros a b Hab. eapply rr_bind; [eapply text_calc; eassumption|]. intros u v Huv. split; [reflexivity | intros n; apply Huv; exact I].
Qed.
Lemma calc_untouched fl k o o' p : calc_obj fl k o = Ok o' -> ~ In p (derived k) -> o' p = o p.
Proof.
  intros H N. destruct k; simpl in H, N; try (injection H as <-; reflexivity).
  - unfold calc_atmos in H. repeat (apply bind_ok in H as (? & _ & H)). injection H as <-. reflexivity.
  - unfold calc_wfs_obj in H. apply bind_ok in H as (g & _ & H). apply bind_ok in H as (o1 & H1 & H). apply assigned_put in H1.
    apply floated_put in H as (v & q & _ & _ & ->). subst o1. rewrite !put_no by (intros ->; tauto). reflexivity.
  - unfold calc_lgs in H. apply bind_ok in H as (o1 & H1 & H). apply bind_ok in H as (pr & _ & H). apply bind_ok in H as (n & _ & H). apply bind_ok in H as (e & _ & H).
    destruct (as_num e) as [q0|]; [|discriminate]. destruct (qc_ltb _ _); [discriminate|]. apply bind_ok in H as (o2 & H2 & H).
    apply floated_put in H2 as (v & q & _ & _ & ->). apply floated_put in H as (v' & q' & _ & _ & ->). rewrite !put_no by (intros ->; tauto).
    assert (G : forall x, (let* e := get o "elongationLayers" in let* n := as_int e in
          if n <? 0 then Err ValueError else assigned lgs_cls o "naProfile" (VList (repeat (num 1 1) (Z.to_nat n)))) = Ok x -> x p = o p).
    { intros x Hx. apply bind_ok in Hx as (e' & _ & Hx). apply bind_ok in Hx as (z & _ & Hx). destruct (z <? 0); [discriminate|].
      apply assigned_put in Hx. subst x. apply put_no. intros ->. tauto. }
    destruct (o "naProfile") as [[]|]; try (injection H1 as <-; reflexivity); apply G, H1.
  - unfold calc_dm in H. apply bind_ok in H as (o1 & H1 & H). apply floated_put in H1 as (v & q & _ & _ & ->). apply floated_put in H as (v' & q' & _ & _ & ->).
    rewrite !put_no by (intros ->; tauto). reflexivity.
  - unfold calc_sci_obj in H. apply bind_ok in H as (x & _ & H). apply bind_ok in H as (o1 & H1 & H). apply floated_put in H1 as (v & q & _ & _ & ->).
    apply bind_ok in H as (s & _ & H). apply bind_ok in H as (f & _ & H). apply bind_ok in H as (n & _ & H).
    assert (G : forall m w, assigned sci_cls (put o "wavelength" (VNum q)) m w = Ok o' -> In m ["pxlScale"; "FOV"] -> o' p = o p).
    { intros m w Hm I0. apply assigned_put in Hm. subst o'. rewrite !put_no; [reflexivity | intros ->; tauto | intros ->; simpl in I0; tauto]. }
    assert (G1 : scale_from_fov fl f n (put o "wavelength" (VNum q)) = Ok o' -> o' p = o p).
    { unfold scale_from_fov. intros E. apply bind_ok in E as (z & _ & E). destruct (as_num z), (as_num n); try discriminate. destruct (qc_eqb _ _); [discriminate|]. eapply G; [exact E | simpl; tauto]. }
    assert (G2 : fov_from_scale fl s f n (put o "wavelength" (VNum q)) = Ok o' -> o' p = o p).
    { unfold fov_from_scale. intros E. destruct (as_num s), (as_num n); try discriminate.
      match type of E with (if ?b then _ else _) = _ => destruct b end; [apply G1, E | eapply G; [exact E | simpl; tauto]]. }
    destruct s; try (apply G2, H); destruct f; try discriminate; apply G1, H.
Qed.
(** any other parameter keeps what the file says *)
Lemma kept_value fl k p v d o : In p (required (cls_of k) ++ map fst (optional (cls_of k))) -> ~ In p (derived k) ->
  load_onto fl None (with_par d p v) (blank k) = Ok o -> o_attr o p = Some v.
Proof.
  intros Ip N H. rewrite load_split in H. apply bind_ok in H as (b & Hb & H). apply bind_ok in H as (c & Hc & H). injection H as <-. cbn [o_attr].
  rewrite (calc_untouched _ _ _ _ _ Hc N).
  destruct (ConfigProofs.load_yaml (cls_of k) (with_par d p v) (kind_in_all k)) as (L & M).
  assert (X : with_par d p v p = Some v) by (unfold with_par; rewrite String.eqb_refl; reflexivity).
  assert (D : forall n, In n (required (cls_of k)) -> with_par d p v n <> None).
  { intros n Hn E. rewrite M in Hb by (exists n; auto). discriminate. }
  destruct (L D) as (b' & E & A & B & _). rewrite Hb in E. injection E as <-.
  apply in_app_iff in Ip as [Ip | Ip]; [rewrite A by exact Ip; exact X|]. apply in_map_iff in Ip as ((a & w) & Ea & Ip). simpl in Ea. subst a. rewrite (B p w Ip), X. reflexivity.
Qed.

From Coq Require Import String Ascii.
From Verif.Base Require Import Vec PyFacts.
From Verif.Proofs Require Import ConfigProofs.
From Verif.Model Require Import Config ConfigFile.
From Verif.Spec Require Import ConfigSpec ConfigFileSpec.
From Verif.Proofs Require Import ConfigFileProofs ConfigFileMore ConfigFileHist ConfigFileDict.
Open Scope string_scope.
Open Scope list_scope.
Open Scope Z_scope.

(** * What one load leaves in an object *)
Lemma load_required_shape k N d : forall ps o o', load_required k N d ps o = Ok o' ->
  (forall p, In p ps -> o' p <> None) /\ (forall p, o p <> None -> o' p <> None) /\ (forall p, ~ In p ps -> o' p = o p).
Proof.
  induction ps as [|q r IH]; intros o o' H; simpl in H; [injection H as <-; simpl; tauto|].
  destruct (d q) as [v|]; [|discriminate]. apply bind_ok in H as (a & Ha & H). destruct (entry N v) as [x|] eqn:E; [|discriminate].
  simpl in Ha. destruct (assigned k o q x) as [b|] eqn:Eb; simpl in Ha; [|discriminate]. injection Ha as <-. apply assigned_put in Eb. subst b.
  destruct (IH _ _ H) as (A & B & C).
  assert (Q : forall p, o p <> None -> put o q x p <> None) by (intros p Hp; unfold put; destruct (String.eqb p q); [discriminate | exact Hp]).
  split; [|split].
  - intros p [-> | Hp]; [apply B; rewrite put_at; discriminate | apply A, Hp].
  - intros p Hp. apply B, Q, Hp.
  - intros p Np. rewrite C by (intros I0; apply Np; simpl; auto). apply put_no. intros ->. apply Np. simpl. auto.
Qed.
Lemma load_optional_shape k N d : forall ps o o', load_optional k N d ps o = Ok o' ->
  (forall p, In p (map fst ps) -> o' p <> None) /\ (forall p, o p <> None -> o' p <> None) /\ (forall p, ~ In p (map fst ps) -> o' p = o p).
Proof.
  induction ps as [|[q df] r IH]; intros o o' H; simpl in H; [injection H as <-; simpl; tauto|].
  assert (exists x, load_optional k N d r (put o q x) = Ok o') as (x & H').
  { destruct (d q) as [v|]; apply bind_ok in H as (a & Ha & H).
    - destruct (entry N v) as [x|] eqn:E; [|discriminate]. simpl in Ha. destruct (assigned k o q x) as [b|] eqn:Eb; simpl in Ha; [|discriminate].
      injection Ha as <-. apply assigned_put in Eb. subst b. eauto.
    - apply assigned_put in Ha. subst a. eauto. }
  destruct (IH _ _ H') as (A & B & C).
  assert (Q : forall p, o p <> None -> put o q x p <> None) by (intros p Hp; unfold put; destruct (String.eqb p q); [discriminate | exact Hp]).
  simpl. split; [|split].
  - intros p [<- | Hp]; [apply B; rewrite put_at; discriminate | apply A, Hp].
  - intros p Hp. apply B, Q, Hp.
  - intros p Np. rewrite C by (intros I0; apply Np; auto). apply put_no. intros ->. apply Np. auto.
Qed.
Definition once (k : kind) (o : pdict) : Prop :=
  complete k o /\ only k o /\ (if match k with KSci => true | _ => false end then number o "wavelength" /\ half_fixed o else fixed k o).
Lemma load_once fl N d k o : load_onto fl N d (blank k) = Ok o -> o_kind o = k /\ once k (o_attr o).
Proof.
  unfold load_onto. cbn [blank o_kind o_attr]. intros H. apply bind_ok in H as (a & Ha & H). apply bind_ok in H as (b & Hb & H). apply bind_ok in H as (c & Hc & H).
  injection H as <-. split; [reflexivity|]. cbn [o_attr].
  destruct (load_required_shape _ _ _ _ _ _ Ha) as (A1 & A2 & A3). destruct (load_optional_shape _ _ _ _ _ _ Hb) as (B1 & B2 & B3).
  assert (Cb : complete k b) by (intros p Hp; unfold params in Hp; apply in_app_iff in Hp as [Hp | Hp]; [apply B2, A1, Hp | apply B1, Hp]).
  assert (Ob : only k b).
  { intros p Hp. left. unfold params. apply in_app_iff. destruct (in_dec string_dec p (map fst (optional (cls_of k)))) as [I0 | I0]; [auto|]. left.
    rewrite B3 in Hp by exact I0. destruct (in_dec string_dec p (required (cls_of k))) as [I1 | I1]; [exact I1|]. rewrite A3 in Hp by exact I1. congruence. }
  destruct (calc_shape fl k b c Hc) as (S1 & S2). split; [apply S1, Cb|]. split; [apply S2, Ob|].
  destruct k; try (apply (calc_fixed fl _ b c); [discriminate | exact Hc]). destruct (sci_calc fl b c Hc) as (W & F & _). auto.
Qed.
Lemma once_good k o : k <> KSci -> once k o -> good k o.
Proof. intros Hk (C & O & F). split; [exact C|]. split; [exact O|]. destruct k; try exact F. congruence. Qed.
Lemma recalc_good fl o o' : once (o_kind o) (o_attr o) -> recalc fl o = Ok o' -> o_kind o' = o_kind o /\ good (o_kind o) (o_attr o').
Proof.
  intros (C & O & F) H. unfold recalc in H. apply bind_ok in H as (a & Ha & H). injection H as <-. split; [reflexivity|]. cbn [o_attr].
  destruct (calc_shape _ _ _ _ Ha) as (S1 & S2). split; [apply S1, C|]. split; [apply S2, O|].
  destruct (o_kind o) eqn:K; try (apply (calc_fixed fl _ (o_attr o) a); [discriminate | exact Ha]). destruct F as (_ & F). apply (proj2 (proj2 (sci_calc fl _ _ Ha))), F.
Qed.

(** a value written under a parameter on which nothing else depends *)
Lemma fixed_put k o p v : ~ In p ["position"; "GSPosition"; "wavelength"; "height"; "naProfile"; "elongationLayers"; "iMatValue"; "svdConditioning"; "pxlScale"; "pxls"; "FOV"] ->
  fixed k o -> fixed k (put o p v).
Proof.
  intros N F.
  assert (E : forall q, In q ["position"; "GSPosition"; "wavelength"; "height"; "naProfile"; "elongationLayers"; "iMatValue"; "svdConditioning"; "pxlScale"; "pxls"; "FOV"] -> put o p v q = o q).
  { intros q Hq. apply put_no. intros ->. contradiction. }
  assert (W : forall q, In q ["position"; "GSPosition"; "wavelength"; "height"; "naProfile"; "elongationLayers"; "iMatValue"; "svdConditioning"; "pxlScale"; "pxls"; "FOV"] -> number o q -> number (put o p v) q).
  { intros q Hq (x & Hx). exists x. rewrite E by exact Hq. exact Hx. }
  clear N. destruct k; simpl in *; auto.
  - destruct F as (F1 & F2). rewrite !E by tauto. split; [exact F1 | apply W; [tauto | exact F2]].
  - destruct F as (F1 & F2 & pr & n & e & q & F3). split; [apply W; [tauto | exact F1]|]. split; [apply W; [tauto | exact F2]|]. exists pr, n, e, q. rewrite !E by tauto. exact F3.
  - destruct F as (F1 & F2). split; apply W; auto; tauto.
  - destruct F as (F1 & s & nv & n & f & F2). split; [apply W; [tauto | exact F1]|]. exists s, nv, n, f. rewrite !E by tauto. exact F2.
Qed.
Lemma good_put k o p v : good k o -> In p (params k) ->
  ~ In p ["position"; "GSPosition"; "wavelength"; "height"; "naProfile"; "elongationLayers"; "iMatValue"; "svdConditioning"; "pxlScale"; "pxls"; "FOV"] -> good k (put o p v).
Proof. intros (C & O & F) I0 N. split; [apply complete_put, C|]. split; [apply only_put; auto | apply fixed_put; auto]. Qed.
Ltac notin := simpl; intuition discriminate.

(** * Lists *)
Lemma map_r_forall {A B} (f : A -> result B) (P : A -> Prop) (Q : B -> Prop) : (forall a b, P a -> f a = Ok b -> Q b) ->
  forall l l', Forall P l -> map_r f l = Ok l' -> Forall Q l'.
Proof.
  intros H. induction l as [|a r IH]; intros l' F E; simpl in E; [injection E as <-; constructor|].
  apply bind_ok in E as (b & Eb & E). apply bind_ok in E as (t & Et & E). injection E as <-. inversion F; subst. constructor; [eapply H; eauto | apply IH; auto].
Qed.
Lemma map_r_same {A B} (f : A -> result B) (R : B -> A -> Prop) : forall l, Forall (fun a => exists b, f a = Ok b /\ R b a) l ->
  exists l', map_r f l = Ok l' /\ Forall2 R l' l.
Proof.
  induction l as [|a r IH]; intros F; simpl; [exists []; auto|]. inversion F as [|? ? (b & Eb & Rb) F']; subst. destruct (IH F') as (t & Et & Ft).
  rewrite Eb. cbn [bind]. rewrite Et. cbn [bind]. eauto.
Qed.
Lemma upd_end {A} : forall (l : list A) f x, upd (l ++ [f]) (length l) x = l ++ [x].
Proof. induction l as [|a r IH]; intros f x; simpl; [reflexivity|]. rewrite IH. reflexivity. Qed.
Lemma nth_end {A} (l : list A) f : nth (length l) (l ++ [f]) f = f.
Proof. rewrite app_nth2; [rewrite Nat.sub_diag; reflexivity | apply Nat.le_refl]. Qed.
Lemma nth_end' {A} (l : list A) f d : nth (length l) (l ++ [f]) d = f.
Proof. rewrite app_nth2; [rewrite Nat.sub_diag; reflexivity | apply Nat.le_refl]. Qed.
Lemma fill_forall {A} fresh (ld : nat -> A -> result A) (P : A -> Prop) : (forall j f x, fresh = Ok f -> ld j f = Ok x -> P x) ->
  forall n i l l', length l = i -> Forall P l -> fill fresh ld n i l = Ok l' -> Forall P l'.
Proof.
  intros H. induction n as [|n IH]; intros i l l' L F E; simpl in E; [injection E as <-; exact F|].
  apply bind_ok in E as (f & Ef & E). subst i. rewrite nth_end in E. apply bind_ok in E as (x & Ex & E). rewrite upd_end in E.
  eapply IH; [| |exact E]; [rewrite app_length; simpl; lia | apply Forall_app; split; [exact F | constructor; [eapply H; eauto | constructor]]].
Qed.
Lemma fill_same {A} f (ld : nat -> A -> result A) (R : A -> A -> Prop) : forall suf pre l,
  length l = length pre -> Forall2 R l pre -> (forall j a, nth_error (pre ++ suf) j = Some a -> exists x, ld j f = Ok x /\ R x a) ->
  exists l', fill (Ok f) ld (length suf) (length l) l = Ok l' /\ Forall2 R l' (pre ++ suf).
Proof.
  induction suf as [|a r IH]; intros pre l L F H; simpl; [exists l; rewrite app_nil_r; auto|].
  destruct (H (length pre) a) as (x & Ex & Rx); [rewrite nth_error_app2; [rewrite Nat.sub_diag; reflexivity | apply Nat.le_refl]|].
  rewrite nth_end. rewrite L. rewrite Ex. cbn [bind]. rewrite <- L, upd_end.
  destruct (IH (pre ++ [a]) (l ++ [x])) as (l' & E & F').
  - rewrite !app_length, L. reflexivity.
  - apply Forall2_app; [exact F | constructor; [exact Rx | constructor]].
  - intros j b Hb. apply H. rewrite <- app_assoc in Hb. exact Hb.
  - exists l'. rewrite app_length in E. simpl in E. rewrite Nat.add_1_r in E. split; [exact E|]. rewrite <- app_assoc in F'. exact F'.
Qed.
Lemma py_wfss_forall fl p (P : wobj -> Prop) :
  (forall i d w l, group p "LGS" = Ok d -> load_onto fl (Some i) d (blank KLgs) = Ok l -> py_wfs fl p i (mkW (blank KWfs) (Some l)) = Ok w -> P w) ->
  forall n i l l', length l = i -> Forall P l -> py_wfss fl (find_class module_env) p n i l = Ok l' -> Forall P l'.
Proof.
  intros H. induction n as [|n IH]; intros i l l' L F E; simpl in E; [injection E as <-; exact F|].
  change (find_class module_env "LgsConfig") with (Ok KLgs) in E. change (find_class module_env "WfsConfig") with (Ok KWfs) in E. cbn [bind] in E.
  apply bind_ok in E as (d & Ed & E). apply bind_ok in E as (lg & El & E). cbn [bind] in E. subst i. rewrite nth_end' in E. cbn [w_obj] in E.
  apply bind_ok in E as (x & Ex & E). rewrite upd_end in E.
  eapply IH; [| |exact E]; [rewrite app_length; simpl; lia | apply Forall_app; split; [exact F | constructor; [eapply H; eauto | constructor]]].
Qed.

(** * A configuration that has been loaded *)
Definition sensor_ok (P : pdict -> Prop) (w : wobj) : Prop :=
  o_kind (w_obj w) = KWfs /\ good KWfs (o_attr (w_obj w)) /\ o_attr (w_obj w) "lgs" = Some VNone /\ P (o_attr (w_obj w)) /\
  match w_lgs w with Some l => o_kind l = KLgs /\ good KLgs (o_attr l) | None => True end.
Definition obj_ok (k : kind) (P : pdict -> Prop) (o : obj) : Prop := o_kind o = k /\ good k (o_attr o) /\ P (o_attr o).
Definition any (_ : pdict) : Prop := True.
Definition stopped (o : pdict) : Prop := exists n s, o "nxSubaps" = Some n /\ o "subapFieldStop" = Some s /\ (is_one n = true -> is_zero s = false).
Definition exposed (sim : pdict) (o : pdict) : Prop := exists e, o "exposureTime" = Some e /\ (truthy e = true \/ sim "loopTime" = Some e).
Definition sized (tel : pdict) (o : pdict) : Prop := exists d, o "diameter" = Some d /\ (d <> VNone \/ tel "telDiam" = Some d).
Definition scaled (o : pdict) : Prop := exists l, o "L0" = Some l /\ l <> VNone.
Record settled (c : config) : Prop := {
  st_sim : obj_ok KSim any (c_sim c); st_atm : obj_ok KAtmos scaled (c_atmos c); st_tel : obj_ok KTel any (c_tel c); st_rec : obj_ok KRecon any (c_recon c);
  st_ws : Forall (sensor_ok (fun o => exposed (o_attr (c_sim c)) o /\ stopped o)) (c_wfss c);
  st_ds : Forall (obj_ok KDm (sized (o_attr (c_tel c)))) (c_dms c);
  st_ss : Forall (obj_ok KSci any) (c_scis c);
  st_nw : number_is (c_sim c) "nGS" (length (c_wfss c)); st_nd : number_is (c_sim c) "nDM" (length (c_dms c)); st_ns : number_is (c_sim c) "nSci" (length (c_scis c)) }.
Definition loaded (k : kind) (o : obj) : Prop := o_kind o = k /\ once k (o_attr o).
Definition loaded_sensor (w : wobj) : Prop :=
  loaded KWfs (w_obj w) /\ o_attr (w_obj w) "lgs" = Some VNone /\ match w_lgs w with Some l => loaded KLgs l | None => True end.
Lemma recalc_loaded fl k o o' : loaded k o -> recalc fl o = Ok o' -> obj_ok k any o'.
Proof. intros (K & O) H. subst k. destruct (recalc_good fl o o' O H) as (K' & G). split; [exact K' | split; [exact G | exact I]]. Qed.

Lemma calc_wfs_lgs fl o o' : calc_wfs_obj fl o = Ok o' -> o' "lgs" = o "lgs".
Proof.
  unfold calc_wfs_obj. intros H. apply bind_ok in H as (g & _ & H). apply bind_ok in H as (o1 & H1 & H). apply assigned_put in H1.
  apply floated_put in H as (v & q & _ & _ & ->). subst o1. puts. reflexivity.
Qed.
Lemma calc_settled fl c c' : loaded KSim (c_sim c) -> loaded KAtmos (c_atmos c) -> loaded KTel (c_tel c) -> loaded KRecon (c_recon c) ->
  Forall loaded_sensor (c_wfss c) -> Forall (loaded KDm) (c_dms c) -> Forall (loaded KSci) (c_scis c) ->
  calc_config fl c = Ok c' ->
  number_is (c_sim c') "nGS" (length (c_wfss c')) -> number_is (c_sim c') "nDM" (length (c_dms c')) -> number_is (c_sim c') "nSci" (length (c_scis c')) ->
  settled c'.
Proof.
  intros L1 L2 L3 L4 L5 L6 L7 H N1 N2 N3. unfold calc_config in H.
  apply bind_ok in H as (sim & Hsim & H). apply bind_ok in H as (atm & Hatm & H). apply bind_ok in H as (tel & Htel & H).
  apply bind_ok in H as (ws & Hws & H). apply bind_ok in H as (ds & Hds & H). apply bind_ok in H as (ss & Hss & H).
  apply bind_ok in H as (ws1 & Hws1 & H). apply bind_ok in H as (atm1 & Hatm1 & H). apply bind_ok in H as (ws2 & Hws2 & H). apply bind_ok in H as (ds1 & Hds1 & H).
  injection H as <-. cbn [c_sim c_wfss c_dms c_scis] in N1, N2, N3.
  pose proof (recalc_loaded fl _ _ _ L1 Hsim) as S1. pose proof (recalc_loaded fl _ _ _ L3 Htel) as S3.
  constructor; cbn [c_sim c_atmos c_tel c_recon c_wfss c_dms c_scis]; auto.
  - destruct (recalc_loaded fl _ _ _ L2 Hatm) as (K & G & _). unfold set_L0 in Hatm1. apply bind_ok in Hatm1 as (l & El & Hatm1). apply get_ok in El.
    assert (Q : l <> VNone -> atm1 = atm -> obj_ok KAtmos scaled atm1) by (intros Nl ->; split; [exact K | split; [exact G | exists l; auto]]).
    destruct l; try (injection Hatm1 as E; symmetry in E; apply Q; [discriminate | exact E]).
    apply bind_ok in Hatm1 as (n & En & Hatm1). apply bind_ok in Hatm1 as (a & Ea & Hatm1). apply assigned_put in Ea. injection Hatm1 as <-. subst a.
    split; [exact K|]. cbn [o_attr]. split; [apply good_put; [exact G | inp | notin]|]. eexists. split; [apply put_at | discriminate].
  - destruct L4 as (K & O). split; [exact K|]. split; [apply once_good; [discriminate | exact O] | exact I].
  - eapply map_r_forall; [|eapply map_r_forall; [| eapply map_r_forall; [|exact L5|exact Hws] | exact Hws1]| exact Hws2].
    + instantiate (1 := sensor_ok (exposed (o_attr sim))). intros w w' (K & G & Lg & E & M) Hw. unfold set_stop in Hw.
      apply bind_ok in Hw as (n & En & Hw). apply get_ok in En.
      destruct (has KWfs (o_attr (w_obj w)) "subapFieldStop" (proj1 G)) as (s & Es); [inp|].
      assert (Q : (is_one n = true -> is_zero s = false) -> w' = w -> sensor_ok (fun o => exposed (o_attr sim) o /\ stopped o) w').
      { intros A ->. split; [exact K|]. split; [exact G|]. split; [exact Lg|]. split; [|exact M]. split; [exact E|]. exists n, s. auto. }
      unfold get in Hw. rewrite Es in Hw. cbn [bind] in Hw.
      destruct (is_one n); [|injection Hw as <-; apply Q; [discriminate | reflexivity]].
      destruct (is_zero s); [|injection Hw as <-; apply Q; auto].
      apply bind_ok in Hw as (a & Ea & Hw). apply assigned_put in Ea. injection Hw as <-. subst a.
      split; [exact K|]. cbn [w_obj o_attr w_lgs]. split; [apply good_put; [exact G | inp | notin]|]. split; [rewrite put_no by discriminate; exact Lg|].
      split; [|exact M]. split; [destruct E as (e & Ee & E); exists e; rewrite put_no by discriminate; auto|].
      exists n, (VBool true). puts. split; [exact En|]. split; [reflexivity|]. intros _. reflexivity.
    + instantiate (1 := sensor_ok any). intros w w' (K & G & Lg & _ & M) Hw. unfold set_exposure in Hw. apply bind_ok in Hw as (e & Ee & Hw). apply get_ok in Ee.
      destruct (truthy e) eqn:T; [injection Hw as <-; split; [exact K | split; [exact G | split; [exact Lg | split; [exists e; auto | exact M]]]]|].
      apply bind_ok in Hw as (t & Et & Hw). apply get_ok in Et. apply bind_ok in Hw as (a & Ea & Hw). apply assigned_put in Ea. injection Hw as <-. subst a.
      split; [exact K|]. cbn [w_obj o_attr w_lgs]. split; [apply good_put; [exact G | inp | notin]|]. split; [rewrite put_no by discriminate; exact Lg|].
      split; [|exact M]. exists t. rewrite put_at. auto.
    + intros w w' (L & Lg & M) Hw. apply bind_ok in Hw as (o & Ho & Hw). injection Hw as <-. destruct (recalc_loaded fl _ _ _ L Ho) as (K & G & _).
      split; [exact K|]. split; [exact G|]. cbn [w_obj w_lgs]. split; [|split; [exact I|]].
      * unfold recalc in Ho. destruct L as (KL & _). rewrite KL in Ho. apply bind_ok in Ho as (a & Ha & Ho). injection Ho as <-. simpl in Ha.
        cbn [o_attr]. rewrite (calc_wfs_lgs _ _ _ Ha). exact Lg.
      * destruct (w_lgs w) as [l|]; [|exact I]. destruct M as (KL & OL). split; [exact KL | apply once_good; [discriminate | exact OL]].
  - eapply map_r_forall; [|eapply map_r_forall; [|exact L6|exact Hds]|exact Hds1]; [|intros a b; apply recalc_loaded].
    intros o o' (K & G & _) Ho. unfold set_diameter in Ho. apply bind_ok in Ho as (d & Ed & Ho). apply get_ok in Ed.
    assert (Q : d <> VNone -> o' = o -> obj_ok KDm (sized (o_attr tel)) o') by (intros Nd ->; split; [exact K | split; [exact G | exists d; auto]]).
    destruct d; try (injection Ho as E; symmetry in E; apply Q; [discriminate | exact E]).
    apply bind_ok in Ho as (t & Et & Ho). apply get_ok in Et. apply bind_ok in Ho as (a & Ea & Ho). apply assigned_put in Ea. injection Ho as <-. subst a.
    split; [exact K|]. cbn [o_attr]. split; [apply good_put; [exact G | inp | notin]|]. exists t. rewrite put_at. auto.
  - eapply map_r_forall; [|exact L7|exact Hss]. intros a b. apply recalc_loaded.
Qed.

Lemma new_module name k : find_class module_env name = Ok k -> new (find_class module_env) name = Ok (blank k).
Proof. unfold new. intros ->. reflexivity. Qed.
Lemma put_lgs_once o : loaded KWfs o -> loaded KWfs (put_obj o "lgs" VNone).
Proof.
  intros (K & C & O & F). split; [exact K|]. unfold put_obj. cbn [o_attr]. split; [apply complete_put, C|]. split; [apply only_put; [exact O | left; inp]|].
  apply (fixed_put KWfs); [notin | exact F].
Qed.
Lemma yaml_settled fl y c : from_yaml fl y = Ok c -> settled c.
Proof.
  intros H. destruct (yaml_counts fl y c H) as (N1 & N2 & N3). apply load_yaml_steps in H as s.
  destruct s as [sim atm tel rec ws ds ss n1 n2 n3 g1 g2 g3 H2 H3 H4 H5 H6 H7 H8 H9 H10 H11 H12 H13 H14 H15].
  eapply calc_settled; [..|exact H15|exact N1|exact N2|exact N3]; cbn [c_sim c_atmos c_tel c_recon c_wfss c_dms c_scis];
    try (eapply load_once; eassumption).
  - eapply fill_forall; [|reflexivity|constructor|exact H8]. intros j f w Ef Hw. rewrite (new_module "WfsConfig" KWfs eq_refl) in Ef. injection Ef as <-.
    unfold y_wfs_load in Hw. apply bind_ok in Hw as (r & _ & Hw). cbn [w_obj] in Hw. apply bind_ok in Hw as (o & Ho & Hw).
    assert (Q : forall lg, w = mkW (put_obj o "lgs" VNone) lg -> match lg with Some l => loaded KLgs l | None => True end -> loaded_sensor w).
    { intros lg -> M. split; [apply put_lgs_once; eapply load_once; exact Ho|]. split; [apply put_at | exact M]. }
    destruct (r_lgs r) as [[v|d]|].
    + destruct v; try (apply bind_ok in Hw as (? & _ & Hw); discriminate). injection Hw as <-. eapply Q; [reflexivity | exact I].
    + rewrite (new_module "LgsConfig" KLgs eq_refl) in Hw. cbn [bind] in Hw. apply bind_ok in Hw as (l & Hl & Hw). injection Hw as <-. eapply Q; [reflexivity|].
      eapply load_once, Hl.
    + injection Hw as <-. eapply Q; [reflexivity | exact I].
  - eapply fill_forall; [|reflexivity|constructor|exact H10]. intros j f w Ef Hw. rewrite (new_module "DmConfig" KDm eq_refl) in Ef. injection Ef as <-.
    unfold y_each in Hw. apply bind_ok in Hw as (d & _ & Hw). eapply load_once, Hw.
  - eapply fill_forall; [|reflexivity|constructor|exact H14]. intros j f w Ef Hw. rewrite (new_module "SciConfig" KSci eq_refl) in Ef. injection Ef as <-.
    unfold y_each in Hw. apply bind_ok in Hw as (d & _ & Hw). eapply load_once, Hw.
Qed.

Lemma python_settled fl p c : from_python fl p = Ok c -> settled c.
Proof.
  intros H. destruct (python_counts fl p c H) as (N1 & N2 & N3). apply load_py_steps in H as s.
  destruct s as [sim atm tel rec ws ds ss n1 n2 n3 g1 g2 g3 g4 H1 H2 H3 H4 H5 H6 H7 H8 H9 H10 H11 H12 H13 H14 H15].
  eapply calc_settled; [..|exact H15|exact N1|exact N2|exact N3]; cbn [c_sim c_atmos c_tel c_recon c_wfss c_dms c_scis];
    try (eapply load_once; eassumption).
  - eapply py_wfss_forall; [|reflexivity|constructor|exact H8]. intros i d w l _ Hl Hw. unfold py_wfs in Hw. cbn [w_obj w_lgs] in Hw.
    apply bind_ok in Hw as (g & _ & Hw). apply bind_ok in Hw as (o & Ho & Hw). apply bind_ok in Hw as (t & _ & Hw). injection Hw as <-.
    split; [apply put_lgs_once; eapply load_once; exact Ho|]. split; [apply put_at|]. cbn [w_lgs]. destruct (truthy t); [eapply load_once, Hl | exact I].
  - eapply fill_forall; [|reflexivity|constructor|exact H10]. intros j f w Ef Hw. rewrite (new_module "DmConfig" KDm eq_refl) in Ef. injection Ef as <-.
    unfold py_each in Hw. apply bind_ok in Hw as (d & _ & Hw). eapply load_once, Hw.
  - eapply fill_forall; [|reflexivity|constructor|exact H14]. intros j f w Ef Hw. rewrite (new_module "SciConfig" KSci eq_refl) in Ef. injection Ef as <-.
    unfold py_each in Hw. apply bind_ok in Hw as (d & _ & Hw). eapply load_once, Hw.
Qed.

(** * calcParams of the configurator changes nothing more *)
Lemma same_refl o : same_obj o o. Proof. split; auto. Qed.
Lemma recalc_same_good fl k P o : obj_ok k P o -> exists o', recalc fl o = Ok o' /\ same_obj o' o.
Proof.
  intros (K & (C & _ & F) & _). unfold recalc. rewrite K. destruct (fixed_calc fl k (o_attr o) C F) as (a & E & H). rewrite E. eexists. split; [reflexivity|].
  split; [symmetry; exact K | exact H].
Qed.
Lemma opt_refl x : same_opt x x. Proof. destruct x; simpl; auto using same_refl. Qed.
Lemma put_same_obj o k p v : o_kind o = k -> o_attr o p = Some v -> same_obj (mkObj k (put (o_attr o) p v)) o.
Proof. intros <- E. split; [reflexivity | exact (put_again _ _ _ E)]. Qed.
Lemma all_params k p : In p (params k) -> existsb (String.eqb p) (allowed (cls_of k)) = true -> forall o v, assigned (cls_of k) o p v = Ok (put o p v).
Proof. intros _ A o v. unfold assigned, set_attr. rewrite A. reflexivity. Qed.
Lemma same_stop P w : sensor_ok P w -> (forall o, P o -> stopped o) -> exists w', set_stop w = Ok w' /\ same_wfs w' w.
Proof.
  intros (K & G & Lg & E & M) S. destruct (S _ E) as (n & s & En & Es & H). unfold set_stop, get. rewrite En. cbn [bind].
  destruct (is_one n); [|exists w; split; [reflexivity | split; [apply same_refl | apply opt_refl]]]. rewrite Es. cbn [bind]. rewrite (H eq_refl).
  exists w. split; [reflexivity | split; [apply same_refl | apply opt_refl]].
Qed.
Lemma same_exposure P sim w : sensor_ok P w -> (forall o, P o -> exposed (o_attr sim) o) -> exists w', set_exposure sim w = Ok w' /\ same_wfs w' w.
Proof.
  intros (K & G & Lg & E & M) S. destruct (S _ E) as (e & Ee & H). unfold set_exposure. unfold get at 1. rewrite Ee. cbn [bind].
  destruct (truthy e); [exists w; split; [reflexivity | split; [apply same_refl | apply opt_refl]]|]. destruct H as [H | H]; [discriminate|].
  unfold get. rewrite H. cbn [bind]. rewrite K. rewrite (all_params KWfs "exposureTime") by (first [inp | reflexivity]). cbn [bind].
  eexists. split; [reflexivity|]. split; [apply put_same_obj; auto | apply opt_refl].
Qed.
Lemma same_diameter tel o : obj_ok KDm (sized (o_attr tel)) o -> exists o', set_diameter tel o = Ok o' /\ same_obj o' o.
Proof.
  intros (K & G & d & Ed & H). unfold set_diameter. unfold get at 1. rewrite Ed. cbn [bind].
  assert (Q : exists o', Ok o = Ok o' /\ same_obj o' o) by (exists o; auto using same_refl).
  destruct d; try exact Q. destruct H as [H | H]; [congruence|]. unfold get. rewrite H. cbn [bind]. rewrite K.
  rewrite (all_params KDm "diameter") by (first [inp | reflexivity]). cbn [bind]. eexists. split; [reflexivity | apply put_same_obj; auto].
Qed.
Lemma same_L0 o : obj_ok KAtmos scaled o -> exists o', set_L0 o = Ok o' /\ same_obj o' o.
Proof.
  intros (K & G & d & Ed & H). unfold set_L0. unfold get at 1. rewrite Ed. cbn [bind].
  assert (Q : exists o', Ok o = Ok o' /\ same_obj o' o) by (exists o; auto using same_refl). destruct d; try exact Q. congruence.
Qed.
Lemma rr_ok {A B} (R : A -> B -> Prop) a b y : rr R a b -> b = Ok y -> exists x, a = Ok x /\ R x y.
Proof. intros H ->. destruct a; simpl in H; [eauto | contradiction]. Qed.
Lemma obj_trans a b c : same_obj a b -> same_obj b c -> same_obj a c.
Proof. intros (K & H) (K' & H'). split; [congruence | intros p; rewrite H; apply H']. Qed.
Lemma opt_trans a b c : same_opt a b -> same_opt b c -> same_opt a c.
Proof. destruct a, b, c; simpl; try tauto. apply obj_trans. Qed.
Lemma wfs_trans a b c : same_wfs a b -> same_wfs b c -> same_wfs a c.
Proof. intros (A & B) (A' & B'). split; [eapply obj_trans; eauto | eapply opt_trans; eauto]. Qed.
Lemma F2_trans {A} (R : A -> A -> Prop) (T : forall a b c, R a b -> R b c -> R a c) : forall l m n, Forall2 R l m -> Forall2 R m n -> Forall2 R l n.
Proof. intros l m n H. revert n. induction H; intros n' H'; inversion H'; subst; constructor; eauto. Qed.
Lemma map_r_again {A} (f g : A -> result A) (R : A -> A -> Prop) l l1 : (forall a b c, R a b -> R b c -> R a c) ->
  (forall a b, R a b -> rr R (f a) (g b)) -> Forall2 R l1 l -> Forall (fun a => exists b, g a = Ok b /\ R b a) l ->
  exists l2, map_r f l1 = Ok l2 /\ Forall2 R l2 l.
Proof.
  intros T H F1 F. induction F1 as [|a b r s Hab F1 IH]; simpl; [exists []; auto|]. inversion F as [|? ? (x & Ex & Rx) F']; subst.
  destruct (rr_ok R _ _ x (H a b Hab) Ex) as (x' & Ex' & Rx'). rewrite Ex'. cbn [bind]. destruct (IH F') as (t & Et & Ft). rewrite Et. cbn [bind].
  exists (x' :: t). split; [reflexivity|]. constructor; [eapply T; eauto | exact Ft].
Qed.
Lemma calc_again fl c : settled c -> exists c', calc_config fl c = Ok c' /\ same_config c' c.
Proof.
  intros [S1 S2 S3 S4 S5 S6 S7 _ _ _]. unfold calc_config.
  destruct (recalc_same_good fl _ _ _ S1) as (sim & E1 & Q1). destruct (recalc_same_good fl _ _ _ S2) as (atm & E2 & Q2). destruct (recalc_same_good fl _ _ _ S3) as (tel & E3 & Q3).
  rewrite E1, E2, E3. cbn [bind].
  destruct (map_r_same (fun w => let* o := recalc fl (w_obj w) in Ok (mkW o (w_lgs w))) same_wfs (c_wfss c)) as (ws & Ew & Fw).
  { eapply Forall_impl; [|exact S5]. intros w (K & G & _ & _ & _). destruct (recalc_same_good fl KWfs any (w_obj w)) as (o & Eo & Qo); [split; [exact K | split; [exact G | exact I]]|].
    rewrite Eo. cbn [bind]. eexists. split; [reflexivity | split; [exact Qo | apply opt_refl]]. }
  rewrite Ew. cbn [bind].
  destruct (map_r_same (recalc fl) same_obj (c_dms c)) as (ds & Ed & Fd); [eapply Forall_impl; [|exact S6]; intros o; apply recalc_same_good|]. rewrite Ed. cbn [bind].
  destruct (map_r_same (recalc fl) same_obj (c_scis c)) as (ss & Es & Fs); [eapply Forall_impl; [|exact S7]; intros o; apply recalc_same_good|]. rewrite Es. cbn [bind].
  destruct (map_r_again (set_exposure sim) (set_exposure (c_sim c)) same_wfs (c_wfss c) ws wfs_trans) as (ws1 & Ew1 & Fw1); [intros a b; apply set_exposure_same, Q1 | exact Fw|
    eapply Forall_impl; [|exact S5]; intros w Hw; eapply same_exposure; [exact Hw | intros o (X & _); exact X]|].
  rewrite Ew1. cbn [bind]. destruct (same_L0 _ S2) as (atm' & Ea' & Qa').
  destruct (rr_ok _ _ _ _ (set_L0_same _ _ Q2) Ea') as (atm1 & Ea1 & Qa1). rewrite Ea1. cbn [bind].
  destruct (map_r_again set_stop set_stop same_wfs (c_wfss c) ws1 wfs_trans) as (ws2 & Ew2 & Fw2); [intros a b; apply set_stop_same | exact Fw1|
    eapply Forall_impl; [|exact S5]; intros w Hw; eapply same_stop; [exact Hw | intros o (_ & X); exact X]|].
  rewrite Ew2. cbn [bind].
  destruct (map_r_again (set_diameter tel) (set_diameter (c_tel c)) same_obj (c_dms c) ds obj_trans) as (ds1 & Ed1 & Fd1); [intros a b; apply set_diameter_same, Q3 | exact Fd|
    eapply Forall_impl; [|exact S6]; intros o; apply same_diameter|].
  rewrite Ed1. cbn [bind]. eexists. split; [reflexivity|]. repeat split; cbn; auto; try apply Q1; try apply Q3; try apply Q4.
  - apply (obj_trans atm1 atm'); assumption.
  - apply (obj_trans atm1 atm' _ Qa1 Qa').
Qed.
Lemma config_trans a b c : same_config a b -> same_config b c -> same_config a c.
Proof.
  intros (A1 & A2 & A3 & A4 & A5 & A6 & A7) (B1 & B2 & B3 & B4 & B5 & B6 & B7). unfold same_config.
  repeat match goal with |- _ /\ _ => split end; try (eapply obj_trans; eassumption).
  - eapply F2_trans; [apply wfs_trans | eassumption | eassumption].
  - eapply F2_trans; [apply obj_trans | eassumption | eassumption].
  - eapply F2_trans; [apply obj_trans | eassumption | eassumption].
Qed.

(** * The round trip *)
Lemma count_is o o' p n : number_is o p n -> same_obj o' o -> count o' p = Ok n.
Proof. intros (v & E & C) (_ & H). unfold count, get. rewrite H, E. exact C. Qed.
Lemma reload_ok fl k P o : obj_ok k P o -> exists o', load_onto fl None (obj_dict o) (blank k) = Ok o' /\ same_obj o' o.
Proof. intros (<- & G & _). apply reload_obj, G. Qed.
Lemma each_same fl k P l : Forall (obj_ok k P) l ->
  exists l', fill (Ok (blank k)) (y_each fl (Some (map obj_dict l))) (length l) 0 [] = Ok l' /\ Forall2 same_obj l' l.
Proof.
  intros F. apply (fill_same (blank k) (y_each fl (Some (map obj_dict l))) same_obj l [] []); [reflexivity | constructor|].
  intros j a Ha. simpl in Ha. unfold y_each, list_group. rewrite nth_error_map, Ha. cbn. rewrite Forall_forall in F. eapply reload_ok, F, nth_error_In, Ha.
Qed.
Lemma put_lgs_same o o' : same_obj o' o -> o_attr o "lgs" = Some VNone -> same_obj (put_obj o' "lgs" VNone) o.
Proof. intros (K & H) L. split; [exact K|]. intros p. cbn. rewrite put_again by (rewrite H; exact L). apply H. Qed.
Lemma sensors_same fl P l : Forall (sensor_ok P) l ->
  exists l', fill (Ok (mkW (blank KWfs) None)) (y_wfs_load fl (find_class module_env) (mkY (fun _ => None) None (fun _ => None)
    (Some (map (fun w => mkRow (without (obj_dict (w_obj w)) "lgs") (Some (match w_lgs w with Some l => LMap (obj_dict l) | None => LVal VNone end))) l)) None None))
    (length l) 0 [] = Ok l' /\ Forall2 same_wfs l' l.
Proof.
  intros F. apply (fill_same (mkW (blank KWfs) None) (y_wfs_load fl (find_class module_env) _) same_wfs l [] []); [reflexivity | constructor|].
  intros j w Hw. simpl in Hw. unfold y_wfs_load, list_group. cbn [y_wfs]. rewrite nth_error_map, Hw. cbn [option_map bind r_par r_lgs w_obj].
  rewrite Forall_forall in F. destruct (F w (nth_error_In _ _ Hw)) as (K & G & L & _ & M).
  destruct (reload_sensor fl (w_obj w) K G L) as (o' & Eo & So). rewrite Eo. cbn [bind].
  destruct (w_lgs w) as [lg|] eqn:El.
  - rewrite (new_module "LgsConfig" KLgs eq_refl). cbn [bind]. destruct M as (KL & GL). destruct (reload_ok fl KLgs any lg) as (l' & E' & S'); [split; [exact KL | split; [exact GL | exact I]]|].
    rewrite E'. cbn [bind]. eexists. split; [reflexivity|]. split; [apply put_lgs_same; auto | rewrite El; exact S'].
  - eexists. split; [reflexivity|]. split; [apply put_lgs_same; auto | rewrite El; exact I].
Qed.
Lemma round_trip fl c : settled c -> exists c', from_yaml fl (config_dict c) = Ok c' /\ same_config c' c.
Proof.
  intros S. pose proof S as [S1 S2 S3 S4 S5 S6 S7 N1 N2 N3]. unfold from_yaml, load_yaml.
  destruct (reload_ok fl _ _ _ S1) as (sim & E1 & Q1). destruct (reload_ok fl _ _ _ S2) as (atm & E2 & Q2).
  destruct (reload_ok fl _ _ _ S3) as (tel & E3 & Q3). destruct (reload_ok fl _ _ _ S4) as (rec & E4 & Q4).
  cbn [config_dict y_sim empty_config c_sim c_atmos c_tel c_recon c_wfss c_dms c_scis]. rewrite E1. cbn [bind].
  change (ygroup (config_dict c) "Atmosphere") with (Ok (obj_dict (c_atmos c))). cbn [bind]. rewrite E2. cbn [bind].
  change (ygroup (config_dict c) "Telescope") with (Ok (obj_dict (c_tel c))). cbn [bind]. rewrite E3. cbn [bind].
  rewrite (count_is _ _ _ _ N1 Q1). cbn [bind]. rewrite (new_module "WfsConfig" KWfs eq_refl). cbn [bind].
  destruct (sensors_same fl _ _ S5) as (ws & Ew & Fw).
  assert (W : fill (Ok (mkW (blank KWfs) None)) (y_wfs_load fl (find_class module_env) (config_dict c)) (length (c_wfss c)) 0 [] = Ok ws) by (rewrite <- Ew; apply fill_ext; reflexivity).
  rewrite W. cbn [bind]. rewrite (count_is _ _ _ _ N2 Q1). cbn [bind]. rewrite (new_module "DmConfig" KDm eq_refl).
  destruct (each_same fl _ _ _ S6) as (ds & Ed & Fd). change (y_dm (config_dict c)) with (Some (map obj_dict (c_dms c))). rewrite Ed. cbn [bind].
  change (ygroup (config_dict c) "Reconstructor") with (Ok (obj_dict (c_recon c))). cbn [bind]. rewrite E4. cbn [bind].
  rewrite (count_is _ _ _ _ N3 Q1). cbn [bind]. rewrite (new_module "SciConfig" KSci eq_refl).
  destruct (each_same fl _ _ _ S7) as (ss & Es & Fs). change (y_sci (config_dict c)) with (Some (map obj_dict (c_scis c))). rewrite Es. cbn [bind].
  destruct (calc_again fl c S) as (c2 & Ec & Qc2).
  assert (SC : same_config (mkC sim atm tel rec ws ds ss) c) by (repeat split; cbn; auto; first [apply Q1 | apply Q2 | apply Q3 | apply Q4]).
  destruct (rr_ok _ _ _ _ (calc_config_same fl _ _ SC) Ec) as (c1 & E1' & Q1'). exists c1. split; [exact E1' | eapply config_trans; eauto].
Qed.

From Coq Require Import String Ascii.
From Verif.Base Require Import Vec PyFacts.
From Verif.Proofs Require Import ConfigProofs.
From Verif.Model Require Import Config ConfigFile.
From Verif.Spec Require Import ConfigSpec ConfigFileSpec.
Open Scope string_scope.
Open Scope list_scope.
Open Scope Z_scope.

(** * Related outcomes *)
Definition rr {A B} (R : A -> B -> Prop) (a : result A) (b : result B) : Prop :=
  match a, b with Ok x, Ok y => R x y | Err _, Err _ => True | _, _ => False end.
Lemma rr_bind {A B C D} (R : A -> B -> Prop) (T : C -> D -> Prop) a b f g :
  rr R a b -> (forall x y, R x y -> rr T (f x) (g y)) -> rr T (bind a f) (bind b g).
Proof. destruct a, b; simpl; intros H K; try contradiction; auto. Qed.
Lemma rr_refl {A} (R : A -> A -> Prop) a : (forall x, R x x) -> rr R a a.
Proof. intros H; destruct a; simpl; auto. Qed.
Lemma rr_mono {A B} (R T : A -> B -> Prop) a b : (forall x y, R x y -> T x y) -> rr R a b -> rr T a b.
Proof. intros H; destruct a, b; simpl; auto. Qed.
Lemma bind_ok {A B} (r : result A) (f : A -> result B) b : bind r f = Ok b -> exists a, r = Ok a /\ f a = Ok b.
Proof. destruct r; simpl; intros H; [eauto | discriminate]. Qed.

(** * Attributes that agree where it matters *)
Definition agree (P : string -> Prop) (o o' : pdict) : Prop := forall q, P q -> o q = o' q.
Lemma assigned_rel k P o o' p v : agree P o o' -> rr (agree P) (assigned k o p v) (assigned k o' p v).
Proof.
  intros H. unfold assigned, set_attr. destruct (existsb _ _); simpl; [|exact I].
  intros q Hq. rewrite (H q Hq). reflexivity.
Qed.
Lemma assigned_rel2 k P o o' p v v' : agree P o o' -> ~ P p -> rr (agree P) (assigned k o p v) (assigned k o' p v').
Proof.
  intros H N. unfold assigned, set_attr. destruct (existsb _ _); simpl; [|exact I].
  intros q Hq. destruct (String.eqb q p) eqn:E; [apply String.eqb_eq in E; subst; contradiction | apply H, Hq].
Qed.
Lemma as_config_rel {A B} (R : A -> B -> Prop) a b : rr R a b -> rr R (as_config a) (as_config b).
Proof. destruct a, b; simpl; auto. Qed.

(** A value of a column and of a row. *)
Definition cell (N : nat) (col row : pdict) (p : string) : Prop :=
  match col p with None => row p = None | Some v => exists x, subscript v N = Ok x /\ row p = Some x end.
Definition readable (N : nat) (col : pdict) (p : string) : Prop :=
  match col p with None => True | Some v => exists x, subscript v N = Ok x end.
Lemma load_required_rel k N col row (P : string -> Prop) ps : (forall p, In p ps -> P p) -> (forall p, P p -> cell N col row p) ->
  forall o o', agree P o o' -> rr (agree P) (load_required k (Some N) col ps o) (load_required k None row ps o').
Proof.
  induction ps as [|p r IH]; intros HP HC o o' H; simpl; [exact H|].
  pose proof (HC p (HP p (or_introl eq_refl))) as C. unfold cell in C. destruct (col p) as [v|].
  - destruct C as (x & Ex & Er). rewrite Er, Ex. simpl.
    eapply rr_bind; [apply as_config_rel, assigned_rel, H|]. intros a b Hab. apply IH; auto. intros q Hq. apply HP. right; exact Hq.
  - rewrite C. exact I.
Qed.
Lemma load_optional_rel k N col row (P : string -> Prop) ps : (forall p, P p \/ ~ P p) ->
  (forall p, P p -> cell N col row p) -> (forall p, ~ P p -> readable N col p) ->
  forall o o', agree P o o' -> rr (agree P) (load_optional k (Some N) col ps o) (load_optional k None row ps o').
Proof.
  intros D HC HN. induction ps as [|[p df] r IH]; intros o o' H; simpl; [exact H|].
  destruct (D p) as [Y | Y].
  - pose proof (HC p Y) as C. unfold cell in C. destruct (col p) as [v|].
    + destruct C as (x & Ex & Er). rewrite Er, Ex. simpl.
      eapply rr_bind; [apply as_config_rel, assigned_rel, H|]. intros a b Hab. apply IH, Hab.
    + rewrite C. eapply rr_bind; [apply assigned_rel, H|]. intros a b Hab. apply IH, Hab.
  - pose proof (HN p Y) as C. unfold readable in C.
    assert (Q : forall a b, rr (agree P) (as_config (assigned k o p a)) (as_config (assigned k o' p b)) /\
      rr (agree P) (assigned k o p a) (as_config (assigned k o' p b)) /\
      rr (agree P) (as_config (assigned k o p a)) (assigned k o' p b) /\ rr (agree P) (assigned k o p a) (assigned k o' p b)).
    { intros a b. pose proof (assigned_rel2 k P o o' p a b H Y) as Q. destruct (assigned k o p a), (assigned k o' p b); simpl in *; auto. }
    destruct (col p) as [v|]; [destruct C as (x & Ex); rewrite Ex | clear C]; destruct (row p) as [w|]; simpl;
      (eapply rr_bind; [ apply Q | intros a b Hab; apply IH, Hab]).
Qed.

(** * calcParams of the objects *)
Lemma get_rel P o o' p : agree P o o' -> P p -> rr eq (get o p) (get o' p).
Proof. intros H Hp. unfold get. rewrite (H p Hp). destruct (o' p); simpl; auto. Qed.
Lemma floated_rel fl k P o o' p : agree P o o' -> P p -> rr (agree P) (floated fl k p o) (floated fl k p o').
Proof.
  intros H Hp. unfold floated. eapply rr_bind; [eapply get_rel; eassumption|]. intros x y <-.
  eapply rr_bind; [apply (rr_refl eq); reflexivity|]. intros a b <-. apply assigned_rel, H.
Qed.
Lemma scale_rel fl P f n o o' : agree P o o' -> rr (agree P) (scale_from_fov fl f n o) (scale_from_fov fl f n o').
Proof.
  intros H. unfold scale_from_fov. eapply rr_bind; [apply (rr_refl eq); reflexivity|]. intros x y <-.
  destruct (as_num x); [|exact I]. destruct (as_num n); [|exact I]. destruct (qc_eqb _ _); [exact I | apply assigned_rel, H].
Qed.
Lemma fov_rel fl P s f n o o' : agree P o o' -> rr (agree P) (fov_from_scale fl s f n o) (fov_from_scale fl s f n o').
Proof.
  intros H. unfold fov_from_scale. destruct (as_num s); [|exact I]. destruct (as_num n); [|exact I].
  match goal with |- context [if ?b then _ else _] => destruct b end; [apply scale_rel, H | apply assigned_rel, H].
Qed.
Definition but_lgs (P : string -> Prop) : Prop := forall p, p <> "lgs" -> P p.
Ltac by_get H := eapply rr_bind; [eapply get_rel; [exact H|]; match goal with B : but_lgs _ |- _ => apply B end; discriminate|]; intros ? ? <-.
Lemma calc_obj_rel fl k P o o' : but_lgs P -> agree P o o' -> rr (agree P) (calc_obj fl k o) (calc_obj fl k o').
Proof.
  intros B H. destruct k; simpl; try exact H.
  - unfold calc_atmos. do 5 by_get H. exact H.
  - unfold calc_wfs_obj. by_get H. eapply rr_bind; [apply assigned_rel, H|]. intros a b Hab. apply floated_rel; auto. apply B; discriminate.
  - unfold calc_lgs. eapply rr_bind with (R := agree P).
    + rewrite (H "naProfile") by (apply B; discriminate).
      assert (G : rr (agree P) (let* e := get o "elongationLayers" in let* n := as_int e in
          if n <? 0 then Err ValueError else assigned lgs_cls o "naProfile" (VList (repeat (num 1 1) (Z.to_nat n))))
        (let* e := get o' "elongationLayers" in let* n := as_int e in
          if n <? 0 then Err ValueError else assigned lgs_cls o' "naProfile" (VList (repeat (num 1 1) (Z.to_nat n))))).
      { by_get H. eapply rr_bind; [apply (rr_refl eq); reflexivity|]. intros a b <-. destruct (a <? 0); [exact I | apply assigned_rel, H]. }
      destruct (o' "naProfile") as [[]|]; try exact G; exact H.
    + intros a b Hab. by_get Hab. eapply rr_bind; [apply (rr_refl eq); reflexivity|]. intros n n' <-. by_get Hab.
      destruct (as_num _); [|exact I]. destruct (qc_ltb _ _); [exact I|].
      eapply rr_bind; [apply floated_rel; [exact Hab | apply B; discriminate]|]. intros u v Huv. apply floated_rel; auto. apply B; discriminate.
  - unfold calc_dm. eapply rr_bind; [apply floated_rel; [exact H | apply B; discriminate]|]. intros u v Huv. apply floated_rel; auto. apply B; discriminate.
  - unfold calc_sci_obj. by_get H. eapply rr_bind; [apply floated_rel; [exact H | apply B; discriminate]|]. intros u v Huv.
    do 3 by_get Huv.
    match goal with |- rr _ (match ?s with _ => _ end) _ => destruct s end; try apply fov_rel, Huv;
    match goal with |- rr _ (match ?s with _ => _ end) _ => destruct s end; try apply scale_rel, Huv; exact I.
Qed.

(** * Loading an object from a column and from a row *)
Definition agree_obj (P : string -> Prop) (o o' : obj) : Prop := o_kind o = o_kind o' /\ agree P (o_attr o) (o_attr o').
Lemma load_onto_rel fl N col row (P : string -> Prop) o o' : (forall p, P p \/ ~ P p) -> but_lgs P ->
  (forall p, P p -> cell N col row p) -> (forall p, ~ P p -> readable N col p) ->
  agree_obj P o o' -> rr (agree_obj P) (load_onto fl (Some N) col o) (load_onto fl None row o').
Proof.
  intros D B HC HN (K & H). unfold load_onto. rewrite <- K.
  eapply rr_bind.
  - apply load_required_rel with (P := P); [|exact HC | exact H].
    intros p Hp. apply B. intros ->. destruct (o_kind o); simpl in Hp; intuition discriminate.
  - intros a b Hab. eapply rr_bind; [apply load_optional_rel; eassumption|]. intros a' b' Hab'.
    eapply rr_bind; [apply calc_obj_rel; eassumption|]. intros u v Huv. split; [reflexivity | exact Huv].
Qed.
Definition all : string -> Prop := fun _ => True.
Lemma all_but : but_lgs all. Proof. intros p _. exact I. Qed.
Lemma all_dec p : all p \/ ~ all p. Proof. left; exact I. Qed.
Lemma agree_all o o' : agree_obj all o o' <-> same_obj o o'.
Proof. unfold agree_obj, same_obj, agree, all. intuition. Qed.
Lemma same_refl o : same_obj o o. Proof. split; auto. Qed.
Lemma load_row fl N col row o o' : (forall p, cell N col row p) -> same_obj o o' ->
  rr same_obj (load_onto fl (Some N) col o) (load_onto fl None row o').
Proof.
  intros HC H. eapply rr_mono; [intros x y; apply agree_all|]. apply load_onto_rel; auto using all_dec, all_but.
  - intros p N'. destruct N'. exact I.
  - apply agree_all, H.
Qed.
(** the same dictionary twice *)
Lemma load_required_same k N d P ps : forall o o', agree P o o' -> rr (agree P) (load_required k N d ps o) (load_required k N d ps o').
Proof.
  induction ps as [|p r IH]; intros o o' H; simpl; [exact H|]. destruct (d p) as [v|]; [|exact I].
  eapply rr_bind; [apply as_config_rel; eapply rr_bind; [apply (rr_refl eq); reflexivity|]; intros x y <-; apply assigned_rel, H|].
  intros a b Hab. apply IH, Hab.
Qed.
Lemma load_optional_same k N d P ps : forall o o', agree P o o' -> rr (agree P) (load_optional k N d ps o) (load_optional k N d ps o').
Proof.
  induction ps as [|[p df] r IH]; intros o o' H; simpl; [exact H|].
  destruct (d p) as [v|]; (eapply rr_bind; [|intros a b Hab; apply IH, Hab]).
  - apply as_config_rel; eapply rr_bind; [apply (rr_refl eq); reflexivity|]; intros x y <-; apply assigned_rel, H.
  - apply assigned_rel, H.
Qed.
Lemma load_onto_same fl N d o o' : same_obj o o' -> rr same_obj (load_onto fl N d o) (load_onto fl N d o').
Proof.
  intros (K & H). unfold load_onto. rewrite <- K.
  eapply rr_bind; [apply load_required_same with (P := all); intros q _; apply H|]. intros a b Hab.
  eapply rr_bind; [apply load_optional_same, Hab|]. intros a' b' Hab'.
  eapply rr_bind; [apply calc_obj_rel; [apply all_but | exact Hab']|]. intros u v Huv. split; [reflexivity | intros p; apply Huv; exact I].
Qed.

Lemma column_cell p col rows N row : column_of p col rows -> nth_error rows N = Some row -> cell N col row p.
Proof.
  intros [(A & B) | (l & A & L & B)] E; unfold cell; rewrite A.
  - apply B. eapply nth_error_In, E.
  - rewrite (B _ _ E). simpl. assert (N < length l)%nat by (rewrite L; apply nth_error_Some; congruence).
    destruct (nth_error l N) as [x|] eqn:F; [|apply nth_error_None in F; lia]. exists x. split; reflexivity.
Qed.
(** an entry beyond the list *)
Lemma column_short fl p col rows N o : column_of p col rows -> nth_error rows N = None -> In p (required (cls_of (o_kind o))) ->
  exists e, load_onto fl (Some N) col o = Err e.
Proof.
  intros C E Hp. unfold load_onto.
  assert (G : forall ps o', In p ps -> exists e, load_required (cls_of (o_kind o)) (Some N) col ps o' = Err e).
  { induction ps as [|q r IH]; intros o' Hq; [destruct Hq|]. simpl.
    destruct Hq as [-> | Hq].
    - destruct C as [(A & _) | (l & A & L & _)]; rewrite A; [eauto|]. simpl.
      replace (nth_error l N) with (@None val); [simpl; eauto|]. symmetry. apply nth_error_None. rewrite L. apply nth_error_None, E.
    - destruct (col q) as [v|]; [|eauto]. destruct (as_config _) as [a|e]; simpl; [apply IH, Hq | eauto]. }
  destruct (G _ (o_attr o) Hp) as (e & ->). simpl. eauto.
Qed.

(** * The loops over components *)
Lemma Forall2_upd {A B} (R : A -> B -> Prop) l l' : Forall2 R l l' -> forall i x y, R x y -> Forall2 R (upd l i x) (upd l' i y).
Proof. induction 1; intros [|i] u v H1; simpl; auto. Qed.
Lemma Forall2_nth {A B} (R : A -> B -> Prop) l l' i a b : Forall2 R l l' -> R a b -> R (nth i l a) (nth i l' b).
Proof. intros H; revert i. induction H; intros [|i] Hd; simpl; auto. Qed.
Lemma fill_rel {A B} (R : A -> B -> Prop) fresh fresh' ld ld' :
  rr R fresh fresh' -> (forall i x y, R x y -> rr R (ld i x) (ld' i y)) ->
  forall n i l l', Forall2 R l l' -> rr (Forall2 R) (fill fresh ld n i l) (fill fresh' ld' n i l').
Proof.
  intros F H. induction n as [|n IH]; intros i l l' HL; simpl; [exact HL|].
  eapply rr_bind; [exact F|]. intros f g Hfg.
  assert (HL2 : Forall2 R (l ++ [f]) (l' ++ [g])) by (apply Forall2_app; auto).
  eapply rr_bind; [apply H, Forall2_nth; assumption|]. intros x y Hxy. apply IH, Forall2_upd; auto.
Qed.
Lemma map_r_rel {A B C D} (R : A -> B -> Prop) (T : C -> D -> Prop) f g l l' :
  Forall2 R l l' -> (forall x y, R x y -> rr T (f x) (g y)) -> rr (Forall2 T) (map_r f l) (map_r g l').
Proof.
  intros H HF. induction H as [|x y l l' Hx Hl IH]; simpl; [constructor|].
  eapply rr_bind; [apply HF, Hx|]. intros a b Hab. eapply rr_bind; [apply IH|]. intros u v Huv. simpl. constructor; auto.
Qed.

(** * calcParams of the configurator *)
Lemma get_same o o' p : same_obj o o' -> get (o_attr o) p = get (o_attr o') p.
Proof. intros (_ & H). unfold get. rewrite H. reflexivity. Qed.
Lemma assigned_same o o' p v : same_obj o o' ->
  rr same_obj (let* a := assigned (cls_of (o_kind o)) (o_attr o) p v in Ok (mkObj (o_kind o) a))
              (let* a := assigned (cls_of (o_kind o')) (o_attr o') p v in Ok (mkObj (o_kind o') a)).
Proof.
  intros (K & H). rewrite <- K. eapply rr_bind; [apply assigned_rel with (P := all); intros q _; apply H|].
  intros a b Hab. split; [reflexivity | intros q; apply Hab; exact I].
Qed.
Lemma recalc_same fl o o' : same_obj o o' -> rr same_obj (recalc fl o) (recalc fl o').
Proof.
  intros (K & H). unfold recalc. rewrite <- K. eapply rr_bind; [apply calc_obj_rel with (P := all); [apply all_but | intros q _; apply H]|].
  intros a b Hab. split; [reflexivity | intros q; apply Hab; exact I].
Qed.
Lemma bind_assoc {A B C} (r : result A) (f : A -> result B) (g : B -> result C) : bind (bind r f) g = bind r (fun x => bind (f x) g).
Proof. destruct r; reflexivity. Qed.
Lemma set_exposure_same s s' w w' : same_obj s s' -> same_wfs w w' -> rr same_wfs (set_exposure s w) (set_exposure s' w').
Proof.
  intros Hs (Ho & Hl). unfold set_exposure. rewrite (get_same _ _ "exposureTime" Ho). destruct (get _ _) as [e|e]; simpl; [|exact I].
  destruct (truthy e); [split; assumption|]. rewrite (get_same _ _ "loopTime" Hs). destruct (get (o_attr s') _) as [t|]; simpl; [|exact I].
  pose proof (assigned_same _ _ "exposureTime" t Ho) as Q.
  destruct (assigned (cls_of (o_kind (w_obj w))) _ _ _), (assigned (cls_of (o_kind (w_obj w'))) _ _ _); simpl in *; auto. split; assumption.
Qed.
Lemma set_stop_same w w' : same_wfs w w' -> rr same_wfs (set_stop w) (set_stop w').
Proof.
  intros (Ho & Hl). unfold set_stop. rewrite (get_same _ _ "nxSubaps" Ho). destruct (get _ _) as [e|e]; simpl; [|exact I].
  destruct (is_one e); [|split; assumption]. rewrite (get_same _ _ "subapFieldStop" Ho). destruct (get _ _) as [t|]; simpl; [|exact I].
  destruct (is_zero t); [|split; assumption].
  pose proof (assigned_same _ _ "subapFieldStop" (VBool true) Ho) as Q.
  destruct (assigned (cls_of (o_kind (w_obj w))) _ _ _), (assigned (cls_of (o_kind (w_obj w'))) _ _ _); simpl in *; auto. split; assumption.
Qed.
Lemma set_L0_same a a' : same_obj a a' -> rr same_obj (set_L0 a) (set_L0 a').
Proof.
  intros H. unfold set_L0, count. rewrite (get_same _ _ "L0" H). destruct (get _ _) as [v|]; simpl; [|exact I].
  destruct v; try exact H. rewrite (get_same _ _ "scrnNo" H). destruct (get _ _) as [t|]; simpl; [|exact I].
  destruct (as_count t); simpl; [|exact I]. apply assigned_same, H.
Qed.
Lemma set_diameter_same t t' d d' : same_obj t t' -> same_obj d d' -> rr same_obj (set_diameter t d) (set_diameter t' d').
Proof.
  intros Ht H. unfold set_diameter. rewrite (get_same _ _ "diameter" H). destruct (get _ _) as [v|]; simpl; [|exact I].
  destruct v; try exact H. rewrite (get_same _ _ "telDiam" Ht). destruct (get _ _) as [u|]; simpl; [|exact I]. apply assigned_same, H.
Qed.
Lemma calc_config_same fl c c' : same_config c c' -> rr same_config (calc_config fl c) (calc_config fl c').
Proof.
  intros (H1 & H2 & H3 & H4 & H5 & H6 & H7). unfold calc_config.
  eapply rr_bind; [apply recalc_same, H1|]. intros s s' Hs.
  eapply rr_bind; [apply recalc_same, H2|]. intros a a' Ha.
  eapply rr_bind; [apply recalc_same, H3|]. intros t t' Ht.
  eapply rr_bind; [apply map_r_rel with (R := same_wfs) (T := same_wfs); [exact H5|]|].
  { intros x y (Ho & Hl). eapply rr_bind; [apply recalc_same, Ho|]. intros u v Huv. split; assumption. }
  intros ws ws' Hws.
  eapply rr_bind; [apply map_r_rel with (R := same_obj) (T := same_obj); [exact H6 | apply recalc_same]|]. intros ds ds' Hds.
  eapply rr_bind; [apply map_r_rel with (R := same_obj) (T := same_obj); [exact H7 | apply recalc_same]|]. intros ss ss' Hss.
  eapply rr_bind; [apply map_r_rel with (R := same_wfs) (T := same_wfs); [exact Hws | intros; apply set_exposure_same; assumption]|]. intros ws2 ws2' Hws2.
  eapply rr_bind; [apply set_L0_same, Ha|]. intros a2 a2' Ha2.
  eapply rr_bind; [apply map_r_rel with (R := same_wfs) (T := same_wfs); [exact Hws2 | apply set_stop_same]|]. intros ws3 ws3' Hws3.
  eapply rr_bind; [apply map_r_rel with (R := same_obj) (T := same_obj); [exact Hds | intros; apply set_diameter_same; assumption]|]. intros ds2 ds2' Hds2.
  repeat split; try apply Hs; try apply Ha2; try apply Ht; try apply H4; assumption.
Qed.

(** * The two kinds of file *)
Lemma each_rel fl p y g (k : kind) req : In req (required (cls_of k)) ->
  match p g, y with Some c, Some rows => transposed c rows | None, None => True | _, _ => False end ->
  forall i o o', o_kind o = k -> same_obj o o' -> rr same_obj (py_each fl p g i o) (y_each fl y i o').
Proof.
  intros Hr HT i o o' Hk H. unfold py_each, y_each, group, list_group. destruct (p g) as [col|], y as [rows|]; simpl; try contradiction; auto.
  destruct (nth_error rows i) as [row|] eqn:E; simpl.
  - apply load_row; [intros q; eapply column_cell; [apply HT | exact E] | exact H].
  - destruct (column_short fl req col rows i o (HT req) E) as (e & ->); [rewrite Hk; exact Hr | exact I].
Qed.
(** a list of objects of one class *)
Definition same_kind (k : kind) (o o' : obj) : Prop := o_kind o = k /\ same_obj o o'.
Lemma load_kind fl N d o o' : load_onto fl N d o = Ok o' -> o_kind o' = o_kind o.
Proof.
  unfold load_onto. intros H. repeat (apply bind_ok in H as (? & _ & H)). injection H as <-. reflexivity.
Qed.
Lemma each_kind fl p g i o o' : py_each fl p g i o = Ok o' -> o_kind o' = o_kind o.
Proof. unfold py_each. intros H. apply bind_ok in H as (d & _ & H). eapply load_kind, H. Qed.
Lemma Forall2_kind k l l' : Forall2 (same_kind k) l l' -> Forall2 same_obj l l'.
Proof. induction 1 as [|? ? ? ? (? & ?)]; constructor; auto. Qed.
Lemma components_rel fl p y g k req name : In req (required (cls_of k)) ->
  match p g, y with Some c, Some rows => transposed c rows | None, None => True | _, _ => False end ->
  find_class module_env name = Ok k ->
  forall n, rr (Forall2 same_obj) (fill (new (find_class module_env) name) (py_each fl p g) n 0 [])
                                  (fill (new (find_class module_env) name) (y_each fl y) n 0 []).
Proof.
  intros Hr HT Hn n. eapply rr_mono; [intros x y'; apply Forall2_kind|]. apply fill_rel with (R := same_kind k).
  - unfold new. rewrite Hn. simpl. split; [reflexivity | apply same_refl].
  - intros i x x' (Hk & H). pose proof (each_rel fl p y g k req Hr HT i x x' Hk H) as Q.
    destruct (py_each fl p g i x) as [u|] eqn:E; destruct (y_each fl y i x'); simpl in *; auto.
    split; [rewrite (each_kind _ _ _ _ _ _ E); exact Hk | exact Q].
  - constructor.
Qed.

Lemma put_same P o o' v : agree_obj P o o' -> (forall p, p <> "lgs" -> P p) -> same_obj (put_obj o "lgs" v) (put_obj o' "lgs" v).
Proof.
  intros (K & H) B. split; [exact K|]. intros p. simpl. unfold put. destruct (String.eqb p "lgs") eqn:E; [reflexivity|].
  apply H, B. apply String.eqb_neq, E.
Qed.
Definition same_sensor (w w' : wobj) : Prop := o_kind (w_obj w) = KWfs /\ same_wfs w w'.
Lemma flag_value flags (col : pdict) i b :
  (col "lgs" = Some (VList (map VBool flags)) \/ (col "lgs" = None /\ forall b, In b flags -> b = false)) -> nth_error flags i = Some b ->
  readable i col "lgs" /\ match col "lgs" with Some v => subscript v i = Ok (VBool b) | None => b = false end.
Proof.
  intros [E | (E & F)] H; unfold readable; rewrite E.
  - simpl. rewrite nth_error_map, H. simpl. split; eauto.
  - split; [exact I | apply F; eapply nth_error_In, H].
Qed.
(** the value of "lgs" after loading a column *)
Lemma load_required_other k N d p : forall ps o o', ~ In p ps -> load_required k N d ps o = Ok o' -> o' p = o p.
Proof.
  induction ps as [|q r IH]; intros o o' Hp H; simpl in H; [injection H as <-; reflexivity|].
  destruct (d q) as [v|]; [|discriminate]. apply bind_ok in H as (a & Ha & H). rewrite (IH a o'); auto; [|intros Hr; apply Hp; right; exact Hr].
  destruct (entry N v) as [x|]; simpl in Ha; [|discriminate]. unfold assigned, set_attr in Ha. destruct (existsb _ _); simpl in Ha; [|discriminate].
  injection Ha as <-. destruct (String.eqb p q) eqn:E; [|reflexivity]. apply String.eqb_eq in E. subst. exfalso. apply Hp. left; reflexivity.
Qed.
Lemma load_optional_other k N d p : forall ps o o', ~ In p (map fst ps) -> load_optional k N d ps o = Ok o' -> o' p = o p.
Proof.
  induction ps as [|[q df] r IH]; intros o o' Hp H; simpl in H; [injection H as <-; reflexivity|].
  assert (G : forall a x, (assigned k o q x = Ok a \/ as_config (assigned k o q x) = Ok a) -> a p = o p).
  { intros a x Ha. unfold assigned, set_attr in Ha. destruct (existsb _ _); simpl in Ha; [|destruct Ha; discriminate].
    assert (Ea : a = (fun n => if String.eqb n q then Some x else o n)) by (destruct Ha as [Ha|Ha]; injection Ha as <-; reflexivity).
    rewrite Ea. destruct (String.eqb p q) eqn:E; [|reflexivity]. apply String.eqb_eq in E. subst. exfalso. apply Hp. left; reflexivity. }
  assert (Hr : ~ In p (map fst r)) by (intros Hr; apply Hp; right; exact Hr).
  destruct (d q) as [v|]; apply bind_ok in H as (a & Ha & H); rewrite (IH a o' Hr H).
  - destruct (entry N v) as [x|]; simpl in Ha; [|discriminate]. eapply G. right. exact Ha.
  - eapply G. left. exact Ha.
Qed.
Lemma load_optional_at k N d p df : forall ps o o', In (p, df) ps -> NoDup (map fst ps) \/ True -> load_optional k N d ps o = Ok o' ->
  (forall df', In (p, df') ps -> df' = df) ->
  exists x, o' p = Some x /\ match d p with Some v => entry N v = Ok x | None => x = df end.
Proof.
  induction ps as [|[q df'] r IH]; intros o o' Hp HN H U; [destruct Hp|]. simpl in H.
  assert (G : exists a, load_optional k N d r a = Ok o' /\
    (q = p -> exists x, a p = Some x /\ match d p with Some v => entry N v = Ok x | None => x = df end)).
  { destruct (d q) as [v|] eqn:Ed; apply bind_ok in H as (a & Ha & H); exists a; (split; [exact H|]); intros ->.
    - destruct (entry N v) as [x|] eqn:Ex; simpl in Ha; [|discriminate]. unfold assigned, set_attr in Ha.
      destruct (existsb _ _); simpl in Ha; [|discriminate]. injection Ha as <-. exists x. rewrite String.eqb_refl. rewrite Ed. auto.
    - unfold assigned, set_attr in Ha. destruct (existsb _ _); simpl in Ha; [|discriminate]. injection Ha as <-.
      exists df'. rewrite String.eqb_refl, Ed. split; [reflexivity|]. apply U. left; reflexivity. }
  destruct G as (a & Ha & G).
  destruct (in_dec string_dec p (map fst r)) as [I0 | N0].
  - apply in_map_iff in I0 as ([p' d'] & E & I0). simpl in E. subst p'.
    assert (d' = df) by (apply U; right; exact I0). subst d'. eapply IH; eauto. intros df2 H2. apply U. right; exact H2.
  - destruct Hp as [E | Hp]; [|exfalso; apply N0, in_map_iff; exists (p, df); auto].
    injection E as -> ->. destruct (G eq_refl) as (x & Ex & Dx). exists x. rewrite (load_optional_other _ _ _ _ _ _ _ N0 Ha). auto.
Qed.
Lemma calc_wfs_lgs fl o o' : calc_wfs_obj fl o = Ok o' -> o' "lgs" = o "lgs".
Proof.
  unfold calc_wfs_obj, floated. intros H. apply bind_ok in H as (g & _ & H). apply bind_ok in H as (o1 & H1 & H).
  apply bind_ok in H as (v & _ & H). apply bind_ok in H as (x & _ & H).
  assert (G : forall a b p w, assigned wfs_cls a p w = Ok b -> p <> "lgs" -> b "lgs" = a "lgs").
  { intros a b p w E N. unfold assigned, set_attr in E. destruct (existsb _ _); simpl in E; [|discriminate]. injection E as <-.
    destruct (String.eqb "lgs" p) eqn:Q; [apply String.eqb_eq in Q; congruence | reflexivity]. }
  rewrite (G _ _ _ _ H) by discriminate. apply (G _ _ _ _ H1). discriminate.
Qed.
Lemma load_lgs_flag fl N d o o' : o_kind o = KWfs -> load_onto fl N d o = Ok o' ->
  exists x, o_attr o' "lgs" = Some x /\ match d "lgs" with Some v => entry N v = Ok x | None => x = VNone end.
Proof.
  intros K H. unfold load_onto in H. rewrite K in H. apply bind_ok in H as (a & Ha & H). apply bind_ok in H as (b & Hb & H).
  apply bind_ok in H as (c & Hc & H). injection H as <-. simpl o_attr. simpl calc_obj in Hc. rewrite (calc_wfs_lgs _ _ _ Hc).
  eapply load_optional_at with (df := VNone) (3 := Hb); auto.
  - simpl. tauto.
  - simpl. intros df' I0. repeat (destruct I0 as [E | I0]; [try discriminate E; injection E as <-; reflexivity|]). destruct I0.
Qed.
Lemma sensors_rel fl p y : match p "WFS", p "LGS", y_wfs y with
           | Some c, Some l, Some rows => same_sensors fl c l rows | None, None, None => True | _, _, _ => False end ->
  forall n i l l', Forall2 same_sensor l l' ->
    rr (Forall2 same_sensor) (py_wfss fl (find_class module_env) p n i l)
       (fill (let* o := new (find_class module_env) "WfsConfig" in Ok (mkW o None)) (y_wfs_load fl (find_class module_env) y) n i l').
Proof.
  intros HS. induction n as [|n IH]; intros i l l' HL; [exact HL|].
  cbn [py_wfss fill]. change (find_class module_env "LgsConfig") with (@Ok kind KLgs). change (find_class module_env "WfsConfig") with (@Ok kind KWfs).
  change (new (find_class module_env) "WfsConfig") with (Ok (blank KWfs)). cbn [bind].
  unfold group at 1. unfold y_wfs_load at 1, py_wfs at 1, group at 1, list_group at 1.
  destruct (p "WFS") as [col|], (p "LGS") as [lcol|], (y_wfs y) as [rows|]; cbn [bind]; try contradiction; [|exact I].
  destruct HS as (flags & lrows & L1 & L2 & HC & HF & HT & HR).
  set (W := nth i (l ++ [mkW (blank KWfs) None]) (mkW (blank KWfs) None)).
  set (W' := nth i (l' ++ [mkW (blank KWfs) None]) (mkW (blank KWfs) None)).
  assert (S0 : same_sensor (mkW (blank KWfs) None) (mkW (blank KWfs) None)) by (repeat split).
  assert (HL2 : Forall2 same_sensor (l ++ [mkW (blank KWfs) None]) (l' ++ [mkW (blank KWfs) None])) by (apply Forall2_app; auto).
  assert (HW : same_sensor W W') by (apply Forall2_nth; assumption).
  destruct HW as (KW & HO & _).
  destruct (nth_error rows i) as [row|] eqn:E.
  2:{ cbn [bind]. destruct (load_onto fl (Some i) lcol (blank KLgs)) as [lg|]; cbn [bind]; [|exact I]. cbn [w_obj].
      assert (E' : nth_error (map r_par rows) i = None) by (rewrite nth_error_map, E; reflexivity).
      destruct (column_short fl "GSPosition" col _ i (w_obj W) (HC "GSPosition" ltac:(discriminate)) E') as (e & Ee);
        [rewrite KW; simpl; tauto|]. unfold py_wfs, group. cbn [bind w_obj]. fold W. rewrite Ee. exact I. }
  assert (Hi : (i < length rows)%nat) by (apply nth_error_Some; congruence).
  destruct (nth_error flags i) as [b|] eqn:Eb; [|apply nth_error_None in Eb; lia].
  destruct (nth_error lrows i) as [lr|] eqn:El; [|apply nth_error_None in El; lia].
  destruct (flag_value flags col i b HF Eb) as (Hread & Hflag).
  assert (QL : rr same_obj (load_onto fl (Some i) lcol (blank KLgs)) (load_onto fl None lr (blank KLgs))).
  { apply load_row; [intros q; eapply column_cell; [apply HT | exact El] | apply same_refl]. }
  assert (QW : rr (agree_obj (fun q => q <> "lgs")) (load_onto fl (Some i) col (w_obj W)) (load_onto fl None (without (r_par row) "lgs") (w_obj W'))).
  { apply load_onto_rel.
    - intros q. destruct (string_dec q "lgs"); [right | left]; auto.
    - intros q H; exact H.
    - intros q Hq. assert (E' : nth_error (map r_par rows) i = Some (r_par row)) by (rewrite nth_error_map, E; reflexivity).
      pose proof (column_cell q col _ i _ (HC q Hq) E') as C. unfold cell in *. unfold without.
      apply String.eqb_neq in Hq. rewrite Hq. exact C.
    - intros q Hq. assert (q = "lgs") by (destruct (string_dec q "lgs"); [assumption | contradiction]). subst. exact Hread.
    - destruct HO as (K & HA). split; [exact K | intros q _; apply HA]. }
  specialize (HR i row b lr E Eb El).
  destruct (load_onto fl (Some i) lcol (blank KLgs)) as [lg|] eqn:EL; destruct (load_onto fl None lr (blank KLgs)) as [lg'|] eqn:EL'; simpl in QL; try contradiction; cbn [bind].
  - unfold py_wfs, group. cbn [bind w_obj w_lgs].
    destruct (load_onto fl (Some i) col (w_obj W)) as [o|] eqn:EW; destruct (load_onto fl None (without (r_par row) "lgs") (w_obj W')) as [o'|] eqn:EW'; simpl in QW; try contradiction; cbn [bind]; [|exact I].
    destruct (load_lgs_flag _ _ _ _ _ KW EW) as (x & Ex & Dx). unfold get. rewrite Ex. cbn [bind].
    assert (Hx : truthy x = b).
    { destruct (col "lgs") as [v|]; [simpl in Dx; rewrite Hflag in Dx; injection Dx as <-; reflexivity | subst; reflexivity]. }
    rewrite Hx. assert (Ko : o_kind o = KWfs) by (rewrite (load_kind _ _ _ _ _ EW); exact KW).
    destruct b.
    + rewrite HR. change (new (find_class module_env) "LgsConfig") with (Ok (blank KLgs)). cbn [bind]. rewrite EL'. cbn [bind]. apply IH, Forall2_upd; [exact HL2|].
      split; [exact Ko|]. split; [apply put_same with (P := fun q => q <> "lgs"); auto | exact QL].
    + destruct HR as (HR & _). rewrite HR. cbn [bind]. apply IH, Forall2_upd; [exact HL2|].
      split; [exact Ko|]. split; [apply put_same with (P := fun q => q <> "lgs"); auto | exact I].
  - destruct b.
    + rewrite HR. destruct (load_onto fl None (without (r_par row) "lgs") (w_obj W')) as [o'|]; cbn [bind]; [|exact I].
      change (new (find_class module_env) "LgsConfig") with (Ok (blank KLgs)). cbn [bind]. rewrite EL'. exact I.
    + destruct HR as (_ & o & Ho). discriminate Ho.
Qed.
Lemma same_sensor_wfs l l' : Forall2 same_sensor l l' -> Forall2 same_wfs l l'.
Proof. induction 1 as [|? ? ? ? (? & ?)]; constructor; auto. Qed.
Lemma count_same o o' p : same_obj o o' -> count o p = count o' p.
Proof. intros H. unfold count. rewrite (get_same _ _ _ H). reflexivity. Qed.
Theorem same_configuration fl p y : same_file fl p y -> same_outcome (from_python fl p) (from_yaml fl y).
Proof.
  intros [H1 H2 H3 H4 H5]. unfold same_outcome. change (rr same_config (from_python fl p) (from_yaml fl y)).
  unfold from_python, from_yaml, load_py, load_yaml, group at 1. rewrite H1. cbn [bind].
  eapply rr_bind; [apply (rr_refl eq); reflexivity|]. intros sim ? <-.
  unfold group at 1, ygroup at 1. rewrite (H2 "Atmosphere") by (simpl; tauto). destruct (y_group y "Atmosphere") as [d|]; cbn [bind]; [|exact I].
  eapply rr_bind; [apply (rr_refl eq); reflexivity|]. intros atm ? <-.
  unfold group at 1, ygroup at 1. rewrite (H2 "Telescope") by (simpl; tauto). destruct (y_group y "Telescope") as [d'|]; cbn [bind]; [|exact I].
  eapply rr_bind; [apply (rr_refl eq); reflexivity|]. intros tel ? <-.
  eapply rr_bind; [apply (rr_refl eq); reflexivity|]. intros n ? <-.
  eapply rr_bind; [apply sensors_rel; [exact H3 | constructor]|]. intros ws ws' Hws.
  eapply rr_bind; [apply (rr_refl eq); reflexivity|]. intros n2 ? <-.
  eapply rr_bind; [apply components_rel with (k := KDm) (req := "type"); [simpl; tauto | exact H4 | reflexivity]|]. intros ds ds' Hds.
  unfold group at 1, ygroup at 1. rewrite (H2 "Reconstructor") by (simpl; tauto). destruct (y_group y "Reconstructor") as [d2|]; cbn [bind]; [|exact I].
  eapply rr_bind; [apply (rr_refl eq); reflexivity|]. intros rec ? <-.
  eapply rr_bind; [apply (rr_refl eq); reflexivity|]. intros n3 ? <-.
  eapply rr_bind; [apply components_rel with (k := KSci) (req := "position"); [simpl; tauto | exact H5 | reflexivity]|]. intros ss ss' Hss.
  apply calc_config_same. repeat split; auto. apply same_sensor_wfs, Hws.
Qed.

From Coq Require Import String Ascii.
From Verif.Base Require Import Vec PyFacts.
From Verif.Proofs Require Import ConfigProofs.
From Verif.Model Require Import Config ConfigFile.
From Verif.Spec Require Import ConfigSpec ConfigFileSpec.
From Verif.Proofs Require Import ConfigFileProofs ConfigFileMore.
Open Scope string_scope.
Open Scope list_scope.
Open Scope Z_scope.

(** * Numbers of components *)
Lemma number_of sim c fl p n : recalc fl sim = Ok c -> o_kind sim = KSim -> count sim p = Ok n -> number_is c p n.
Proof.
  intros R K C. unfold recalc in R. rewrite K in R. simpl in R. injection R as <-. unfold count, get in C.
  destruct (o_attr sim p) as [v|] eqn:E; [|discriminate]. exists v. simpl. auto.
Qed.
Lemma python_counts fl p c : from_python fl p = Ok c ->
  number_is (c_sim c) "nGS" (length (c_wfss c)) /\ number_is (c_sim c) "nDM" (length (c_dms c)) /\ number_is (c_sim c) "nSci" (length (c_scis c)).
Proof.
  intros H. apply load_py_steps in H as s. destruct (c_lengths _ _ _ _ s) as (L1 & L2 & L3). rewrite L1, L2, L3.
  destruct (calc_config_ok _ _ _ (ps_15 _ _ _ _ _ s)) as (_ & _ & _ & R & _). simpl in R.
  pose proof (load_kind _ _ _ _ _ (ps_2 _ _ _ _ _ s)) as K.
  repeat split; (eapply number_of; [exact R | exact K|]); [apply (ps_7 _ _ _ _ _ s) | apply (ps_9 _ _ _ _ _ s) | apply (ps_13 _ _ _ _ _ s)].
Qed.
Lemma yaml_counts fl y c : from_yaml fl y = Ok c ->
  number_is (c_sim c) "nGS" (length (c_wfss c)) /\ number_is (c_sim c) "nDM" (length (c_dms c)) /\ number_is (c_sim c) "nSci" (length (c_scis c)).
Proof.
  intros H. apply load_yaml_steps in H as s. destruct (y_lengths _ _ _ _ s) as (L1 & L2 & L3). rewrite L1, L2, L3.
  destruct (calc_config_ok _ _ _ (ys_15 _ _ _ _ _ s)) as (_ & _ & _ & R & _). simpl in R.
  pose proof (load_kind _ _ _ _ _ (ys_2 _ _ _ _ _ s)) as K.
  repeat split; (eapply number_of; [exact R | exact K|]); [apply (ys_7 _ _ _ _ _ s) | apply (ys_9 _ _ _ _ _ s) | apply (ys_13 _ _ _ _ _ s)].
Qed.

(** * Entries beyond the number of components *)
Definition eq_at (i : nat) (d d' : pdict) : Prop :=
  forall p, match d p, d' p with Some v, Some v' => subscript v i = subscript v' i | None, None => True | _, _ => False end.
Lemma load_eq_at fl i d d' o : eq_at i d d' -> load_onto fl (Some i) d o = load_onto fl (Some i) d' o.
Proof.
  intros H. unfold load_onto.
  assert (R : forall ps a, load_required (cls_of (o_kind o)) (Some i) d ps a = load_required (cls_of (o_kind o)) (Some i) d' ps a).
  { induction ps as [|p r IH]; intros a; simpl; [reflexivity|]. specialize (H p). destruct (d p), (d' p); try contradiction; [|reflexivity].
    rewrite H. destruct (as_config _); simpl; [apply IH | reflexivity]. }
  assert (O : forall ps a, load_optional (cls_of (o_kind o)) (Some i) d ps a = load_optional (cls_of (o_kind o)) (Some i) d' ps a).
  { induction ps as [|[p df] r IH]; intros a; simpl; [reflexivity|]. specialize (H p). destruct (d p), (d' p); try contradiction.
    - rewrite H. destruct (as_config _); simpl; [apply IH | reflexivity].
    - destruct (assigned _ _ _ _); simpl; [apply IH | reflexivity]. }
  rewrite R. destruct (load_required _ _ _ _ _); simpl; [|reflexivity]. rewrite O. reflexivity.
Qed.
Lemma agree_at n i a b d d' : agree_upto n a b -> a = Some d -> b = Some d' -> (i < n)%nat -> eq_at i d d'.
Proof. intros H -> -> Hi p. simpl in H. specialize (H p). destruct (d p), (d' p); auto. Qed.
Lemma each_upto fl p p' g n i o : agree_upto n (p g) (p' g) -> (i < n)%nat -> py_each fl p g i o = py_each fl p' g i o.
Proof.
  intros H Hi. unfold py_each, group. destruct (p g) as [d|] eqn:E, (p' g) as [d'|] eqn:E'; simpl in *; try contradiction; [|reflexivity].
  apply load_eq_at, (agree_at n i (Some d) (Some d') d d' H eq_refl eq_refl Hi).
Qed.
Lemma wfss_upto fl cl p p' n : agree_upto n (p "WFS") (p' "WFS") -> agree_upto n (p "LGS") (p' "LGS") ->
  forall m i l, (i + m <= n)%nat -> py_wfss fl cl p m i l = py_wfss fl cl p' m i l.
Proof.
  intros HW HL. induction m as [|m IH]; intros i l Hm; simpl; [reflexivity|].
  destruct (cl "LgsConfig"); simpl; [|reflexivity].
  unfold group. destruct (p "LGS") as [d|] eqn:E, (p' "LGS") as [d'|] eqn:E'; cbn [bind]; try contradiction; [|reflexivity].
  rewrite (load_eq_at fl i d d' _ (agree_at n i _ _ d d' HL eq_refl eq_refl ltac:(lia))).
  destruct (load_onto fl (Some i) d' _); cbn [bind]; [|reflexivity]. destruct (cl "WfsConfig"); cbn [bind]; [|reflexivity].
  unfold py_wfs, group. destruct (p "WFS") as [w|] eqn:F, (p' "WFS") as [w'|] eqn:F'; cbn [bind]; try contradiction; [|reflexivity].
  rewrite (load_eq_at fl i w w' _ (agree_at n i _ _ w w' HW eq_refl eq_refl ltac:(lia))).
  destruct (load_onto fl (Some i) w' _); cbn [bind]; [|reflexivity]. destruct (get _ _); cbn [bind]; [|reflexivity]. apply IH. lia.
Qed.
Lemma python_extras fl p p' c : from_python fl p = Ok c ->
  (forall g, In g ["Sim"; "Atmosphere"; "Telescope"; "Reconstructor"] -> p g = p' g) ->
  agree_upto (length (c_wfss c)) (p "WFS") (p' "WFS") -> agree_upto (length (c_wfss c)) (p "LGS") (p' "LGS") ->
  agree_upto (length (c_dms c)) (p "DM") (p' "DM") -> agree_upto (length (c_scis c)) (p "Science") (p' "Science") ->
  from_python fl p' = Ok c.
Proof.
  intros H HG HW HL HD HS. apply load_py_steps in H as s. destruct (c_lengths _ _ _ _ s) as (L1 & L2 & L3).
  destruct s as [sim atm tel rec ws ds ss n1 n2 n3 g1 g2 g3 g4 H1 H2 H3 H4 H5 H6 H7 H8 H9 H10 H11 H12 H13 H14 H15]. cbn [ps_n1 ps_n2 ps_n3] in *.
  rewrite L1 in HW, HL. rewrite L2 in HD. rewrite L3 in HS.
  assert (GG : forall g, In g ["Sim"; "Atmosphere"; "Telescope"; "Reconstructor"] -> group p' g = group p g).
  { intros g Hg. unfold group. rewrite (HG g Hg). reflexivity. }
  unfold from_python, load_py.
  rewrite (GG "Sim"), (GG "Atmosphere"), (GG "Telescope"), (GG "Reconstructor") by (simpl; tauto).
  do 7 use. rewrite <- (wfss_upto fl _ p p' n1 HW HL) by lia. do 2 use.
  rewrite (fill_ext _ (py_each fl p' "DM") (py_each fl p "DM")) by (intros; symmetry; eapply each_upto; [exact HD | lia]). do 4 use.
  rewrite (fill_ext _ (py_each fl p' "Science") (py_each fl p "Science")) by (intros; symmetry; eapply each_upto; [exact HS | lia]). use. exact H15.
Qed.
Lemma firstn_nth {A} n (l l' : list A) i : firstn n l = firstn n l' -> (i < n)%nat -> nth_error l i = nth_error l' i.
Proof.
  revert l l' i. induction n as [|n IH]; intros l l' i H Hi; [lia|]. destruct l, l'; simpl in H; try discriminate; [reflexivity|].
  injection H as -> H. destruct i; [reflexivity|]. simpl. apply IH; [exact H | lia].
Qed.
Lemma rows_list {A} n (a b : option (list A)) i : rows_upto n a b -> (i < n)%nat -> list_group a i = list_group b i.
Proof. destruct a, b; simpl; try contradiction; auto. intros H Hi. rewrite (firstn_nth n _ _ i H Hi). reflexivity. Qed.
Lemma yaml_extras fl y y' c : from_yaml fl y = Ok c -> y_top y = y_top y' -> y_sim y = y_sim y' -> (forall g, y_group y g = y_group y' g) ->
  rows_upto (length (c_wfss c)) (y_wfs y) (y_wfs y') -> rows_upto (length (c_dms c)) (y_dm y) (y_dm y') ->
  rows_upto (length (c_scis c)) (y_sci y) (y_sci y') -> from_yaml fl y' = Ok c.
Proof.
  intros H HT HS0 HG HW HD HS. apply load_yaml_steps in H as s. destruct (y_lengths _ _ _ _ s) as (L1 & L2 & L3).
  destruct s as [sim atm tel rec ws ds ss n1 n2 n3 g2 g3 g4 H2 H3 H4 H5 H6 H7 H8 H9 H10 H11 H12 H13 H14 H15]. cbn [ys_n1 ys_n2 ys_n3] in *.
  rewrite L1 in HW. rewrite L2 in HD. rewrite L3 in HS.
  assert (GG : forall g, ygroup y' g = ygroup y g) by (intros g; unfold ygroup; rewrite HG; reflexivity).
  unfold from_yaml, load_yaml. rewrite <- HT, <- HS0, !GG. do 6 use.
  rewrite (fill_ext _ (y_wfs_load fl (find_class module_env) y') (y_wfs_load fl (find_class module_env) y))
    by (intros j x Hj; unfold y_wfs_load; rewrite (rows_list _ _ _ j HW ltac:(lia)); reflexivity). do 2 use.
  rewrite (fill_ext _ (y_each fl (y_dm y')) (y_each fl (y_dm y)))
    by (intros j x Hj; unfold y_each; rewrite (rows_list _ _ _ j HD ltac:(lia)); reflexivity). do 4 use.
  rewrite (fill_ext _ (y_each fl (y_sci y')) (y_each fl (y_sci y)))
    by (intros j x Hj; unfold y_each; rewrite (rows_list _ _ _ j HS ltac:(lia)); reflexivity). use. exact H15.
Qed.

(** * Too few entries *)
Lemma load_required_has k N d : forall ps o o', load_required k N d ps o = Ok o' -> forall p, In p ps -> exists v x, d p = Some v /\ entry N v = Ok x.
Proof.
  induction ps as [|q r IH]; intros o o' H p Hp; [destruct Hp|]. simpl in H. destruct (d q) as [v|] eqn:E; [|discriminate].
  apply bind_ok in H as (a & Ha & H). destruct Hp as [-> | Hp]; [|eapply IH; eauto].
  destruct (entry N v) as [x|] eqn:Ex; [eauto | discriminate].
Qed.
Lemma load_optional_has k N d : forall ps o o', load_optional k N d ps o = Ok o' -> forall p v, In p (map fst ps) -> d p = Some v -> exists x, entry N v = Ok x.
Proof.
  induction ps as [|[q df] r IH]; intros o o' H p v Hp Ev; [destruct Hp|]. simpl in H. destruct Hp as [Eq | Hp].
  - simpl in Eq. subst q. rewrite Ev in H. apply bind_ok in H as (a & Ha & H). destruct (entry N v) as [x|] eqn:Ex; [eauto | discriminate].
  - destruct (d q); apply bind_ok in H as (a & Ha & H); eapply IH; eauto.
Qed.
Lemma load_has fl i d o o' p v : load_onto fl (Some i) d o = Ok o' ->
  In p (required (cls_of (o_kind o)) ++ map fst (optional (cls_of (o_kind o)))) -> d p = Some v -> exists x, subscript v i = Ok x.
Proof.
  intros H Hp Ev. unfold load_onto in H. apply bind_ok in H as (a & Ha & H). apply bind_ok in H as (b & Hb & H). apply in_app_iff in Hp as [Hp|Hp].
  - destruct (load_required_has _ _ _ _ _ _ Ha p Hp) as (v' & x & E & Ex). rewrite Ev in E. injection E as <-. eauto.
  - eapply (load_optional_has _ _ _ _ _ _ Hb p v Hp Ev).
Qed.
Lemma fill_each {A} fresh (ld : nat -> A -> result A) (P : A -> Prop) : (forall f, fresh = Ok f -> P f) -> (forall i x y, P x -> ld i x = Ok y -> P y) ->
  forall n i l l', Forall P l -> fill fresh ld n i l = Ok l' -> forall j, (i <= j < i + n)%nat -> exists x y, P x /\ ld j x = Ok y.
Proof.
  intros F K. induction n as [|n IH]; intros i l l' HP H j Hj; [lia|]. simpl in H.
  apply bind_ok in H as (f & Hf & H). apply bind_ok in H as (x & Hx & H).
  assert (HP2 : Forall P (l ++ [f])) by (apply Forall_app; auto).
  assert (Px : P (nth i (l ++ [f]) f)).
  { destruct (nth_in_or_default i (l ++ [f]) f) as [I0 | ->]; [|auto]. eapply Forall_forall in HP2; eauto. }
  destruct (Nat.eq_dec j i) as [-> | Nj]; [eauto|]. eapply IH; [|exact H|lia].
  assert (G : forall l i, Forall P l -> P x -> Forall P (upd l i x)).
  { induction l0 as [|a r IHr]; intros [|k] HF Hx'; simpl; auto; inversion HF; constructor; auto. }
  apply G; [exact HP2 | eapply K; eauto].
Qed.
Lemma wfss_each fl p (c1 : find_class module_env "WfsConfig" = Ok KWfs) : forall n i l l', Forall (fun w => o_kind (w_obj w) = KWfs) l ->
  py_wfss fl (find_class module_env) p n i l = Ok l' -> forall j, (i <= j < i + n)%nat ->
  exists dw dl o o' lg, p "WFS" = Some dw /\ p "LGS" = Some dl /\ o_kind o = KWfs /\
    load_onto fl (Some j) dl (blank KLgs) = Ok lg /\ load_onto fl (Some j) dw o = Ok o'.
Proof.
  induction n as [|n IH]; intros i l l' HP H j Hj; [lia|]. cbn [py_wfss] in H. change (find_class module_env "LgsConfig") with (@Ok kind KLgs) in H.
  rewrite c1 in H. cbn [bind] in H. apply bind_ok in H as (gl & Hgl & H). apply bind_ok in H as (lg & Hlg & H). cbn [bind] in H.
  apply bind_ok in H as (x & Hx & H). unfold py_wfs in Hx. apply bind_ok in Hx as (dw & Hdw & Hx). apply bind_ok in Hx as (o' & Ho & Hx).
  apply bind_ok in Hx as (t & Ht & Hx). injection Hx as Ex.
  assert (HP2 : Forall (fun w => o_kind (w_obj w) = KWfs) (l ++ [mkW (blank KWfs) None])) by (apply Forall_app; split; [exact HP | constructor; auto]).
  set (W := nth i (l ++ [mkW (blank KWfs) None]) (mkW (blank KWfs) None)) in *.
  assert (KW : o_kind (w_obj W) = KWfs).
  { unfold W. destruct (nth_in_or_default i (l ++ [mkW (blank KWfs) None]) (mkW (blank KWfs) None)) as [I0 | ->]; [|reflexivity].
    eapply Forall_forall in HP2; [|exact I0]. exact HP2. }
  cbn [w_obj] in Ho.
  destruct (Nat.eq_dec j i) as [-> | Nj].
  - unfold group in Hgl, Hdw. destruct (p "LGS") as [a|], (p "WFS") as [b|]; try discriminate. injection Hgl as ->. injection Hdw as ->.
    exists dw, gl, (w_obj W), o', lg. auto.
  - eapply IH; [|exact H|lia].
    assert (G : forall l i (z : wobj), Forall (fun w => o_kind (w_obj w) = KWfs) l -> o_kind (w_obj z) = KWfs -> Forall (fun w => o_kind (w_obj w) = KWfs) (upd l i z)).
    { induction l0 as [|a r IHr]; intros [|k] z HF Hz; simpl; auto; inversion HF; constructor; auto. }
    apply G; [exact HP2|]. subst x. cbn [w_obj put_obj o_kind]. rewrite (load_kind _ _ _ _ _ Ho). exact KW.
Qed.
Lemma python_enough fl p c g k (n : nat) : from_python fl p = Ok c -> In (g, k, n) [("WFS", KWfs, length (c_wfss c)); ("LGS", KLgs, length (c_wfss c)); ("DM", KDm, length (c_dms c)); ("Science", KSci, length (c_scis c))] ->
  forall d q v i, p g = Some d -> In q (required (cls_of k) ++ map fst (optional (cls_of k))) -> d q = Some v -> (i < n)%nat -> exists x, has_entry v i x.
Proof.
  intros H I0 d q v i Hd Hq Hv Hi. apply load_py_steps in H as s. destruct (c_lengths _ _ _ _ s) as (L1 & L2 & L3).
  destruct s as [sim atm tel rec ws ds ss n1 n2 n3 g1 g2 g3 g4 H1 H2 H3 H4 H5 H6 H7 H8 H9 H10 H11 H12 H13 H14 H15]. cbn [ps_n1 ps_n2 ps_n3] in *.
  rewrite L1, L2, L3 in I0.
  assert (W : (i < n1)%nat -> (p "WFS" = Some d /\ k = KWfs) \/ (p "LGS" = Some d /\ k = KLgs) -> exists x, has_entry v i x).
  { intros Hi' C. destruct (wfss_each fl p eq_refl n1 0 [] ws ltac:(constructor) H8 i ltac:(lia)) as (dw & dl & o & o' & lg & E1 & E2 & Ko & E3 & E4).
    destruct C as [(E & ->) | (E & ->)].
    - rewrite E1 in E. injection E as ->. rewrite <- Ko in Hq. destruct (load_has _ _ _ _ _ _ _ E4 Hq Hv) as (z & Ez). exists z. apply entry_iff, Ez.
    - rewrite E2 in E. injection E as ->. destruct (load_has _ _ _ _ _ _ _ E3 Hq Hv) as (z & Ez). exists z. apply entry_iff, Ez. }
  assert (G : forall gg nm n l', fill (new (find_class module_env) nm) (py_each fl p gg) n 0 [] = Ok l' -> find_class module_env nm = Ok k -> p gg = Some d -> (i < n)%nat ->
     exists x, has_entry v i x).
  { intros gg nm m l' HF HN Hg Hi'. assert (F1 : forall f, new (find_class module_env) nm = Ok f -> o_kind f = k).
    { intros f Ef. unfold new in Ef. rewrite HN in Ef. injection Ef as <-. reflexivity. }
    assert (F2 : forall j x y, o_kind x = k -> py_each fl p gg j x = Ok y -> o_kind y = k).
    { intros j x y Kx E. rewrite (each_kind _ _ _ _ _ _ E). exact Kx. }
    destruct (fill_each _ _ (fun o => o_kind o = k) F1 F2 m 0%nat [] l' (Forall_nil _) HF i ltac:(lia)) as (x & y & Kx & E).
    unfold py_each, group in E. rewrite Hg in E. simpl in E. rewrite <- Kx in Hq.
      destruct (load_has _ _ _ _ _ _ _ E Hq Hv) as (z & Ez). exists z. apply entry_iff, Ez. }
  destruct I0 as [E | [E | [E | [E | []]]]]; injection E as <- <- <-; [apply W; auto | apply W; auto | eapply G; [exact H10 | reflexivity | exact Hd | exact Hi] | eapply G; [exact H14 | reflexivity | exact Hd | exact Hi]].
Qed.
Lemma yaml_enough fl y c : from_yaml fl y = Ok c ->
  (forall rows, y_wfs y = Some rows -> (length (c_wfss c) <= length rows)%nat) /\
  (forall rows, y_dm y = Some rows -> (length (c_dms c) <= length rows)%nat) /\
  (forall rows, y_sci y = Some rows -> (length (c_scis c) <= length rows)%nat).
Proof.
  intros H. apply load_yaml_steps in H as s. destruct (y_lengths _ _ _ _ s) as (L1 & L2 & L3).
  destruct s as [sim atm tel rec ws ds ss n1 n2 n3 g2 g3 g4 H2 H3 H4 H5 H6 H7 H8 H9 H10 H11 H12 H13 H14 H15]. cbn [ys_n1 ys_n2 ys_n3] in *.
  rewrite L1, L2, L3.
  assert (G : forall A B fresh (ld : nat -> A -> result A) n l' (rows : list B), fill fresh ld n 0 [] = Ok l' ->
    (forall i x z, ld i x = Ok z -> exists r, list_group (Some rows) i = Ok r) -> (n <= length rows)%nat).
  { intros A B fresh ld n l' rows HF HL. destruct n as [|n]; [lia|].
    destruct (fill_each fresh ld (fun _ => True) (fun _ _ => I) (fun _ _ _ _ _ => I) _ 0%nat [] l' (Forall_nil _) HF n ltac:(lia)) as (x & z & _ & E).
    destruct (HL _ _ _ E) as (r & Er). simpl in Er. destruct (nth_error rows n) eqn:En; [|discriminate].
    assert (n < length rows)%nat by (apply nth_error_Some; congruence). lia. }
  split; [|split]; intros rows Er; [eapply G with (1 := H8) | eapply G with (1 := H10) | eapply G with (1 := H14)]; intros i x z E;
    unfold y_wfs_load, y_each in E; rewrite Er in E; apply bind_ok in E as (r & Hr & _); exists r; exact Hr.
Qed.

(** * Histories *)
Definition classes_kept (e : env) : Prop := forall n, In n (map fst module_names) -> e n = module_env n.
Lemma exec_other x : forall p e, ~ In x (binds p) -> fst (exec p e) x = e x.
Proof.
  induction p as [|s r IH]; intros e H; [reflexivity|].
  assert (B : forall y v, y <> x -> bind_name e y v x = e x).
  { intros y v N. unfold bind_name. destruct (String.eqb x y) eqn:E; [apply String.eqb_eq in E; congruence | reflexivity]. }
  destruct s as [y v | y z |]; simpl in *.
  - rewrite IH by tauto. apply B. tauto.
  - destruct (e z); [|reflexivity]. rewrite IH by tauto. apply B. tauto.
  - reflexivity.
Qed.
Lemma kept_exec p e : keeps_classes p -> classes_kept e -> classes_kept (fst (exec p e)).
Proof. intros K H n Hn. rewrite exec_other; [apply H, Hn | intros I0; apply (K n I0), Hn]. Qed.
Lemma load_python_env fl p e : snd (load_python fl p e) = e \/ snd (load_python fl p e) = fst (exec p e).
Proof. unfold load_python. destruct (new_config e); [right | left; reflexivity]. destruct (exec p e); reflexivity. Qed.
Lemma kept_load fl p e : keeps_classes p -> classes_kept e -> classes_kept (snd (load_python fl p e)).
Proof. intros K H. destruct (load_python_env fl p e) as [-> | ->]; [exact H | apply kept_exec; assumption]. Qed.
Lemma kept_after fl : forall h e, Forall keeps_classes h -> classes_kept e -> classes_kept (after fl h e).
Proof. induction h as [|p r IH]; intros e H K; simpl; [exact K|]. inversion H; subst. apply IH; [assumption | apply kept_load; assumption]. Qed.
(** what a self-contained file binds does not depend on the names it finds *)
Lemma exec_own : forall p e e' bound, own_names bound p -> (forall x, In x bound -> e x = e' x) ->
  snd (exec p e) = snd (exec p e') /\ (snd (exec p e) = true -> forall x, In x bound \/ In x (binds p) -> fst (exec p e) x = fst (exec p e') x).
Proof.
  induction p as [|s r IH]; intros e e' bound O H; simpl.
  - split; [reflexivity|]. intros _ x [I0 | []]. apply H, I0.
  - destruct s as [y v | y z |]; simpl in O.
    + destruct (IH (bind_name e y v) (bind_name e' y v) (y :: bound) O) as (A & B).
      { intros x [<- | I0]; unfold bind_name; [rewrite String.eqb_refl; reflexivity|]. destruct (String.eqb x y); [reflexivity | apply H, I0]. }
      split; [exact A|]. intros T x [I0 | [<- | I0]]; apply B; auto; simpl; tauto.
    + destruct O as (Hz & O). rewrite <- (H z Hz). destruct (e z) as [v|]; [|split; [reflexivity | discriminate]].
      destruct (IH (bind_name e y v) (bind_name e' y v) (y :: bound) O) as (A & B).
      { intros x [<- | I0]; unfold bind_name; [rewrite String.eqb_refl; reflexivity|]. destruct (String.eqb x y); [reflexivity | apply H, I0]. }
      split; [exact A|]. intros T x [I0 | [<- | I0]]; apply B; auto; simpl; tauto.
    + split; [reflexivity | discriminate].
Qed.
Lemma new_kept e : classes_kept e -> new_config e = Ok empty_config.
Proof.
  intros H. unfold new_config, new, find_class.
  rewrite (H "SimConfig"), (H "AtmosConfig"), (H "TelConfig"), (H "ReconstructorConfig") by (simpl; tauto). reflexivity.
Qed.
(** the loader asks only for the four classes it makes objects of *)
Lemma load_py_cl fl cl cl' f c : (forall n, In n ["LgsConfig"; "WfsConfig"; "DmConfig"; "SciConfig"] -> cl n = cl' n) -> load_py fl cl f c = load_py fl cl' f c.
Proof.
  intros H. unfold load_py.
  assert (W : forall n i l, py_wfss fl cl f n i l = py_wfss fl cl' f n i l).
  { induction n as [|n IH]; intros i l; [reflexivity|]. cbn [py_wfss]. rewrite (H "LgsConfig"), (H "WfsConfig") by (simpl; tauto).
    destruct (cl' "LgsConfig"); cbn [bind]; [|reflexivity]. destruct (group f "LGS"); cbn [bind]; [|reflexivity].
    destruct (load_onto _ _ _ _); cbn [bind]; [|reflexivity]. destruct (cl' "WfsConfig"); cbn [bind]; [|reflexivity].
    destruct (py_wfs _ _ _ _); cbn [bind]; [apply IH | reflexivity]. }
  unfold new. rewrite (H "DmConfig"), (H "SciConfig") by (simpl; tauto).
  destruct (group f "Sim"); cbn [bind]; [|reflexivity]. destruct (load_onto _ _ _ (c_sim c)); cbn [bind]; [|reflexivity].
  destruct (group f "Atmosphere"); cbn [bind]; [|reflexivity]. destruct (load_onto _ _ _ (c_atmos c)); cbn [bind]; [|reflexivity].
  destruct (group f "Telescope"); cbn [bind]; [|reflexivity]. destruct (load_onto _ _ _ (c_tel c)); cbn [bind]; [|reflexivity].
  destruct (count _ "nGS"); cbn [bind]; [|reflexivity]. rewrite W. reflexivity.
Qed.
Lemma find_kept e e' n : classes_kept e -> classes_kept e' -> In n ["LgsConfig"; "WfsConfig"; "DmConfig"; "SciConfig"] -> find_class e n = find_class e' n.
Proof. intros H H' Hn. unfold find_class. rewrite H, H'; [reflexivity | |]; simpl in *; tauto. Qed.
Lemma contained fl p e e' : self_contained p -> keeps_classes p -> classes_kept e -> classes_kept e' -> fst (load_python fl p e) = fst (load_python fl p e').
Proof.
  intros (O & B) K H H'. unfold load_python. rewrite (new_kept e H), (new_kept e' H').
  destruct (exec_own p e e' [] O) as (A & C); [intros x []|].
  pose proof (kept_exec p e K H) as K1. pose proof (kept_exec p e' K H') as K2.
  destruct (exec p e) as (e1 & ok1), (exec p e') as (e2 & ok2). cbn [fst snd] in *. subst ok2. destruct ok1; [|reflexivity].
  rewrite (C eq_refl "simConfiguration" (or_intror B)). destruct (e2 "simConfiguration") as [[]|]; try reflexivity.
  apply load_py_cl. intros n Hn. apply find_kept; assumption.
Qed.
Lemma history fl h p : Forall keeps_classes h -> self_contained p -> keeps_classes p ->
  fst (load_python fl p (after fl h module_env)) = fst (load_python fl p module_env).
Proof. intros H S0 K. apply contained; auto; [apply kept_after; auto|]; intros n _; reflexivity. Qed.
(** a file without the dictionary gives the configuration of the last file which had one *)
Lemma stale fl pa pb e c : classes_kept e -> keeps_classes pa -> keeps_classes pb -> fst (load_python fl pa e) = Ok c ->
  ~ In "simConfiguration" (binds pb) -> runs pb (snd (load_python fl pa e)) -> fst (load_python fl pb (snd (load_python fl pa e))) = Ok c.
Proof.
  intros HE KA KB H N R. unfold runs in R. pose proof (kept_exec pa e KA HE) as K1.
  assert (E1 : snd (load_python fl pa e) = fst (exec pa e)) by (unfold load_python; rewrite (new_kept e HE); destruct (exec pa e); reflexivity).
  rewrite E1 in *. unfold load_python in H. rewrite (new_kept e HE) in H. destruct (exec pa e) as (e1 & ok). cbn [fst snd] in *.
  destruct ok; [|discriminate]. unfold load_python. rewrite (new_kept e1 K1).
  pose proof (kept_exec pb e1 KB K1) as K2. pose proof (exec_other "simConfiguration" pb e1 N) as E2.
  destruct (exec pb e1) as (e2 & ok2). cbn [fst snd] in *. subst ok2. rewrite E2.
  destruct (e1 "simConfiguration") as [[]|]; try discriminate. rewrite <- H. apply load_py_cl. intros n Hn. apply find_kept; assumption.
Qed.
Lemma fresh_name_error fl p : ~ In "simConfiguration" (binds p) -> runs p module_env -> fst (load_python fl p module_env) = Err NameError.
Proof.
  intros N R. unfold load_python, runs in *. rewrite new_kept by (intros n _; reflexivity).
  pose proof (exec_other "simConfiguration" p module_env N) as E. destruct (exec p module_env) as (e & ok). cbn [fst snd] in *. subst ok. rewrite E. reflexivity.
Qed.
(** groups a file must have *)
Lemma no_recon fl p c : from_python fl p = Ok c -> p "Reconstructor" <> None.
Proof. intros H E. apply load_py_steps in H as s. pose proof (ps_11 _ _ _ _ _ s) as X. unfold group in X. rewrite E in X. discriminate. Qed.
Lemma no_lgs fl p c : from_python fl p = Ok c -> p "LGS" = None -> c_wfss c = [].
Proof.
  intros H E. apply load_py_steps in H as s. destruct (c_lengths _ _ _ _ s) as (L1 & _). pose proof (ps_8 _ _ _ _ _ s) as X.
  destruct (ps_n1 _ _ _ _ _ s); [destruct (c_wfss c); [reflexivity | discriminate]|]. cbn [py_wfss] in X. unfold group in X. rewrite E in X.
  destruct (find_class module_env "LgsConfig"); discriminate.
Qed.

From Coq Require Import String Ascii.
From Verif.Base Require Import Vec PyFacts.
From Verif.Proofs Require Import ConfigProofs.
From Verif.Model Require Import Config ConfigFile.
From Verif.Spec Require Import ConfigSpec ConfigFileSpec.
From Verif.Proofs Require Import ConfigFileProofs ConfigFileMore ConfigFileHist.
Open Scope string_scope.
Open Scope list_scope.
Open Scope Z_scope.

(** * Objects whose parameters are all set and whose derived values are in place *)
Definition params (k : kind) : list string := required (cls_of k) ++ map fst (optional (cls_of k)).
Definition complete (k : kind) (o : pdict) : Prop := forall p, In p (params k) -> o p <> None.
Definition only (k : kind) (o : pdict) : Prop := forall p, o p <> None -> In p (params k) \/ (k = KWfs /\ p = "position").
Definition number (o : pdict) (p : string) : Prop := exists q, o p = Some (VNum q).
Definition fixed (k : kind) (o : pdict) : Prop :=
  match k with
  | KWfs => o "position" = o "GSPosition" /\ number o "wavelength"
  | KLgs => number o "wavelength" /\ number o "height" /\
            exists pr n e q, o "naProfile" = Some pr /\ pr <> VNone /\ vlen pr = Ok n /\ o "elongationLayers" = Some e /\ as_num e = Some q /\ qc_ltb (qz (Z.of_nat n)) q = false
  | KDm => number o "iMatValue" /\ number o "svdConditioning"
  | KSci => number o "wavelength" /\
            exists s nv n f, o "pxlScale" = Some (VNum s) /\ o "pxls" = Some nv /\ as_num nv = Some n /\ n <> 0%Qc /\ o "FOV" = Some f /\ as_num f = Some (s * n)%Qc
  | _ => True
  end.
Definition good (k : kind) (o : pdict) : Prop := complete k o /\ only k o /\ fixed k o.

Lemma assigned_put k o p v o' : assigned k o p v = Ok o' -> o' = put o p v.
Proof. unfold assigned, set_attr, put. destruct (existsb _ _); simpl; intros H; [injection H as <-; reflexivity | discriminate]. Qed.
Lemma put_at o p v : put o p v p = Some v. Proof. unfold put. rewrite String.eqb_refl. reflexivity. Qed.
Lemma put_no o p v q : q <> p -> put o p v q = o q. Proof. intros H. unfold put. apply String.eqb_neq in H. rewrite H. reflexivity. Qed.
Lemma complete_put k o p v : complete k o -> complete k (put o p v).
Proof. intros H q Hq. unfold put. destruct (String.eqb q p); [discriminate | apply H, Hq]. Qed.
Lemma only_put k o p v : only k o -> In p (params k) \/ (k = KWfs /\ p = "position") -> only k (put o p v).
Proof. intros H Hp q Hq. unfold put in Hq. destruct (String.eqb q p) eqn:E; [apply String.eqb_eq in E; subst; exact Hp | apply H, Hq]. Qed.
Lemma floated_put fl k p o o' : floated fl k p o = Ok o' -> exists v q, o p = Some v /\ to_float fl v = Ok (VNum q) /\ o' = put o p (VNum q).
Proof.
  unfold floated, get. intros H. destruct (o p) as [v|]; [|discriminate]. cbn [bind] in H. apply bind_ok in H as (x & Hx & H).
  apply assigned_put in H. assert (exists q, x = VNum q) as (q & ->).
  { destruct v; simpl in Hx; try discriminate; try (injection Hx as <-; eauto). destruct (fl s); [injection Hx as <-; eauto | discriminate]. }
  exists v, q. auto.
Qed.
Lemma get_ok o p v : get o p = Ok v -> o p = Some v.
Proof. unfold get. destruct (o p); intros H; [injection H as <-; reflexivity | discriminate]. Qed.
Ltac puts := repeat first [rewrite put_at | rewrite put_no by discriminate].
Ltac inp := unfold params; cbn; tauto.

(** calcParams sets only parameters of the class *)
Lemma calc_shape fl k o o' : calc_obj fl k o = Ok o' -> (complete k o -> complete k o') /\ (only k o -> only k o').
Proof.
  intros H. destruct k; simpl in H; try (injection H as <-; auto).
  - unfold calc_atmos in H. repeat (apply bind_ok in H as (? & _ & H)). injection H as <-. auto.
  - unfold calc_wfs_obj in H. apply bind_ok in H as (g & _ & H). apply bind_ok in H as (o1 & H1 & H). apply assigned_put in H1.
    apply floated_put in H as (v & q & _ & _ & ->). subst o1. split; intros C; [do 2 apply complete_put; exact C | do 2 (apply only_put; [|first [left; inp | right; auto]]); exact C].
  - unfold calc_lgs in H. apply bind_ok in H as (o1 & H1 & H). apply bind_ok in H as (p & _ & H). apply bind_ok in H as (n & _ & H). apply bind_ok in H as (e & _ & H).
    destruct (as_num e) as [q0|]; [|discriminate]. destruct (qc_ltb _ _); [discriminate|]. apply bind_ok in H as (o2 & H2 & H).
    apply floated_put in H2 as (v & q & _ & _ & ->). apply floated_put in H as (v' & q' & _ & _ & ->).
    assert (G : (complete KLgs o -> complete KLgs o1) /\ (only KLgs o -> only KLgs o1)).
    { assert (G : forall x, (let* e := get o "elongationLayers" in let* n := as_int e in
          if n <? 0 then Err ValueError else assigned lgs_cls o "naProfile" (VList (repeat (num 1 1) (Z.to_nat n)))) = Ok x ->
          (complete KLgs o -> complete KLgs x) /\ (only KLgs o -> only KLgs x)).
      { intros x Hx. apply bind_ok in Hx as (e' & _ & Hx). apply bind_ok in Hx as (z & _ & Hx). destruct (z <? 0); [discriminate|].
        apply assigned_put in Hx. subst x. split; [apply complete_put | intros C; apply only_put; [exact C | left; inp]]. }
      destruct (o "naProfile") as [[]|]; try (injection H1 as <-; auto); apply G, H1. }
    split; intros C; [do 2 apply complete_put; apply G, C | do 2 (apply only_put; [|left; inp]); apply G, C].
  - unfold calc_dm in H. apply bind_ok in H as (o1 & H1 & H). apply floated_put in H1 as (v & q & _ & _ & ->). apply floated_put in H as (v' & q' & _ & _ & ->).
    split; intros C; [do 2 apply complete_put; exact C | do 2 (apply only_put; [|left; inp]); exact C].
  - unfold calc_sci_obj in H. apply bind_ok in H as (x & _ & H). apply bind_ok in H as (o1 & H1 & H). apply floated_put in H1 as (v & q & _ & _ & ->).
    apply bind_ok in H as (s & _ & H). apply bind_ok in H as (f & _ & H). apply bind_ok in H as (n & _ & H).
    assert (G : forall p w, assigned sci_cls (put o "wavelength" (VNum q)) p w = Ok o' -> In p (params KSci) -> (complete KSci o -> complete KSci o') /\ (only KSci o -> only KSci o')).
    { intros p w Hp I0. apply assigned_put in Hp. subst o'. split; intros C; [do 2 apply complete_put; exact C|].
      apply only_put; [|left; exact I0]. apply only_put; [exact C | left; inp]. }
    assert (G1 : scale_from_fov fl f n (put o "wavelength" (VNum q)) = Ok o' -> (complete KSci o -> complete KSci o') /\ (only KSci o -> only KSci o')).
    { unfold scale_from_fov. intros E. apply bind_ok in E as (z & _ & E). destruct (as_num z), (as_num n); try discriminate. destruct (qc_eqb _ _); [discriminate|]. eapply G; [exact E | inp]. }
    assert (G2 : fov_from_scale fl s f n (put o "wavelength" (VNum q)) = Ok o' -> (complete KSci o -> complete KSci o') /\ (only KSci o -> only KSci o')).
    { unfold fov_from_scale. intros E. destruct (as_num s), (as_num n); try discriminate.
      match type of E with (if ?b then _ else _) = _ => destruct b end; [apply G1, E | eapply G; [exact E | inp]]. }
    destruct s; try (apply G2, H); destruct f; try discriminate; apply G1, H.
Qed.
(** derived values are in place after calcParams has run (twice, for a science camera) *)
Lemma calc_fixed fl k o o' : k <> KSci -> calc_obj fl k o = Ok o' -> fixed k o'.
Proof.
  intros Hk H. destruct k; simpl in H |- *; try exact I; try congruence.
  - unfold calc_wfs_obj in H. apply bind_ok in H as (g & Hg & H). apply bind_ok in H as (o1 & H1 & H). apply assigned_put in H1.
    apply floated_put in H as (v & q & _ & _ & ->). subst o1. apply get_ok in Hg. split; [|exists q; apply put_at].
    rewrite !(put_no _ "wavelength") by discriminate. rewrite put_at, put_no by discriminate. symmetry. exact Hg.
  - unfold calc_lgs in H. apply bind_ok in H as (o1 & H1 & H). apply bind_ok in H as (p & Hp & H). apply bind_ok in H as (n & Hn & H). apply bind_ok in H as (e & He & H).
    destruct (as_num e) as [q0|] eqn:E; [|discriminate]. destruct (qc_ltb _ _) eqn:EL; [discriminate|]. apply bind_ok in H as (o2 & H2 & H).
    apply floated_put in H2 as (v & q & _ & _ & ->). apply floated_put in H as (v' & q' & _ & _ & ->). apply get_ok in Hp. apply get_ok in He.
    split; [exists q; rewrite put_no by discriminate; apply put_at|]. split; [exists q'; apply put_at|].
    exists p, n, e, q0. puts. repeat split; auto.
    intros ->. discriminate Hn.
  - unfold calc_dm in H. apply bind_ok in H as (o1 & H1 & H). apply floated_put in H1 as (v & q & _ & _ & ->). apply floated_put in H as (v' & q' & _ & _ & ->).
    split; [exists q; rewrite put_no by discriminate; apply put_at | exists q'; apply put_at].
Qed.
Lemma qeqb_refl q : qc_eqb q q = true. Proof. apply qc_eqb_true. reflexivity. Qed.
(** a science camera after one run: a number for the scale, and not a zero number of pixels unless the field of view is the product *)
Definition half_fixed (o : pdict) : Prop :=
  exists s sq nv n f, o "pxlScale" = Some s /\ as_num s = Some sq /\ o "pxls" = Some nv /\ as_num nv = Some n /\ o "FOV" = Some f /\
    (as_num f = Some (sq * n)%Qc \/ (s = VNum sq /\ n <> 0%Qc)).
Lemma sci_scaled fl f n o o' : scale_from_fov fl f n o = Ok o' ->
  exists a b, to_float fl f = Ok (VNum a) /\ as_num n = Some b /\ b <> 0%Qc /\ o' = put o "pxlScale" (VNum (a / b)%Qc).
Proof.
  unfold scale_from_fov. intros H. apply bind_ok in H as (x & Hx & H). destruct (as_num x) as [a|] eqn:E1; [|discriminate].
  destruct (as_num n) as [b|]; [|discriminate]. destruct (qc_eqb b 0) eqn:E0; [discriminate|]. apply assigned_put in H. exists a, b.
  assert (x = VNum a). { destruct f; simpl in Hx; try discriminate; try (injection Hx as <-; simpl in E1; congruence). destruct (fl s); [injection Hx as <-; simpl in E1; congruence | discriminate]. }
  subst x. repeat split; auto. intros ->. rewrite qeqb_refl in E0. discriminate.
Qed.
Lemma float_num fl f a c : to_float fl f = Ok (VNum a) -> as_num f = Some c -> a = c.
Proof. destruct f; simpl; intros H E; try discriminate; congruence. Qed.
Lemma sci_calc fl o o' : calc_sci_obj fl o = Ok o' ->
  number o' "wavelength" /\ half_fixed o' /\ (half_fixed o -> fixed KSci o').
Proof.
  intros H. unfold calc_sci_obj in H. apply bind_ok in H as (x & _ & H). apply bind_ok in H as (o1 & H1 & H). apply floated_put in H1 as (v & q & _ & _ & ->).
  apply bind_ok in H as (s & Hs & H). apply bind_ok in H as (f & Hf & H). apply bind_ok in H as (n & Hn & H).
  apply get_ok in Hs, Hf, Hn. rewrite put_no in Hs, Hf, Hn by discriminate.
  assert (W : forall p w, p <> "wavelength" -> number (put (put o "wavelength" (VNum q)) p w) "wavelength").
  { intros p w Np. exists q. rewrite put_no by congruence. apply put_at. }
  assert (G1 : scale_from_fov fl f n (put o "wavelength" (VNum q)) = Ok o' -> (match s with VNone => True | _ => as_num f <> None end) ->
     number o' "wavelength" /\ half_fixed o' /\ (half_fixed o -> fixed KSci o')).
  { intros E B. apply sci_scaled in E as (a & b & Ea & Eb & Nb & ->). split; [apply W; discriminate|].
    split.
    - exists (VNum (a / b)%Qc), (a / b)%Qc, n, b, f. puts. auto 10.
    - intros (s' & sq & nv & n' & f' & E1 & E2 & E3 & E4 & E5 & _). rewrite Hs in E1. injection E1 as <-. rewrite Hf in E5. injection E5 as <-.
      rewrite Hn in E3. injection E3 as <-. split; [apply W; discriminate|].
      destruct (as_num f) as [c|] eqn:Ef; [|destruct s; try discriminate; congruence].
      exists (a / b)%Qc, n, b, f. puts. repeat split; auto.
      rewrite (float_num fl f a c Ea Ef) in *. rewrite Ef. f_equal. field. exact Nb. }
  assert (G2 : fov_from_scale fl s f n (put o "wavelength" (VNum q)) = Ok o' ->
     number o' "wavelength" /\ half_fixed o' /\ (half_fixed o -> fixed KSci o')).
  { unfold fov_from_scale. intros E. destruct (as_num s) as [a|] eqn:Ea; [|discriminate]. destruct (as_num n) as [b|] eqn:Eb; [|discriminate].
    match type of E with (if ?b then _ else _) = _ => destruct b eqn:B end.
    - destruct (as_num f) as [c|] eqn:Ef; [|discriminate]. destruct (G1 E) as (A1 & A2 & A3); [destruct s; try discriminate; exact I|]. auto.
    - apply assigned_put in E. subst o'. split; [apply W; discriminate|]. split.
      + exists s, a, n, b, (VNum (a * b)%Qc). puts. simpl. auto 10.
      + intros (s' & sq & nv & n' & f' & E1 & E2 & E3 & E4 & E5 & C). rewrite Hs in E1. injection E1 as <-. rewrite Hf in E5. injection E5 as <-.
        rewrite Hn in E3. injection E3 as <-. rewrite Ea in E2. injection E2 as <-. rewrite Eb in E4. injection E4 as <-.
        destruct C as [C | (-> & Nb)]; [rewrite C, qeqb_refl in B; discriminate|]. split; [apply W; discriminate|].
        exists a, n, b, (VNum (a * b)%Qc). puts. auto 10. }
  destruct s; try (apply G2, H); destruct f; try discriminate; (destruct (G1 H I) as (A1 & A2 & A3); auto).
Qed.

(** * Running calcParams again changes nothing *)
Lemma put_again o p v : o p = Some v -> forall q, put o p v q = o q.
Proof. intros H q. unfold put. destruct (String.eqb q p) eqn:E; [apply String.eqb_eq in E; subst; auto | reflexivity]. Qed.
Lemma floated_again fl k p o : number o p -> existsb (String.eqb p) (allowed k) = true -> exists o', floated fl k p o = Ok o' /\ forall q, o' q = o q.
Proof.
  intros (q & E) A. unfold floated, get. rewrite E. cbn. unfold assigned, set_attr. rewrite A.
  eexists. split; [reflexivity|]. apply put_again, E.
Qed.
Lemma has k o p : complete k o -> In p (params k) -> exists v, o p = Some v.
Proof. intros C I0. specialize (C p I0). destruct (o p); [eauto | congruence]. Qed.
Lemma fixed_calc fl k o : complete k o -> fixed k o -> exists o', calc_obj fl k o = Ok o' /\ forall p, o' p = o p.
Proof.
  intros C F. destruct k; simpl in F; simpl calc_obj; try (exists o; split; [reflexivity | auto; fail]); try (exists o; auto; fail).
  - unfold calc_atmos, get.
    destruct (has KAtmos o "scrnHeights" C) as (v1 & ->); [inp|]. destruct (has KAtmos o "scrnStrengths" C) as (v2 & ->); [inp|].
    destruct (has KAtmos o "windDirs" C) as (v3 & ->); [inp|]. destruct (has KAtmos o "windSpeeds" C) as (v4 & ->); [inp|].
    destruct (has KAtmos o "L0" C) as (v5 & ->); [inp|]. exists o. split; [reflexivity | auto].
  - destruct F as (F1 & F2). unfold calc_wfs_obj, get. destruct (has KWfs o "GSPosition" C) as (g & Eg); [inp|]. rewrite Eg. cbn [bind].
    change (assigned wfs_cls o "position" g) with (Ok (put o "position" g)). cbn [bind]. rewrite Eg in F1.
    destruct (floated_again fl wfs_cls "wavelength" (put o "position" g)) as (o' & E & H); [destruct F2 as (q & Eq); exists q; rewrite put_no by discriminate; exact Eq | reflexivity|].
    exists o'. split; [exact E|]. intros p. rewrite H. apply put_again, F1.
  - destruct F as (F1 & F2 & pr & n & e & q & E1 & E2 & E3 & E4 & E5 & E6). unfold calc_lgs.
    assert (R : forall X, match o "naProfile" with None | Some VNone => X | Some _ => Ok o end = Ok o) by (intros X; rewrite E1; destruct pr; congruence).
    rewrite R. cbn [bind]. unfold get. rewrite E1. cbn [bind]. rewrite E3. cbn [bind]. rewrite E4. cbn [bind]. rewrite E5, E6.
    destruct (floated_again fl lgs_cls "wavelength" o F1 eq_refl) as (o1 & Ea & Ha). rewrite Ea. cbn [bind].
    destruct (floated_again fl lgs_cls "height" o1) as (o2 & Eb & Hb); [destruct F2 as (h & Eh); exists h; rewrite Ha; exact Eh | reflexivity|].
    exists o2. split; [exact Eb|]. intros p. rewrite Hb. apply Ha.
  - destruct F as (F1 & F2). unfold calc_dm.
    destruct (floated_again fl dm_cls "iMatValue" o F1 eq_refl) as (o1 & Ea & Ha). rewrite Ea. cbn [bind].
    destruct (floated_again fl dm_cls "svdConditioning" o1) as (o2 & Eb & Hb); [destruct F2 as (h & Eh); exists h; rewrite Ha; exact Eh | reflexivity|].
    exists o2. split; [exact Eb|]. intros p. rewrite Hb. apply Ha.
  - destruct F as (F1 & s & nv & n & f & E1 & E2 & E3 & E4 & E5 & E6). unfold calc_sci_obj.
    destruct (has KSci o "position" C) as (ps & Eps); [inp|]. unfold get at 1. rewrite Eps. cbn [bind].
    destruct (floated_again fl sci_cls "wavelength" o F1 eq_refl) as (o1 & Ea & Ha). rewrite Ea. cbn [bind]. unfold get.
    rewrite (Ha "pxlScale"), E1. cbn [bind]. rewrite (Ha "FOV"), E5. cbn [bind]. rewrite (Ha "pxls"), E2. cbn [bind].
    assert (G : fov_from_scale fl (VNum s) f nv o1 = Ok (put o1 "pxlScale" (VNum s))).
    { unfold fov_from_scale, scale_from_fov. cbn [as_num]. rewrite E3, E6, qeqb_refl.
      assert (Tf : to_float fl f = Ok (VNum (s * n)%Qc)) by (destruct f; simpl in E6 |- *; try discriminate; congruence).
      rewrite Tf. cbn [bind as_num]. destruct (qc_eqb n 0) eqn:En; [apply qc_eqb_true in En; contradiction|].
      replace (s * n / n)%Qc with s by (field; exact E4). reflexivity. }
    destruct f; (exists (put o1 "pxlScale" (VNum s)); split; [exact G|]; intros p; rewrite put_again by (rewrite Ha; exact E1); apply Ha).
Qed.

(** * An object loaded from its own dictionary *)
Lemma kind_in_all k : In (cls_of k) all_cls.
Proof. destruct k; unfold all_cls; simpl; tauto. Qed.
Lemma exists_params k p : existsb (String.eqb p) (required (cls_of k) ++ map fst (optional (cls_of k))) = true <-> In p (params k).
Proof.
  unfold params. rewrite existsb_exists. split.
  - intros (x & Hx & E). apply String.eqb_eq in E. subst. exact Hx.
  - intros H. exists p. split; [exact H | apply String.eqb_refl].
Qed.
Lemma load_blank fl k d b : load_params (cls_of k) None d = Ok b -> load_onto fl None d (blank k) = let* c := calc_obj fl k b in Ok (mkObj k c).
Proof.
  unfold load_params, load_onto. cbn [blank o_kind o_attr]. intros H. apply bind_ok in H as (a & Ha & H). rewrite Ha. cbn [bind]. rewrite H. reflexivity.
Qed.
Lemma dict_load k o d : (forall p, In p (required (cls_of k)) -> d p = o p) -> (forall p v, In (p, v) (optional (cls_of k)) -> d p = o p \/ (d p = None /\ o p = Some v)) ->
  complete k o -> exists b, load_params (cls_of k) None d = Ok b /\ (forall p, In p (params k) -> b p = o p) /\ (forall p, ~ In p (params k) -> b p = None).
Proof.
  intros D1 D2 C. destruct (ConfigProofs.load_yaml (cls_of k) d (kind_in_all k)) as (L & _).
  destruct L as (b & E & A & B & N).
  - intros p Hp. rewrite (D1 p Hp). apply C. unfold params. apply in_app_iff; auto.
  - exists b. split; [exact E|]. split.
    + intros p Hp. unfold params in Hp. apply in_app_iff in Hp as [Hp | Hp]; [rewrite A by exact Hp; apply D1, Hp|].
      apply in_map_iff in Hp as ((p' & v) & Ep & Hp). simpl in Ep. subst p'. rewrite (B p v Hp).
      destruct (D2 p v Hp) as [Q | (Q1 & Q2)]; [|rewrite Q1, Q2; reflexivity]. rewrite Q.
      assert (o p <> None) by (apply C; unfold params; apply in_app_iff; right; apply in_map_iff; exists (p, v); auto).
      destruct (o p); [reflexivity | congruence].
    + intros p Np. apply N; intros Hp; apply Np; unfold params; apply in_app_iff; auto.
Qed.
Lemma to_dict_in k o p : In p (params k) -> to_dict (cls_of k) o p = o p.
Proof. intros H. unfold to_dict. rewrite (proj2 (exists_params k p) H). reflexivity. Qed.
Lemma reload_with fl k o d : (forall p, In p (required (cls_of k)) -> d p = o p) -> (forall p v, In (p, v) (optional (cls_of k)) -> d p = o p \/ (d p = None /\ o p = Some v)) ->
  good k o -> exists o', load_onto fl None d (blank k) = Ok (mkObj k o') /\ forall p, o' p = o p.
Proof.
  intros D1 D2 (C & O & F). destruct (dict_load k o d D1 D2 C) as (b & E & A & N). rewrite (load_blank fl k d b E).
  destruct (fixed_calc fl k o C F) as (o1 & E1 & H1).
  destruct k eqn:K.
  3:{ destruct F as (F1 & F2). simpl calc_obj in *. unfold calc_wfs_obj, get.
      destruct (has KWfs o "GSPosition" C) as (g & Eg); [inp|]. rewrite (A "GSPosition") by inp. rewrite Eg. cbn [bind].
      change (assigned wfs_cls b "position" g) with (Ok (put b "position" g)). cbn [bind].
      assert (Hb : forall p, put b "position" g p = o p).
      { intros p. unfold put. destruct (String.eqb p "position") eqn:Ep; [apply String.eqb_eq in Ep; subst; congruence|].
        apply String.eqb_neq in Ep. destruct (in_dec string_dec p (params KWfs)) as [I0 | I0]; [apply A, I0|].
        rewrite (N p I0). destruct (o p) eqn:Eo; [|reflexivity]. destruct (O p ltac:(congruence)) as [I1 | (_ & I1)]; contradiction. }
      destruct (floated_again fl wfs_cls "wavelength" (put b "position" g)) as (o2 & E2 & H2); [destruct F2 as (q & Eq); exists q; rewrite Hb; exact Eq | reflexivity|].
      rewrite E2. exists o2. split; [reflexivity|]. intros p. rewrite H2. apply Hb. }
  all: assert (Hb : agree all b o);
    [ intros p _; destruct (in_dec string_dec p (params k)) as [I0 | I0]; rewrite K in I0; [apply A, I0|];
      rewrite (N p I0); destruct (o p) eqn:Eo; [|reflexivity]; destruct (O p ltac:(congruence)) as [I1 | (I1 & _)]; [contradiction | discriminate]
    | pose proof (calc_obj_rel fl k all b o all_but Hb) as Q; rewrite K in Q; rewrite E1 in Q;
      match type of Q with rr _ ?x _ => destruct x as [o2|] eqn:E2 end; [|contradiction]; cbn [bind];
      exists o2; split; [reflexivity|]; intros p; rewrite (Q p Logic.I); apply H1 ].
Qed.
Lemma reload_obj fl o : good (o_kind o) (o_attr o) -> exists o', load_onto fl None (obj_dict o) (blank (o_kind o)) = Ok o' /\ same_obj o' o.
Proof.
  intros G. destruct (reload_with fl (o_kind o) (o_attr o) (obj_dict o)) as (o' & E & H).
  - intros p Hp. apply to_dict_in. unfold params. apply in_app_iff; auto.
  - intros p v Hp. left. apply to_dict_in. unfold params. apply in_app_iff. right. apply in_map_iff. exists (p, v); auto.
  - exact G.
  - exists (mkObj (o_kind o) o'). split; [exact E | split; [reflexivity | exact H]].
Qed.
Lemma reload_sensor fl o : o_kind o = KWfs -> good KWfs (o_attr o) -> o_attr o "lgs" = Some VNone ->
  exists o', load_onto fl None (without (without (obj_dict o) "lgs") "lgs") (blank KWfs) = Ok o' /\ same_obj o' o.
Proof.
  intros K G L. unfold obj_dict. rewrite K. destruct (reload_with fl KWfs (o_attr o) (without (without (to_dict (cls_of KWfs) (o_attr o)) "lgs") "lgs")) as (o' & E & H).
  - intros p Hp. unfold without. destruct (String.eqb p "lgs") eqn:E; [apply String.eqb_eq in E; subst; simpl in Hp; intuition discriminate|].
    apply (to_dict_in KWfs). unfold params. apply in_app_iff; auto.
  - intros p v Hp. unfold without. destruct (String.eqb p "lgs") eqn:E.
    + apply String.eqb_eq in E. subst. right. split; [reflexivity|]. rewrite L. f_equal. simpl in Hp.
      repeat (destruct Hp as [Hp | Hp]; [try discriminate Hp; injection Hp as <-; reflexivity|]). destruct Hp.
    + left. apply (to_dict_in KWfs). unfold params. apply in_app_iff. right. apply in_map_iff. exists (p, v); auto.
  - exact G.
  - exists (mkObj KWfs o'). split; [exact E | split; [symmetry; exact K | exact H]].
Qed.

From Coq Require Import String.
From Verif.Base Require Import Vec PyFacts.
From Verif.Model Require Import Config.
From Verif.Spec Require Import ConfigSpec.
From Verif.Proofs Require Import LosProofs.
Open Scope string_scope.
Open Scope list_scope.
Open Scope Z_scope.

(** * Attributes *)
Lemma allowed_iff k name : existsb (String.eqb name) (allowed k) = true <-> declared k name.
Proof.
  rewrite existsb_exists. unfold allowed, declared. split.
  - intros (x & Hx & E). apply String.eqb_eq in E. subst x. rewrite !in_app_iff in Hx.
    destruct Hx as [H | [H | [H | H]]]; auto.
    + destruct H as [H | []]; auto.
    + apply in_map_iff in H as ((n & v) & E & H). simpl in E. subst. right; right; right; eauto.
  - intros H. exists name. split; [|apply String.eqb_refl]. rewrite !in_app_iff.
    destruct H as [H | [H | [H | (v & H)]]]; auto.
    + subst. right; right; left; left; auto.
    + right; right; right. apply in_map_iff. exists (name, v); auto.
Qed.
Lemma set_attr_ok k o name v : declared k name ->
  fst (set_attr k o name v) = Ok tt /\ snd (set_attr k o name v) name = Some v /\ (forall n, n <> name -> snd (set_attr k o name v) n = o n).
Proof.
  intros H. unfold set_attr. apply allowed_iff in H. rewrite H. simpl. rewrite String.eqb_refl. split; [reflexivity|]. split; [reflexivity|].
  intros n Hn. apply String.eqb_neq in Hn. rewrite Hn. reflexivity.
Qed.
Lemma set_attr_err k o name v : ~ declared k name -> set_attr k o name v = (Err ConfigurationError, o).
Proof.
  intros H. unfold set_attr. destruct (existsb _ _) eqn:E; auto. exfalso. apply H, allowed_iff, E.
Qed.
Lemma assigned_ok k o name v : declared k name -> assigned k o name v = Ok (fun n => if String.eqb n name then Some v else o n).
Proof. intros H. unfold assigned, set_attr. apply allowed_iff in H. rewrite H. reflexivity. Qed.

(** * Loading *)
(** the entry used for a parameter *)
Definition used (N : option nat) (d : pdict) (p : string) (x : val) : Prop := exists v, d p = Some v /\ entry N v = Ok x.

Lemma load_required_ok k N d : forall ps o, (forall p, In p ps -> declared k p) ->
  (forall p, In p ps -> exists x, used N d p x) ->
  exists o', load_required k N d ps o = Ok o' /\ (forall p, In p ps -> exists x, used N d p x /\ o' p = Some x) /\ (forall p, ~ In p ps -> o' p = o p).
Proof.
  induction ps as [|p ps IH]; intros o Hd Hu.
  - exists o. simpl. repeat split; auto; intros ? [].
  - destruct (Hu p (or_introl eq_refl)) as (x & v & Ev & Ex). simpl. rewrite Ev, Ex. simpl.
    rewrite assigned_ok by (apply Hd; left; auto). simpl.
    destruct (IH (fun n => if String.eqb n p then Some x else o n)) as (o' & E & A & B).
    { intros; apply Hd; right; auto. } { intros; apply Hu; right; auto. }
    exists o'. split; [exact E|]. split.
    + intros q Hq. destruct (in_dec string_dec q ps) as [I | NI]; [apply A; auto|].
      destruct Hq as [-> | Hq]; [|contradiction]. exists x. split; [exists v; auto|]. rewrite B by auto. rewrite String.eqb_refl. reflexivity.
    + intros q Hq. rewrite B by (intros I; apply Hq; right; auto).
      destruct (String.eqb q p) eqn:E'; auto. apply String.eqb_eq in E'. subst. exfalso. apply Hq. left; auto.
Qed.
Lemma load_required_err k N d : forall ps o, (forall p, In p ps -> declared k p) ->
  (exists p, In p ps /\ ~ exists x, used N d p x) -> load_required k N d ps o = Err ConfigurationError.
Proof.
  induction ps as [|p ps IH]; intros o Hd (q & Hq & Nq); [destruct Hq|].
  simpl. destruct (d p) as [v|] eqn:Ev; [|reflexivity]. destruct (entry N v) as [x|e] eqn:Ex; [|reflexivity]. simpl.
  rewrite assigned_ok by (apply Hd; left; auto). simpl. apply IH; [intros; apply Hd; right; auto|].
  destruct Hq as [-> | Hq]; [|eauto]. exfalso. apply Nq. exists x, v. auto.
Qed.

(** the value an optional parameter gets *)
Definition opt_ok (N : option nat) (d : pdict) (p : string) : Prop := d p = None \/ exists x, used N d p x.
Definition opt_val (N : option nat) (d : pdict) (p : string) (dflt x : val) : Prop := (d p = None /\ x = dflt) \/ used N d p x.

Lemma load_optional_ok k N d : forall ps o, (forall p v, In (p, v) ps -> declared k p) ->
  (forall p v w, In (p, v) ps -> In (p, w) ps -> v = w) ->
  (forall p v, In (p, v) ps -> opt_ok N d p) ->
  exists o', load_optional k N d ps o = Ok o' /\ (forall p v, In (p, v) ps -> exists x, opt_val N d p v x /\ o' p = Some x) /\
    (forall p, ~ In p (map fst ps) -> o' p = o p).
Proof.
  induction ps as [|[p v] ps IH]; intros o Hd Hf Hu.
  - exists o. simpl. repeat split; auto; intros ? ? [].
  - assert (S : exists x, opt_val N d p v x /\
        load_optional k N d ((p, v) :: ps) o = load_optional k N d ps (fun n => if String.eqb n p then Some x else o n)).
    { destruct (Hu p v (or_introl eq_refl)) as [E | (x & w & Ew & Ex)]; simpl.
      - exists v. split; [left; auto|]. rewrite E. rewrite assigned_ok by (eapply Hd; left; eauto). reflexivity.
      - exists x. split; [right; exists w; auto|]. rewrite Ew, Ex. simpl. rewrite assigned_ok by (eapply Hd; left; eauto). reflexivity. }
    destruct S as (x & Hx & ->).
    destruct (IH (fun n => if String.eqb n p then Some x else o n)) as (o' & E & A & B).
    { intros; eapply Hd; right; eauto. } { intros; eapply Hf; right; eauto. } { intros; eapply Hu; right; eauto. }
    exists o'. split; [exact E|]. split.
    + intros q w Hq. destruct (in_dec string_dec q (map fst ps)) as [I | NI].
      * apply in_map_iff in I as ((q' & w') & E' & I). simpl in E'. subst q'.
        assert (w = w') by (eapply Hf; [exact Hq | right; exact I]). subst. apply A; auto.
      * destruct Hq as [Eq | Hq]; [|exfalso; apply NI, in_map_iff; exists (q, w); auto]. injection Eq as -> ->.
        exists x. split; auto. rewrite B by auto. rewrite String.eqb_refl. reflexivity.
    + intros q Hq. simpl in Hq. rewrite B by tauto. destruct (String.eqb q p) eqn:E'; auto. apply String.eqb_eq in E'. subst. tauto.
Qed.
Lemma load_optional_err k N d : forall ps o, (forall p v, In (p, v) ps -> declared k p) ->
  (exists p v, In (p, v) ps /\ ~ opt_ok N d p) -> load_optional k N d ps o = Err ConfigurationError.
Proof.
  induction ps as [|[p v] ps IH]; intros o Hd (q & w & Hq & Nq); [destruct Hq|].
  assert (Hd' : forall p v, In (p, v) ps -> declared k p) by (intros; eapply Hd; right; eauto).
  simpl. destruct (d p) as [y|] eqn:Ev.
  - destruct (entry N y) as [x|e] eqn:Ex; [|reflexivity]. simpl.
    rewrite assigned_ok by (eapply Hd; left; auto). simpl. apply IH; auto.
    destruct Hq as [E | Hq]; [|eauto]. injection E as -> ->. exfalso. apply Nq. right. exists x, y. auto.
  - rewrite assigned_ok by (eapply Hd; left; auto). simpl. apply IH; auto.
    destruct Hq as [E | Hq]; [|eauto]. injection E as -> ->. exfalso. apply Nq. left; auto.
Qed.

(** what makes a class table sound *)
Definition table_ok (k : cls) : Prop :=
  (forall p v w, In (p, v) (optional k) -> In (p, w) (optional k) -> v = w) /\ (forall p v, In (p, v) (optional k) -> ~ In p (required k)).

Lemma load_params_spec k N d : table_ok k ->
  ((forall p, In p (required k) -> exists x, used N d p x) /\ (forall p v, In (p, v) (optional k) -> opt_ok N d p) /\
   exists o, load_params k N d = Ok o /\ (forall p, In p (required k) -> exists x, used N d p x /\ o p = Some x) /\
     (forall p v, In (p, v) (optional k) -> exists x, opt_val N d p v x /\ o p = Some x) /\
     (forall p, ~ In p (required k) -> ~ In p (map fst (optional k)) -> o p = None)) \/
  (((exists p, In p (required k) /\ ~ exists x, used N d p x) \/ (exists p v, In (p, v) (optional k) /\ ~ opt_ok N d p)) /\
   load_params k N d = Err ConfigurationError).
Proof.
  intros (Hf & Hr).
  assert (D1 : forall p, In p (required k) -> declared k p) by (intros; left; auto).
  assert (D2 : forall p v, In (p, v) (optional k) -> declared k p) by (intros; right; right; right; eauto).
  assert (U : forall p, (exists x, used N d p x) \/ ~ exists x, used N d p x).
  { intros p. unfold used. destruct (d p) as [v|]; [destruct (entry N v) as [x|] eqn:E|].
    - left. exists x, v. auto.
    - right. intros (x & v' & E1 & E2). congruence.
    - right. intros (x & v' & E1 & E2). congruence. }
  assert (O : forall p, opt_ok N d p \/ ~ opt_ok N d p).
  { intros p. unfold opt_ok. destruct (U p) as [H|H]; [left; right; auto|]. destruct (d p) eqn:E; [|left; left; auto].
    right. intros [C | C]; [congruence | contradiction]. }
  assert (R : (forall p, In p (required k) -> exists x, used N d p x) \/ (exists p, In p (required k) /\ ~ exists x, used N d p x)).
  { clear - U. induction (required k) as [|p l IH]; [left; intros ? []|]. destruct (U p) as [H|H]; [|right; exists p; split; [left|]; auto].
    destruct IH as [IH | (q & Hq & Nq)]; [|right; exists q; split; [right|]; auto]. left. intros q [<- | Hq]; auto. }
  assert (Q : (forall p v, In (p, v) (optional k) -> opt_ok N d p) \/ (exists p v, In (p, v) (optional k) /\ ~ opt_ok N d p)).
  { clear - O. induction (optional k) as [|[p v] l IH]; [left; intros ? ? []|]. destruct (O p) as [H|H]; [|right; exists p, v; split; [left|]; auto].
    destruct IH as [IH | (q & w & Hq & Nq)]; [|right; exists q, w; split; [right|]; auto]. left. intros q w [E | Hq]; [injection E as -> ->; auto | eauto]. }
  destruct R as [R | R].
  - destruct (load_required_ok k N d _ (fun _ => None) D1 R) as (o1 & E1 & A1 & B1).
    destruct Q as [Q | Q].
    + left. split; auto. split; auto. destruct (load_optional_ok k N d _ o1 D2 Hf Q) as (o2 & E2 & A2 & B2).
      exists o2. unfold load_params. rewrite E1. simpl. split; auto. split; [|split; auto].
      * intros p Hp. rewrite B2; auto. intros I. apply in_map_iff in I as ((q & v) & Eq & I). simpl in Eq. subst. apply (Hr _ _ I Hp).
      * intros p H1 H2. rewrite B2, B1; auto.
    + right. split; auto. unfold load_params. rewrite E1. simpl. apply load_optional_err; auto.
  - right. split; auto. unfold load_params. rewrite (load_required_err k N d _ (fun _ => None) D1 R). reflexivity.
Qed.

Lemma in_all k : In k all_cls -> table_ok k.
Proof.
  assert (F : forall l : list (string * val), NoDup (map fst l) -> forall p v w, In (p, v) l -> In (p, w) l -> v = w).
  { induction l as [|[q x] l IH]; intros ND p v w H1 H2; [destruct H1|]. simpl in ND. apply NoDup_cons_iff in ND as (N1 & N2).
    destruct H1 as [E1|H1], H2 as [E2|H2].
    - congruence.
    - injection E1 as -> ->. exfalso. apply N1, in_map_iff. exists (p, w); auto.
    - injection E2 as -> ->. exfalso. apply N1, in_map_iff. exists (p, v); auto.
    - eauto. }
  assert (ND : forall l : list string, (forallb (fun b => b) (map (fun p => (Nat.eqb (count_occ string_dec l p) 1)) l)) = true -> NoDup l).
  { intros l H. apply (NoDup_count_occ' string_dec). intros x Hx. rewrite forallb_forall in H.
    specialize (H (Nat.eqb (count_occ string_dec l x) 1)). apply Nat.eqb_eq, H, in_map_iff. exists x; auto. }
  assert (DJ : forall k, existsb (fun p => if in_dec string_dec p (required k) then true else false) (map fst (optional k)) = false ->
             forall p v, In (p, v) (optional k) -> ~ In p (required k)).
  { intros k' H p v I C. assert (T : existsb (fun p => if in_dec string_dec p (required k') then true else false) (map fst (optional k')) = true).
    { apply existsb_exists. exists p. split; [apply in_map_iff; exists (p, v); auto|]. destruct (in_dec _ _ _); auto. }
    congruence. }
  intros H. unfold all_cls in H.
  assert (S : forall P : cls -> Prop, P sim_cls -> P atmos_cls -> P wfs_cls -> P tel_cls -> P lgs_cls -> P dm_cls -> P recon_cls -> P sci_cls -> P k).
  { intros. repeat (destruct H as [<- | H]; [assumption|]). destruct H. }
  split; [|apply DJ; pattern k; apply S; vm_compute; reflexivity].
  pattern k; apply S; try (apply F, ND; vm_compute; reflexivity).
  (* angleEquivNoise is listed twice, with one default *)
  intros p v w H1 H2.
  assert (T : filter (fun z => String.eqb (fst z) "angleEquivNoise") (optional wfs_cls) =
              [("angleEquivNoise", num 0 1); ("angleEquivNoise", num 0 1)]) by reflexivity.
  assert (U : NoDup (map fst (filter (fun z => negb (String.eqb (fst z) "angleEquivNoise")) (optional wfs_cls)))) by (apply ND; vm_compute; reflexivity).
  destruct (String.eqb p "angleEquivNoise") eqn:E.
  - assert (G : forall x, In (p, x) (optional wfs_cls) -> x = num 0 1).
    { intros x I. assert (J : In (p, x) (filter (fun z => String.eqb (fst z) "angleEquivNoise") (optional wfs_cls))) by (apply filter_In; auto).
      rewrite T in J. destruct J as [J | [J | []]]; congruence. }
    rewrite (G v), (G w); auto.
  - apply (F _ U p); apply filter_In; (split; [assumption|]); cbn [fst]; rewrite E; reflexivity.
Qed.

(** the plain (YAML) case *)
Lemma entry_none v : entry None v = Ok v. Proof. reflexivity. Qed.
Lemma used_none d p x : used None d p x <-> d p = Some x.
Proof. unfold used. split; [intros (v & E & H); injection H as ->; auto | intros; exists x; auto]. Qed.

Lemma load_yaml k d : In k all_cls ->
  ((forall p, In p (required k) -> d p <> None) -> exists o, load_params k None d = Ok o /\
      (forall p, In p (required k) -> o p = d p) /\
      (forall p v, In (p, v) (optional k) -> o p = match d p with Some x => Some x | None => Some v end) /\
      (forall p, ~ In p (required k) -> ~ In p (map fst (optional k)) -> o p = None)) /\
  ((exists p, In p (required k) /\ d p = None) -> load_params k None d = Err ConfigurationError).
Proof.
  intros Hk. destruct (load_params_spec k None d (in_all k Hk)) as [(H1 & H2 & o & E & A & B & C) | (H & E)].
  - split.
    + intros _. exists o. split; auto. split; [|split; auto].
      * intros p Hp. destruct (A p Hp) as (x & U & ->). apply used_none in U. auto.
      * intros p v Hp. destruct (B p v Hp) as (x & U & ->). destruct U as [(-> & ->) | U]; auto. apply used_none in U. rewrite U. auto.
    + intros (p & Hp & N). destruct (H1 p Hp) as (x & U). apply used_none in U. congruence.
  - split; [|auto]. intros R. exfalso. destruct H as [(p & Hp & N) | (p & v & Hp & N)].
    + apply N. destruct (d p) as [x|] eqn:Ed; [exists x; apply used_none; auto | exfalso; apply (R p); auto].
    + apply N. destruct (d p) as [x|] eqn:Ed; [right; exists x; apply used_none; auto | left; auto].
Qed.

(** * Sizes *)
Lemma sim_size_spec pupil over : 1 <= sim_pad pupil over /\ sim_size pupil over = pupil + 2 * sim_pad pupil over.
Proof. split; [unfold sim_pad; lia | reflexivity]. Qed.
Lemma sim_pad_near pupil over : 1 < sim_pad pupil over ->
  (qc_abs (qz (sim_pad pupil over) - qz pupil * (over - 1) / qz 2) <= qfrac 1 2)%Qc.
Proof.
  intros H. unfold sim_pad in *. set (y := (qz pupil * ((over - 1) / qz 2))%Qc) in *.
  assert (E : Z.max (qc_round y) 1 = qc_round y) by lia. rewrite E.
  assert (Ey : (qz pupil * (over - 1) / qz 2)%Qc = y).
  { unfold y. pose proof two_neq. rewrite q2. field. apply two_neq'. }
  rewrite Ey. destruct (qc_round_near y) as (A & B). unfold qc_abs. change (qfrac 1 2) with (Q2Qc (1 # 2)).
  destruct (Qclt_le_dec _ _); revert A B; generalize (Q2Qc (1 # 2)); intros; qclra.
Qed.
Lemma scrn_even pupil over diam hmax gs sci phys : (scrn_size pupil over diam hmax gs sci phys) mod 2 = 0.
Proof.
  unfold scrn_size. set (s := qc_ceil _ + _). destruct (Z.eqb_spec (s mod 2) 0), phys; rewrite ?Z.mod_mul by lia; auto; zlia.
Qed.

Lemma asec_pos : (0 < ASEC2RAD)%Qc.
Proof. vm_compute. reflexivity. Qed.
Lemma pxl_pos pupil diam : 0 < pupil -> (0 < diam)%Qc -> (0 < pxl_scale pupil diam)%Qc.
Proof.
  intros H1 H2. unfold pxl_scale. apply (proj2 (qz_lt 0 pupil)) in H1. rewrite qz_0 in H1.
  apply Qcnot_le_lt. intros C. assert (diam <> 0)%Qc by (intros ->; apply (Qclt_not_eq _ _ H2); reflexivity).
  assert (E : (qz pupil / diam * diam)%Qc = qz pupil) by (field; auto).
  assert (G : (qz pupil / diam * diam <= 0)%Qc) by (revert C H2; generalize (qz pupil / diam)%Qc; intros; qcnra).
  rewrite E in G. qclra.
Qed.
Lemma mul_nonneg (a b : Qc) : (0 <= a)%Qc -> (0 <= b)%Qc -> (0 <= a * b)%Qc.
Proof. intros. qcnra. Qed.
Ltac nonneg_prod :=
  let A := fresh in pose proof (Qclt_le_weak _ _ asec_pos) as A; revert A; generalize ASEC2RAD; intros;
  repeat (apply mul_nonneg); auto; try (apply Qclt_le_weak; assumption).
Lemma scrn_base pupil over diam hmax gs sci phys :
  0 < pupil -> (0 < diam)%Qc -> (0 <= hmax)%Qc ->
  (qz 2 * (pxl_scale pupil diam * hmax * qc_abs (max_pos diam gs sci) * ASEC2RAD) + qz (sim_size pupil over)
     <= qz (scrn_size pupil over diam hmax gs sci phys))%Qc.
Proof.
  intros Hp Hd Hh. unfold scrn_size.
  set (y := (qz 2 * pxl_scale pupil diam * hmax * qc_abs (max_pos diam gs sci) * ASEC2RAD)%Qc).
  assert (Y : (0 <= y)%Qc).
  { unfold y. pose proof (pxl_pos _ _ Hp Hd). pose proof asec_pos. pose proof (qc_abs_nonneg (max_pos diam gs sci)).
    assert (0 <= qz 2)%Qc by (apply (qz_le 0 2); lia).
    revert H H0 H1 H2. generalize (pxl_scale pupil diam), (qz 2), (qc_abs (max_pos diam gs sci)). intros; nonneg_prod. }
  replace (qz 2 * (pxl_scale pupil diam * hmax * qc_abs (max_pos diam gs sci) * ASEC2RAD))%Qc with y by (unfold y; ring).
  destruct (qc_ceil_spec y) as (C1 & C2). set (n := qc_ceil y) in *.
  assert (N : 0 <= n) by (apply (qz_le 0 n); rewrite qz_0; eapply Qcle_trans; eauto).
  pose proof (sim_size_spec pupil over) as (S1 & S2).
  assert (B : (y + qz (sim_size pupil over) <= qz (n + sim_size pupil over))%Qc) by (rewrite qz_add; revert C1; generalize (qz n); intros; qclra).
  eapply Qcle_trans; [exact B|]. apply (proj2 (qz_le _ _)).
  destruct (Z.eqb_spec ((n + sim_size pupil over) mod 2) 0), phys; lia.
Qed.
Lemma scrn_ge_sim pupil over diam hmax gs sci phys :
  0 < pupil -> (0 < diam)%Qc -> (0 <= hmax)%Qc -> sim_size pupil over <= scrn_size pupil over diam hmax gs sci phys.
Proof.
  intros Hp Hd Hh. apply (qz_le (sim_size pupil over)). eapply Qcle_trans; [|apply scrn_base; auto].
  assert (0 <= qz 2 * (pxl_scale pupil diam * hmax * qc_abs (max_pos diam gs sci) * ASEC2RAD))%Qc.
  { pose proof (pxl_pos _ _ Hp Hd). pose proof asec_pos. pose proof (qc_abs_nonneg (max_pos diam gs sci)).
    assert (0 <= qz 2)%Qc by (apply (qz_le 0 2); lia).
    revert H H0 H1 H2. generalize (pxl_scale pupil diam), (qz 2), (qc_abs (max_pos diam gs sci)). intros; nonneg_prod. }
  revert H. generalize (qz 2 * (pxl_scale pupil diam * hmax * qc_abs (max_pos diam gs sci) * ASEC2RAD))%Qc. intros. qclra.
Qed.
Lemma pxl_consistent pupil diam : (diam <> 0)%Qc -> (pxl_scale pupil diam * diam)%Qc = qz pupil.
Proof. intros H. unfold pxl_scale. field. auto. Qed.

Lemma list_max_ge : forall l a y, In y (a :: l) -> (y <= list_max a l)%Qc.
Proof.
  induction l as [|b l IH]; intros a y H; simpl.
  - destruct H as [-> | []]. apply Qcle_refl.
  - destruct H as [-> | H]; [apply qc_max_l|]. eapply Qcle_trans; [apply IH, H | apply qc_max_r].
Qed.
Lemma max_pos_ge diam gs sci y : In y (flat (map (gs_entry diam) gs ++ sci)) -> (0 <= y)%Qc -> (y <= qc_abs (max_pos diam gs sci))%Qc.
Proof.
  intros H Hy. unfold max_pos. destruct (flat _) as [|a l]; [destruct H|].
  pose proof (list_max_ge l a y H). destruct (qc_abs_ge (list_max a l)). eapply Qcle_trans; eauto.
Qed.
Lemma flat_in l p x : In p l -> coord x p -> In x (flat l).
Proof. intros H C. unfold flat. apply in_flat_map. exists p. split; auto. destruct C as [-> | ->]; simpl; auto. Qed.

(** displacement d <= D and screens of at least 2D + sim pixels *)
Lemma inside_of scrn sim scale c k D :
  (0 < scale)%Qc -> 0 <= sim -> (0 <= k)%Qc -> (k <= 1)%Qc -> (qc_abs (c * scale) <= D)%Qc -> (qz 2 * D + qz sim <= qz scrn)%Qc ->
  beam_inside scrn sim scale c k.
Proof.
  intros Hs Hsim Hk0 Hk1 HD HS. unfold beam_inside. cbv zeta.
  apply (proj2 (qz_le 0 sim)) in Hsim. rewrite qz_0 in Hsim.
  assert (NZ : scale <> 0%Qc) by (intros ->; apply (Qclt_not_eq _ _ Hs); reflexivity).
  assert (E : (k * (qz sim / scale) / qz 2 * scale = k * qz sim / qz 2)%Qc).
  { rewrite q2. field. split; auto. apply two_neq'. }
  destruct (qc_abs_ge (c * scale)) as (A1 & A2).
  replace ((c - k * (qz sim / scale) / qz 2) * scale)%Qc with (c * scale - k * (qz sim / scale) / qz 2 * scale)%Qc by ring.
  replace ((c + k * (qz sim / scale) / qz 2) * scale)%Qc with (c * scale + k * (qz sim / scale) / qz 2 * scale)%Qc by ring.
  rewrite E. set (u := (c * scale)%Qc) in *. set (a := qc_abs u) in *.
  set (S := qz sim) in *. set (T := qz scrn) in *.
  assert (H1 : (k * S <= S)%Qc) by (clearbody S; qcnra).
  set (v := (k * S)%Qc) in *. rewrite q2 in *.
  assert (Ev : exists w, w = (v / (1 + 1))%Qc /\ (w + w = v)%Qc) by (eexists; split; [reflexivity|]; field; apply two_neq').
  assert (Et : exists w, w = (T / (1 + 1))%Qc /\ (w + w = T)%Qc) by (eexists; split; [reflexivity|]; field; apply two_neq').
  destruct Ev as (w & <- & Ew). destruct Et as (t & <- & Et).
  clearbody a u v S T. split; qclra.
Qed.

Lemma scrn_covers pupil over diam hmax gs sci phys h x y k :
  0 < pupil -> (0 < diam)%Qc -> (0 <= h)%Qc -> (h <= hmax)%Qc -> (0 <= k)%Qc -> (k <= 1)%Qc ->
  In y (flat (map (gs_entry diam) gs ++ sci)) -> (qc_abs x <= y)%Qc ->
  beam_inside (scrn_size pupil over diam hmax gs sci phys) (sim_size pupil over) (pxl_scale pupil diam) (x * ASEC2RAD * h) k.
Proof.
  intros Hp Hd Hh0 Hh Hk0 Hk1 Hy Hx.
  assert (Y0 : (0 <= y)%Qc) by (eapply Qcle_trans; [apply qc_abs_nonneg | exact Hx]).
  pose proof (max_pos_ge _ _ _ _ Hy Y0) as M.
  assert (hm : (0 <= hmax)%Qc) by exact (Qcle_trans _ _ _ Hh0 Hh).
  pose proof (scrn_base pupil over diam hmax gs sci phys Hp Hd hm) as B.
  pose proof (pxl_pos _ _ Hp Hd) as P. pose proof asec_pos as A.
  eapply inside_of; [exact P | | exact Hk0 | exact Hk1 | | exact B].
  - pose proof (sim_size_spec pupil over). lia.
  - set (m := qc_abs (max_pos diam gs sci)) in *. set (s := pxl_scale pupil diam) in *.
    replace (x * ASEC2RAD * h * s)%Qc with (x * (ASEC2RAD * h * s))%Qc by ring.
    replace (s * hmax * m * ASEC2RAD)%Qc with (m * (ASEC2RAD * hmax * s))%Qc by ring.
    assert (F0 : (0 <= ASEC2RAD * h * s)%Qc) by (clearbody s; clear - A P Hh0; nonneg_prod).
    assert (F1 : (ASEC2RAD * h * s <= ASEC2RAD * hmax * s)%Qc).
    { apply Qcmult_le_compat_r; [|apply Qclt_le_weak; auto]. rewrite !(Qcmult_comm ASEC2RAD). apply Qcmult_le_compat_r; auto. apply Qclt_le_weak; auto. }
    assert (X : (qc_abs x <= m)%Qc) by exact (Qcle_trans _ _ _ Hx M).
    destruct (qc_abs_ge x) as (X1 & X2). pose proof (qc_abs_nonneg x) as X0.
    set (f := (ASEC2RAD * h * s)%Qc) in *. set (g := (ASEC2RAD * hmax * s)%Qc) in *. set (ax := qc_abs x) in *.
    clearbody f g m ax. unfold qc_abs. destruct (Qclt_le_dec _ _); qcnra.
Qed.

Lemma beam_escapes scrn sim scale c :
  (0 < scale)%Qc -> scrn <= sim + 1 -> (1 < qz 2 * qc_abs (c * scale))%Qc -> ~ beam_inside scrn sim scale c 1.
Proof.
  intros Hs Hsim Hc (A & B).
  assert (NZ : scale <> 0%Qc) by (intros ->; apply (Qclt_not_eq _ _ Hs); reflexivity).
  assert (E : (1 * (qz sim / scale) / qz 2 * scale = qz sim / qz 2)%Qc) by (rewrite q2; field; split; auto; apply two_neq').
  replace ((c - 1 * (qz sim / scale) / qz 2) * scale)%Qc with (c * scale - 1 * (qz sim / scale) / qz 2 * scale)%Qc in A by ring.
  replace ((c + 1 * (qz sim / scale) / qz 2) * scale)%Qc with (c * scale + 1 * (qz sim / scale) / qz 2 * scale)%Qc in B by ring.
  rewrite E in A, B. apply (proj2 (qz_le _ _)) in Hsim. rewrite qz_add, qz_1 in Hsim.
  set (u := (c * scale)%Qc) in *. set (S := qz sim) in *. set (T := qz scrn) in *. rewrite q2 in *.
  assert (Ev : exists w, w = (S / (1 + 1))%Qc /\ (w + w = S)%Qc) by (eexists; split; [reflexivity|]; field; apply two_neq').
  assert (Et : exists w, w = (T / (1 + 1))%Qc /\ (w + w = T)%Qc) by (eexists; split; [reflexivity|]; field; apply two_neq').
  destruct Ev as (w & Ew' & Ew). destruct Et as (t & Et' & Et). rewrite <- Ew', <- Et' in *. clear Ew' Et'.
  clearbody u S T. unfold qc_abs in Hc. destruct (Qclt_le_dec u 0); qclra.
Qed.

(** a single science target at (-a, 0) leaves the screens at the simulation size *)
Lemma science_escapes pupil over diam hmax a :
  0 < pupil -> (0 < diam)%Qc -> (0 < hmax)%Qc -> (0 < a)%Qc ->
  (1 < qz 2 * (a * ASEC2RAD * hmax * pxl_scale pupil diam))%Qc ->
  ~ beam_inside (scrn_size pupil over diam hmax [] [((- a)%Qc, 0%Qc)] false) (sim_size pupil over) (pxl_scale pupil diam) (- a * ASEC2RAD * hmax) 1.
Proof.
  intros Hp Hd Hh Ha H. pose proof (pxl_pos _ _ Hp Hd) as P. pose proof asec_pos as A.
  apply beam_escapes; auto.
  - unfold scrn_size, max_pos. cbn [map app flat flat_map fst snd list_max].
    assert (E : qc_max (- a) 0 = 0%Qc) by (unfold qc_max; destruct (Qclt_le_dec (- a) 0); auto; qclra).
    rewrite E. change (qc_abs 0) with 0%Qc.
    replace (qz 2 * pxl_scale pupil diam * hmax * 0 * ASEC2RAD)%Qc with 0%Qc by ring.
    change (qc_ceil 0) with 0. destruct (Z.eqb_spec ((0 + sim_size pupil over) mod 2) 0); lia.
  - replace (- a * ASEC2RAD * hmax * pxl_scale pupil diam)%Qc with (- (a * ASEC2RAD * hmax * pxl_scale pupil diam))%Qc by ring.
    rewrite qc_abs_opp. destruct (qc_abs_ge (a * ASEC2RAD * hmax * pxl_scale pupil diam)) as (G & _).
    rewrite q2 in *. revert H G. generalize (a * ASEC2RAD * hmax * pxl_scale pupil diam)%Qc. intros z. generalize (qc_abs z). intros. qclra.
Qed.

(** * Re-deriving *)
Lemma calc_wfs_idem t w : calc_wfs t (calc_wfs t w) = calc_wfs t w.
Proof.
  destruct w as [e n s]. unfold calc_wfs. cbn. f_equal.
  - destruct e as [e|]; [destruct (qc_eqb e 0) eqn:E|]; try (destruct (qc_eqb t 0); reflexivity). rewrite E. reflexivity.
  - destruct (n =? 1), s; reflexivity.
Qed.
Lemma calc_sci_full s : sci_full s -> calc_sci s = Ok s.
Proof.
  destruct s as [p f n]. intros (q & E1 & E2 & N). cbn in *. subst. unfold calc_sci. cbn.
  destruct (qc_eqb _ _) eqn:E; [|reflexivity]. do 3 f_equal. field. auto.
Qed.
Lemma calc_sci_fixed s s' : s_pxls s <> 0%Qc -> calc_sci s = Ok s' -> sci_full s' /\ s_pxls s' = s_pxls s.
Proof.
  destruct s as [p f n]. intros N H. unfold calc_sci in H. cbn in *.
  destruct p as [p|], f as [f|]; try discriminate.
  - destruct (qc_eqb (p * n) f) eqn:E; injection H as <-; cbn; (split; [|reflexivity]).
    + exists (f / n)%Qc. cbn. repeat split; auto. f_equal. field; auto.
    + exists p. cbn. auto.
  - injection H as <-. split; [|reflexivity]. exists p. cbn. auto.
  - injection H as <-. split; [|reflexivity]. exists (f / n)%Qc. cbn. repeat split; auto. f_equal. field; auto.
Qed.
Lemma calc_scis_full : forall l, Forall sci_full l -> calc_scis l = Ok l.
Proof.
  induction l as [|s l IH]; intros F; [reflexivity|]. inversion F; subst. simpl. rewrite calc_sci_full by auto. simpl. rewrite IH by auto. reflexivity.
Qed.
Lemma calc_scis_fixed : forall l l', Forall (fun s => s_pxls s <> 0%Qc) l -> calc_scis l = Ok l' -> Forall sci_full l'.
Proof.
  induction l as [|s l IH]; intros l' F H; simpl in H.
  - injection H as <-. constructor.
  - inversion F; subst. destruct (calc_sci s) as [s'|] eqn:E; [|discriminate]. simpl in H.
    destruct (calc_scis l) as [r'|] eqn:E'; [|discriminate]. injection H as <-. constructor; [eapply calc_sci_fixed; eauto | eauto].
Qed.
Lemma calc_full c : fully_given c -> calc_params c = Ok c.
Proof.
  intros (H1 & H2 & H3 & H4). unfold calc_params. rewrite calc_scis_full by auto. simpl. f_equal. destruct c as [t D n L ws ds ss]. cbn in *. f_equal.
  - destruct L; congruence.
  - clear - H2. induction H2 as [|[e m s] l ((e' & E1 & E2) & E3) _ IH]; [reflexivity|]. cbn in *. rewrite IH. f_equal. unfold calc_wfs. cbn. subst.
    destruct (qc_eqb e' 0) eqn:E; [exfalso; apply E2; now apply qc_eqb_true|]. f_equal.
    destruct (Z.eqb_spec m 1); [rewrite (E3 e)|]; [reflexivity|]. reflexivity.
  - clear - H3. induction H3 as [|d l Hd _ IH]; [reflexivity|]. cbn. rewrite IH. destruct d; congruence.
Qed.
Lemma calc_idem c c' : Forall (fun s => s_pxls s <> 0%Qc) (c_scis c) -> calc_params c = Ok c' -> calc_params c' = Ok c'.
Proof.
  intros N H. unfold calc_params in H. destruct (calc_scis (c_scis c)) as [sc|] eqn:E; [|discriminate]. simpl in H. injection H as <-.
  unfold calc_params. cbn [c_loop c_diam c_scrns c_L0 c_wfss c_dms c_scis].
  rewrite calc_scis_full by (eapply calc_scis_fixed; eauto). simpl. f_equal. f_equal.
  - destruct (c_L0 c); reflexivity.
  - rewrite map_map. apply map_ext. intros. apply calc_wfs_idem.
  - rewrite map_map. apply map_ext. intros [d|]; reflexivity.
Qed.

(** * Python files: entry N of every parameter *)
Lemma entry_iff v n x : subscript v n = Ok x <-> has_entry v n x.
Proof.
  unfold has_entry, subscript. destruct v as [|b|q|s|l]; split; intros H; try discriminate;
    try (destruct H as [(l' & E & _) | (s' & c & E & _)]; discriminate).
  - right. destruct (String.get n s) eqn:E; [|discriminate]. injection H as <-. eauto.
  - destruct H as [(l' & E & _) | (s' & c & E & G & ->)]; [discriminate|]. injection E as <-. rewrite G. reflexivity.
  - left. destruct (nth_error l n) eqn:E; [|discriminate]. injection H as <-. eauto.
  - destruct H as [(l' & E & G) | (s' & c & E & _)]; [|discriminate]. injection E as <-. rewrite G. reflexivity.
Qed.
Lemma load_python k n d : In k all_cls ->
  ((forall p, In p (required k) -> exists v x, d p = Some v /\ has_entry v n x) ->
   (forall p v w, In (p, w) (optional k) -> d p = Some v -> exists x, has_entry v n x) ->
   exists o, load_params k (Some n) d = Ok o /\
     (forall p v, d p = Some v -> In p (required k) \/ In p (map fst (optional k)) -> exists x, o p = Some x /\ has_entry v n x) /\
     (forall p w, In (p, w) (optional k) -> d p = None -> o p = Some w)) /\
  ((exists p, In p (required k) /\ d p = None) \/
   (exists p v, (In p (required k) \/ In p (map fst (optional k))) /\ d p = Some v /\ forall x, ~ has_entry v n x) ->
   load_params k (Some n) d = Err ConfigurationError).
Proof.
  intros Hk. destruct (load_params_spec k (Some n) d (in_all k Hk)) as [(H1 & H2 & o & E & A & B & C) | (H & E)].
  - split.
    + intros _ _. exists o. split; auto. split.
      * intros p v Ev [Hp | Hp].
        -- destruct (A p Hp) as (x & (v' & E1 & E2) & ->). exists x. split; auto. apply entry_iff. cbn in E2. congruence.
        -- apply in_map_iff in Hp as ((q & w) & Eq & Hp). cbn in Eq. subst.
           destruct (B p w Hp) as (x & [(E1 & _) | (v' & E1 & E2)] & ->); [congruence|]. exists x. split; auto. apply entry_iff. cbn in E2. congruence.
      * intros p w Hp Ed. destruct (B p w Hp) as (x & [(_ & ->) | (v' & E1 & _)] & ->); [reflexivity | congruence].
    + intros [(p & Hp & N) | (p & v & Hp & Ev & Es)]; exfalso.
      * destruct (H1 p Hp) as (x & v & E1 & _). congruence.
      * destruct Hp as [Hp | Hp].
        -- destruct (H1 p Hp) as (x & v' & E1 & E2). cbn in E2. apply (Es x), entry_iff. congruence.
        -- apply in_map_iff in Hp as ((q & w) & Eq & Hp). cbn in Eq. subst.
           destruct (H2 p w Hp) as [E1 | (x & v' & E1 & E2)]; [congruence|]. cbn in E2. apply (Es x), entry_iff. congruence.
  - split; [|auto]. intros R1 R2. exfalso. destruct H as [(p & Hp & N) | (p & v & Hp & N)].
    + apply N. destruct (R1 p Hp) as (w & x & E1 & E2). apply entry_iff in E2. exists x, w. auto.
    + apply N. unfold opt_ok. destruct (d p) as [w|] eqn:Ed; [|auto]. right. destruct (R2 p w v Hp Ed) as (x & Ex). apply entry_iff in Ex. exists x, w. auto.
Qed.

(** * Documented defaults *)
Lemma doc_in_all t k r o : In (t, (k, (r, o))) doc_tables -> In k all_cls.
Proof.
  intros H. unfold doc_tables in H. unfold all_cls.
  repeat (destruct H as [H | H]; [injection H as <- <- <- <-; simpl; tauto|]). destruct H.
Qed.
Lemma load_default k d o p v : In k all_cls -> load_params k None d = Ok o -> In (p, v) (optional k) -> d p = None -> o p = Some v.
Proof.
  intros Hk E Hp Hd. destruct (load_yaml k d Hk) as (A & B).
  assert (R : forall q, In q (required k) -> d q <> None).
  { intros q Hq C. assert (F : exists q, In q (required k) /\ d q = None) by eauto. rewrite (B F) in E. discriminate. }
  destruct (A R) as (o' & E' & _ & G & _). rewrite E in E'. injection E' as <-. rewrite (G p v Hp), Hd. reflexivity.
Qed.
Definition lookup (p : string) (l : list (string * val)) : option val := option_map snd (find (fun z => String.eqb p (fst z)) l).
Lemma lookup_in p l v : lookup p l = Some v -> In (p, v) l.
Proof.
  unfold lookup. destruct (find _ l) as [[q w]|] eqn:E; [|discriminate]. cbn. intros H. injection H as ->.
  apply find_some in E as (I & Q). apply String.eqb_eq in Q. cbn in Q. subst. exact I.
Qed.
Lemma doc_defaults t k r o : In (t, (k, (r, o))) doc_tables -> forall p v, In (p, v) o ->
  (~ In (t, p) wrong_defaults -> lookup p (optional k) = Some v) /\ (In (t, p) wrong_defaults -> exists w, lookup p (optional k) = Some w /\ w <> v).
Proof.
  intros H p v Hp. unfold doc_tables in H.
  assert (W : forall q, In q wrong_defaults <-> existsb (fun z => String.eqb (fst q) (fst z) && String.eqb (snd q) (snd z)) wrong_defaults = true).
  { intros [a b]. rewrite existsb_exists. split.
    - intros I. exists (a, b). rewrite !String.eqb_refl. auto.
    - intros ((c & e) & I & E). cbn in E. apply andb_true_iff in E as (E1 & E2). apply String.eqb_eq in E1, E2. subst. auto. }
  rewrite W.
  repeat (destruct H as [H | H];
    [injection H as <- <- <- <-;
     repeat (destruct Hp as [Hp | Hp];
       [injection Hp as <- <-; split; intros G;
        [first [reflexivity | exfalso; apply G; reflexivity]
        | first [discriminate G | eexists; split; [reflexivity|]; first [discriminate | intros C; injection C; clear; qc_neq | idtac]]]
       |]); destruct Hp |]).
  destruct H.
Qed.
Lemma doc_required t k r o : In (t, (k, (r, o))) doc_tables -> forall p, In p r ->
  (~ In (t, p) not_required -> In p (required k)) /\ (In (t, p) not_required -> ~ In p (required k)).
Proof.
  intros H p Hp. unfold doc_tables in H.
  assert (W : forall q, In q not_required <-> existsb (fun z => String.eqb (fst q) (fst z) && String.eqb (snd q) (snd z)) not_required = true).
  { intros [a b]. rewrite existsb_exists. split.
    - intros I. exists (a, b). rewrite !String.eqb_refl. auto.
    - intros ((c & e) & I & E). cbn in E. apply andb_true_iff in E as (E1 & E2). apply String.eqb_eq in E1, E2. subst. auto. }
  rewrite W.
  assert (I : forall q l, existsb (String.eqb q) l = true -> In q l).
  { intros q l E. apply existsb_exists in E as (x & Hx & E). apply String.eqb_eq in E. subst. auto. }
  assert (J : forall q l, existsb (String.eqb q) l = false -> ~ In q l).
  { intros q l E C. assert (existsb (String.eqb q) l = true) by (apply existsb_exists; exists q; split; auto; apply String.eqb_refl). congruence. }
  repeat (destruct H as [H | H];
    [injection H as <- <- <- <-;
     repeat (destruct Hp as [Hp | Hp];
       [subst p; split; intros G;
        [first [apply I; reflexivity | exfalso; apply G; reflexivity] | first [discriminate G | apply J; reflexivity]]
       |]); destruct Hp |]).
  destruct H.
Qed.
Lemma load_without k p : In k all_cls -> ~ In p (required k) -> exists d o, d p = None /\ load_params k None d = Ok o.
Proof.
  intros Hk Hp. set (d := fun q => if in_dec string_dec q (required k) then Some VNone else None).
  destruct (load_yaml k d Hk) as (A & _). destruct A as (o & E & _).
  { intros q Hq. unfold d. destruct (in_dec _ _ _); [discriminate | contradiction]. }
  exists d, o. split; auto. unfold d. destruct (in_dec _ _ _); [contradiction | reflexivity].
Qed.

Lemma calc_ok c c' : calc_params c = Ok c' ->
  c_loop c' = c_loop c /\ c_diam c' = c_diam c /\ c_scrns c' = c_scrns c /\
  c_L0 c' = match c_L0 c with None => Some (repeat (qz 10000000000) (c_scrns c)) | l => l end /\
  c_wfss c' = map (calc_wfs (c_loop c)) (c_wfss c) /\ c_dms c' = map (fun d => match d with None => Some (c_diam c) | _ => d end) (c_dms c).
Proof.
  unfold calc_params. destruct (calc_scis _); [|discriminate]. simpl. intros H. injection H as <-. cbn. repeat split; reflexivity.
Qed.
Lemma exposure_stale (c c' c2 c3 : cfg) (w : wcfg) (t : Qc) : In w (c_wfss c) -> w_exposure w = None -> c_loop c <> 0%Qc -> t <> c_loop c ->
  calc_params c = Ok c' -> calc_params (set_loop t c') = Ok c2 -> calc_params (set_loop t c) = Ok c3 -> c_wfss c2 <> c_wfss c3.
Proof.
  intros Hw Hn H0 Ht E E2 E3 C. apply calc_ok in E, E2, E3. destruct E as (_ & _ & _ & _ & E & _).
  destruct E2 as (_ & _ & _ & _ & E2 & _). destruct E3 as (_ & _ & _ & _ & E3 & _). cbn in E2, E3. rewrite E in E2.
  rewrite E2, E3 in C. rewrite map_map in C.
  assert (G : forall l, map (fun x => calc_wfs t (calc_wfs (c_loop c) x)) l = map (calc_wfs t) l ->
              forall x, In x l -> calc_wfs t (calc_wfs (c_loop c) x) = calc_wfs t x).
  { induction l as [|y l IH]; intros H x Hx; [destruct Hx|]. cbn [map] in H.
    assert (H1 := f_equal (hd (calc_wfs t y)) H). assert (H2 := f_equal (@tl _) H). cbn [hd tl] in H1, H2.
    destruct Hx as [<- | Hx]; auto. }
  specialize (G _ C w Hw). apply (f_equal w_exposure) in G. unfold calc_wfs in G. cbn in G. rewrite Hn in G.
  destruct (qc_eqb (c_loop c) 0) eqn:Z; [apply qc_eqb_true in Z; contradiction|]. congruence.
Qed.
Lemma diameter_stale (c c' c2 c3 : cfg) (D : Qc) : In None (c_dms c) -> D <> c_diam c ->
  calc_params c = Ok c' -> calc_params (set_diam D c') = Ok c2 -> calc_params (set_diam D c) = Ok c3 -> c_dms c2 <> c_dms c3.
Proof.
  intros Hw Ht E E2 E3 C. apply calc_ok in E, E2, E3. destruct E as (_ & _ & _ & _ & _ & E).
  destruct E2 as (_ & _ & _ & _ & _ & E2). destruct E3 as (_ & _ & _ & _ & _ & E3). cbn in E2, E3. rewrite E in E2.
  rewrite E2, E3 in C. rewrite map_map in C. clear E E2 E3. revert Hw C. induction (c_dms c) as [|d l IH]; intros Hw C; [destruct Hw|].
  destruct Hw as [-> | Hw]; cbn in C.
  - apply Ht. assert (H1 := f_equal (hd None) C). cbn in H1. congruence.
  - apply IH; auto. exact (f_equal (@tl _) C).
Qed.
Lemma layers_stale (c c' c2 c3 : cfg) (n : nat) : c_L0 c = None -> n <> c_scrns c ->
  calc_params c = Ok c' -> calc_params (set_scrns n c') = Ok c2 -> calc_params (set_scrns n c) = Ok c3 -> c_L0 c2 <> c_L0 c3.
Proof.
  intros HL Hn E E2 E3 C. apply calc_ok in E, E2, E3. destruct E as (_ & _ & _ & E & _).
  destruct E2 as (_ & _ & _ & E2 & _). destruct E3 as (_ & _ & _ & E3 & _). cbn in E2, E3. rewrite HL in *. rewrite E in E2.
  rewrite E2, E3 in C. injection C as C. apply (f_equal (@length Qc)) in C. rewrite !repeat_length in C. congruence.
Qed.
Lemma fov_undone (s s' : scfg) (f g : Qc) : s_pxls s <> 0%Qc -> s_scale s = None -> s_fov s = Some f -> g <> f -> calc_sci s = Ok s' ->
  calc_sci (set_fov g s') = Ok s'.
Proof.
  destruct s as [p f0 n]. cbn. intros N -> -> Hg H. unfold calc_sci in H. cbn in H. injection H as <-.
  unfold calc_sci, set_fov. cbn. assert (E : (f / n * n = f)%Qc) by (field; auto). rewrite E.
  destruct (qc_eqb f g) eqn:Q; [apply qc_eqb_true in Q; congruence|]. reflexivity.
Qed.

(** ** Screens are not larger than needed *)
Lemma list_max_in : forall l a, In (list_max a l) (a :: l).
Proof.
  induction l as [|b l IH]; intro a; [left; reflexivity|]. cbn [list_max]. unfold qc_max.
  destruct (Qclt_le_dec _ _); [right; apply IH|left; reflexivity].
Qed.
Lemma max_pos_small diam gs sci m : (0 <= m)%Qc ->
  (forall p e, In (p, e) gs -> e = None /\ (qc_abs (fst p) <= m)%Qc /\ (qc_abs (snd p) <= m)%Qc) ->
  (forall p, In p sci -> (qc_abs (fst p) <= m)%Qc /\ (qc_abs (snd p) <= m)%Qc) -> (qc_abs (max_pos diam gs sci) <= m)%Qc.
Proof.
  intros Hm Hg Hs.
  assert (F : forall x, In x (flat (map (gs_entry diam) gs ++ sci)) -> (qc_abs x <= m)%Qc).
  { intros x X. unfold flat in X. apply in_flat_map in X as (p & P & X). apply in_app_or in P as [P|P].
    - apply in_map_iff in P as ([[a b] e] & E & P). destruct (Hg _ _ P) as (-> & A & B). cbn in E. subst p. cbn in X, A, B.
      assert (AA : forall q, qc_abs (qc_abs q) = qc_abs q) by (intro q; apply qc_abs_pos, qc_abs_nonneg).
      destruct X as [<-|[<-|[]]]; rewrite AA; auto.
    - destruct (Hs _ P) as (A & B). destruct X as [<-|[<-|[]]]; auto. }
  unfold max_pos. destruct (flat _) as [|a l]; [|apply F; apply list_max_in].
  rewrite qc_abs_pos; [exact Hm|apply Qcle_refl].
Qed.

Lemma scrn_upper pupil over diam hmax gs sci (phys : bool) m : 0 < pupil -> (0 < diam)%Qc -> (0 <= hmax)%Qc -> (qc_abs (max_pos diam gs sci) <= m)%Qc ->
  (qz (scrn_size pupil over diam hmax gs sci phys) <=
   (if phys then qz 2 else 1) * (qz (sim_size pupil over) + qz 2 * (m * ASEC2RAD * hmax * pxl_scale pupil diam) + qz 2))%Qc.
Proof.
  intros Hp Hd Hh M. unfold scrn_size.
  set (a := qc_abs (max_pos diam gs sci)) in *. set (y := (qz 2 * pxl_scale pupil diam * hmax * a * ASEC2RAD)%Qc).
  assert (Y : (y <= qz 2 * (m * ASEC2RAD * hmax * pxl_scale pupil diam))%Qc).
  { assert (K : (0 <= qz 2 * pxl_scale pupil diam * hmax * ASEC2RAD)%Qc).
    { pose proof (pxl_pos _ _ Hp Hd). pose proof asec_pos. assert (0 <= qz 2)%Qc by (apply (qz_le 0 2); lia).
      revert H H0 H1. generalize (pxl_scale pupil diam), (qz 2). intros; nonneg_prod. }
    unfold y. replace (qz 2 * pxl_scale pupil diam * hmax * a * ASEC2RAD)%Qc with (a * (qz 2 * pxl_scale pupil diam * hmax * ASEC2RAD))%Qc by ring.
    replace (qz 2 * (m * ASEC2RAD * hmax * pxl_scale pupil diam))%Qc with (m * (qz 2 * pxl_scale pupil diam * hmax * ASEC2RAD))%Qc by ring.
    apply Qcmult_le_compat_r; auto. }
  destruct (qc_ceil_spec y) as (_ & C2). set (n := qc_ceil y) in *.
  set (need := (qz (sim_size pupil over) + _ + _)%Qc).
  assert (B : (qz (if (n + sim_size pupil over) mod 2 =? 0 then n + sim_size pupil over else n + sim_size pupil over + 1) <= need)%Qc).
  { apply Qcle_trans with (qz (n + sim_size pupil over + 1)).
    - destruct (_ =? _); apply qz_le; lia.
    - unfold need. clear need. revert Y C2. generalize (qz 2 * (m * ASEC2RAD * hmax * pxl_scale pupil diam))%Qc. intros w Y C2. rewrite !qz_add. change (qz 1) with 1%Qc. change (qz 2) with (1 + 1)%Qc. qclra. }
  destruct phys; [|qclra]. rewrite qz_mul, (Qcmult_comm (qz 2)). apply Qcmult_le_compat_r; auto. apply (qz_le 0 2). lia.
Qed.
Lemma scrn_no_larger pupil over diam hmax gs sci (phys : bool) m : 0 < pupil -> (0 < diam)%Qc -> (0 <= hmax)%Qc -> (0 <= m)%Qc ->
  (forall p e, In (p, e) gs -> e = None /\ (qc_abs (fst p) <= m)%Qc /\ (qc_abs (snd p) <= m)%Qc) ->
  (forall p, In p sci -> (qc_abs (fst p) <= m)%Qc /\ (qc_abs (snd p) <= m)%Qc) ->
  (qz (scrn_size pupil over diam hmax gs sci phys) <=
   (if phys then qz 2 else 1) * (qz (sim_size pupil over) + qz 2 * (m * ASEC2RAD * hmax * pxl_scale pupil diam) + qz 2))%Qc.
Proof. intros Hp Hd Hh Hm Hg Hs. apply scrn_upper; auto. apply max_pos_small; auto. Qed.

(** ** Elongated guide stars *)
Lemma beam_escapes_far scrn sim scale c :
  (0 < scale)%Qc -> (qz scrn < qz sim + qz 2 * qc_abs (c * scale))%Qc -> ~ beam_inside scrn sim scale c 1.
Proof.
  intros Hs Hc (A & B).
  assert (NZ : scale <> 0%Qc) by (intros ->; apply (Qclt_not_eq _ _ Hs); reflexivity).
  assert (E : (1 * (qz sim / scale) / qz 2 * scale = qz sim / qz 2)%Qc) by (rewrite q2; field; split; auto; apply two_neq').
  replace ((c - 1 * (qz sim / scale) / qz 2) * scale)%Qc with (c * scale - 1 * (qz sim / scale) / qz 2 * scale)%Qc in A by ring.
  replace ((c + 1 * (qz sim / scale) / qz 2) * scale)%Qc with (c * scale + 1 * (qz sim / scale) / qz 2 * scale)%Qc in B by ring.
  rewrite E in A, B.
  set (u := (c * scale)%Qc) in *. set (S := qz sim) in *. set (T := qz scrn) in *. rewrite q2 in *.
  assert (Ev : exists w, w = (S / (1 + 1))%Qc /\ (w + w = S)%Qc) by (eexists; split; [reflexivity|]; field; apply two_neq').
  assert (Et : exists w, w = (T / (1 + 1))%Qc /\ (w + w = T)%Qc) by (eexists; split; [reflexivity|]; field; apply two_neq').
  destruct Ev as (w & Ew' & Ew). destruct Et as (t & Et' & Et). rewrite <- Ew', <- Et' in *. clear Ew' Et'.
  clearbody u S T. unfold qc_abs in Hc. destruct (Qclt_le_dec u 0); qclra.
Qed.
Lemma elong_shift_central diam e x y : el_launch e = 0%Qc -> elong_shift diam e x y = qc_max x y.
Proof.
  intro E. unfold elong_shift. rewrite E. cbv zeta.
  assert (Z : forall dh k, (qc_max x y - dh * (0 * diam / qz 2) / k * RAD2ASEC = qc_max x y)%Qc) by (intros dh k; unfold Qcdiv; ring).
  rewrite !Z. unfold qc_max at 1. destruct (Qclt_le_dec _ _); reflexivity.
Qed.
Lemma elongated_escapes pupil over diam hmax a b e : 0 < pupil -> (0 < diam)%Qc -> (0 < hmax)%Qc ->
  el_depth e <> 0%Qc -> el_launch e = 0%Qc ->
  (1 < b * ASEC2RAD * hmax * pxl_scale pupil diam)%Qc -> (1 < (a - qz 2 * b) * ASEC2RAD * hmax * pxl_scale pupil diam)%Qc ->
  ~ beam_inside (scrn_size pupil over diam hmax [(((- a)%Qc, b), Some e)] [] false) (sim_size pupil over) (pxl_scale pupil diam) (- a * ASEC2RAD * hmax) 1.
Proof.
  intros Hp Hd Hh De La Hb Ha. pose proof (pxl_pos _ _ Hp Hd) as P. pose proof asec_pos as A.
  set (K := (ASEC2RAD * hmax * pxl_scale pupil diam)%Qc).
  assert (MP : forall u v : Qc, (0 < u)%Qc -> (0 < v)%Qc -> (0 < u * v)%Qc) by (intros; qcnra).
  assert (K0 : (0 < K)%Qc) by (unfold K; apply MP; [apply MP|]; auto).
  replace (b * ASEC2RAD * hmax * pxl_scale pupil diam)%Qc with (b * K)%Qc in Hb by (unfold K; ring).
  replace ((a - qz 2 * b) * ASEC2RAD * hmax * pxl_scale pupil diam)%Qc with ((a - qz 2 * b) * K)%Qc in Ha by (unfold K; ring).
  rewrite q2 in Ha. assert (B0 : (0 < b)%Qc) by (clearbody K; qcnra). assert (A0 : (b + b < a)%Qc) by (clearbody K; qcnra).
  assert (M : exists m, (qc_abs (max_pos diam [(((- a)%Qc, b), Some e)] []) <= m)%Qc /\ (1 < (a - m) * K)%Qc).
  { exists (qc_max (a - b) (b + b)). split.
    - unfold max_pos. cbn [map gs_entry app flat flat_map fst snd list_max]. replace (qc_eqb (el_depth e) 0) with false.
      2: { symmetry. destruct (qc_eqb (el_depth e) 0) eqn:Q; auto. apply qc_eqb_true in Q. contradiction. }
      rewrite elong_shift_central by auto. cbn [flat flat_map app fst snd list_max].
      assert (X : qc_max (- a) b = b) by (unfold qc_max; destruct (Qclt_le_dec _ _); auto; qclra). rewrite X.
      unfold qc_max, qc_abs; repeat destruct (Qclt_le_dec _ _); qclra.
    - unfold qc_max. destruct (Qclt_le_dec _ _); clearbody K; qclra. }
  destruct M as (m & M1 & M2). apply beam_escapes_far; auto.
  pose proof (scrn_upper pupil over diam hmax _ [] false m Hp Hd (Qclt_le_weak _ _ Hh) M1) as U. cbv iota in U.
  replace (m * ASEC2RAD * hmax * pxl_scale pupil diam)%Qc with (m * K)%Qc in U by (unfold K; ring).
  replace (- a * ASEC2RAD * hmax * pxl_scale pupil diam)%Qc with (- (a * K))%Qc by (unfold K; ring). rewrite qc_abs_opp, q2 in *.
  destruct (qc_abs_ge (a * K)) as (G & _). clearbody K. qclra.
Qed.
Lemma qmul_lt_pos (a b : Qc) : (0 < a)%Qc -> (0 < b)%Qc -> (0 < a * b)%Qc.
Proof. intros. qcnra. Qed.
Lemma qneq0 (a : Qc) : (0 < a)%Qc -> a <> 0%Qc.
Proof. intros H E. subst a. apply (Qclt_not_eq _ _ H). reflexivity. Qed.
Lemma rad2asec_pos : (0 < RAD2ASEC)%Qc.
Proof. vm_compute. reflexivity. Qed.
(** dh * v / (H (H + dh)) is largest, in size, at the bottom of the sodium layer *)
Lemma elong_ratio (H D dh v m : Qc) : (0 <= D)%Qc -> (D < H)%Qc -> (qc_abs dh <= D)%Qc -> (qc_abs v <= m)%Qc ->
  (qc_abs (dh * v / (H * (H + dh))) <= D * m / (H * (H - D)))%Qc.
Proof.
  intros D0 DH Hd Hv. destruct (qc_abs_ge dh) as (d1 & d2). destruct (qc_abs_ge v) as (v1 & v2). pose proof (qc_abs_nonneg dh). pose proof (qc_abs_nonneg v).
  assert (P : (0 < H)%Qc) by qclra. assert (P1 : (0 < H + dh)%Qc) by qclra. assert (P2 : (0 < H - D)%Qc) by qclra.
  set (p := (dh * v / (H * (H + dh)))%Qc). set (q := (D * m / (H * (H - D)))%Qc).
  assert (Ep : (p * (H + dh) * H = dh * v)%Qc) by (unfold p; field; split; apply qneq0; auto).
  assert (Eq : (q * (H - D) * H = D * m)%Qc) by (unfold q; field; split; apply qneq0; auto).
  assert (dv : (dh * v <= D * m /\ - (dh * v) <= D * m)%Qc) by (split; qcnra). destruct dv as (dv1 & dv2).
  clearbody p q. assert (Q0 : (0 <= q)%Qc).
  { destruct (Qclt_le_dec q 0) as [L|L]; auto. exfalso. assert (0 <= m)%Qc by qclra. assert (0 < (H - D) * H)%Qc by (apply qmul_lt_pos; auto).
    assert (q * (H - D) * H = q * ((H - D) * H))%Qc by ring. set (k := ((H - D) * H)%Qc) in *. clearbody k. assert (0 <= D * m)%Qc by qcnra. qcnra. }
  assert (G : (q * (H - D) <= q * (H + dh))%Qc) by qcnra.
  assert (K : forall s, (s * (H + dh) * H <= D * m)%Qc -> (s <= q)%Qc).
  { intros s Hs. destruct (Qclt_le_dec q s) as [L|L]; auto. exfalso. rewrite <- Eq in Hs. set (w := (H + dh)%Qc) in *. set (w' := (H - D)%Qc) in *. clearbody w w'.
    assert (X1 : (q * w < s * w)%Qc) by qcnra. assert (X2 : (q * w' < s * w)%Qc) by qclra. set (a := (q * w')%Qc) in *. set (b := (s * w)%Qc) in *. clearbody a b. qcnra. }
  unfold qc_abs. destruct (Qclt_le_dec p 0); apply K; [|qclra].
  replace (- p * (H + dh) * H)%Qc with (- (p * (H + dh) * H))%Qc by ring. rewrite Ep. exact dv2.
Qed.
Lemma elong_covers diam (e : elongation) x y dh v : (0 < diam)%Qc -> (0 < el_depth e)%Qc -> (el_depth e < qz 2 * el_height e)%Qc ->
  (qc_abs dh <= el_depth e / qz 2)%Qc -> (qc_abs v <= el_launch e * diam / qz 2)%Qc ->
  (qc_max x y + qc_abs (dh * v / (el_height e * (el_height e + dh)) * RAD2ASEC) <= elong_shift diam e x y)%Qc.
Proof.
  intros Hd De DH Hdh Hv. unfold elong_shift. cbv zeta. rewrite !q2 in *. pose proof rad2asec_pos as R.
  set (D := (el_depth e / (1 + 1))%Qc) in *. assert (E2 : (D + D = el_depth e)%Qc) by (unfold D; field; apply two_neq').
  assert (D0 : (0 <= D)%Qc) by (clearbody D; qclra). assert (D1 : (D < el_height e)%Qc) by (clearbody D; qclra).
  pose proof (elong_ratio (el_height e) D dh v _ D0 D1 Hdh Hv) as B.
  set (m := (el_launch e * diam / (1 + 1))%Qc) in *.
  eapply Qcle_trans; [|apply qc_max_l].
  replace (- el_depth e / (1 + 1))%Qc with (- D)%Qc by (unfold D; field; apply two_neq').
  replace (- D * m / (el_height e * (el_height e + - D)))%Qc with (- (D * m / (el_height e * (el_height e - D))))%Qc.
  2: { field. split; [apply qneq0; clearbody D; qclra|]. apply qneq0. clearbody D. qclra. }
  set (a := (dh * v / (el_height e * (el_height e + dh)))%Qc) in *. set (b := (D * m / (el_height e * (el_height e - D)))%Qc) in *.
  replace (qc_max x y - - b * RAD2ASEC)%Qc with (qc_max x y + b * RAD2ASEC)%Qc by ring.
  destruct (qc_abs_ge a) as (a1 & a2). clearbody a b. revert R. generalize RAD2ASEC. intros r R.
  unfold qc_abs at 1. destruct (Qclt_le_dec (a * r) 0); qcnra.
Qed.
Lemma elongated_covered pupil over diam hmax gs sci phys h x y e c dh v k :
  0 < pupil -> (0 < diam)%Qc -> (0 <= h)%Qc -> (h <= hmax)%Qc -> (0 <= k)%Qc -> (k <= 1)%Qc ->
  In ((x, y), Some e) gs -> (0 <= x)%Qc -> (0 <= y)%Qc -> coord c (x, y) ->
  (0 < el_depth e)%Qc -> (el_depth e < qz 2 * el_height e)%Qc ->
  (qc_abs dh <= el_depth e / qz 2)%Qc -> (qc_abs v <= el_launch e * diam / qz 2)%Qc ->
  beam_inside (scrn_size pupil over diam hmax gs sci phys) (sim_size pupil over) (pxl_scale pupil diam)
    ((c - dh * v / (el_height e * (el_height e + dh)) * RAD2ASEC) * ASEC2RAD * h) k.
Proof.
  intros Hp Hd H0 H1 K0 K1 I X Y C De DH Hdh Hv. pose proof (elong_covers diam e x y dh v Hd De DH Hdh Hv) as B.
  set (s := (dh * v / (el_height e * (el_height e + dh)) * RAD2ASEC)%Qc) in *. set (t := elong_shift diam e x y) in *.
  assert (M : (0 <= qc_max x y)%Qc) by (unfold qc_max; destruct (Qclt_le_dec _ _); auto).
  pose proof (qc_abs_nonneg s). destruct (qc_abs_ge s) as (s1 & s2).
  apply (scrn_covers pupil over diam hmax gs sci phys h (c - s)%Qc (qc_abs (c + t))%Qc k); auto.
  - apply (flat_in _ (qc_abs (x + t), qc_abs (y + t))%Qc).
    + apply in_or_app. left. apply in_map_iff. exists ((x, y), Some e). split; auto. cbn [gs_entry].
      replace (qc_eqb (el_depth e) 0) with false; [reflexivity|]. symmetry. destruct (qc_eqb (el_depth e) 0) eqn:Q; auto. apply qc_eqb_true in Q. rewrite Q in De. exfalso. apply (Qclt_not_eq _ _ De). reflexivity.
    + destruct C as [-> | ->]; [left|right]; reflexivity.
  - assert (C0 : (0 <= c)%Qc) by (destruct C as [-> | ->]; auto). clearbody s t. destruct (qc_abs_ge (c + t)) as (g & _). eapply Qcle_trans; [|exact g].
    unfold qc_abs at 1. destruct (Qclt_le_dec (c - s) 0); qclra.
Qed.

(** Every image is drawn where it belongs. *)
From Verif.Base Require Import Vec.
From Coq Require Import List Arith Bool Lia.
From Verif.Model Require Import GuiDraw.
From Verif.Spec Require Import GuiDrawSpec.
From Verif.Proofs Require Import GuiDrawProofs.
Import ListNotations.

Lemma entry {A} (h : A -> option img) l i im : nth_error (map h l) i = Some (Some im) <-> exists s, nth_error l i = Some s /\ h s = Some im.
Proof.
  split; [apply nth_map|]. intros (s & E & H). rewrite nth_error_map, E. cbn. rewrite H. reflexivity.
Qed.
Definition right_call (g : gui) (p : parts) (lv : Qc * Qc) (c : call) : Prop :=
  belongs (gu_exp g) p (c_kind c) (c_num c) (c_img c) /\ c_levels c = if wavefront (c_kind c) then Some lv else None.
Lemma collected p : (forall s, In s (pa_sensors p) -> se_detector s <> None) -> exists f, map Some f = map se_detector (pa_sensors p) /\
  collect p = Some (mkPlot f (map se_phase (pa_sensors p)) (map se_psf (pa_sensors p)) (pa_mirrors p) (map ca_long (pa_cameras p)) (map ca_inst (pa_cameras p)) (map ca_residual (pa_cameras p))).
Proof.
  intro HS. destruct (all_some_map (map se_detector (pa_sensors p))) as (f & EF & MF). { intros x I. apply in_map_iff in I. destruct I as (s & <- & I). exact (HS s I). }
  exists f. split; [exact MF|]. unfold collect. rewrite EF. reflexivity.
Qed.
Lemma belongs_lt e p k i im : belongs e p k i im -> match k with Detector | Phase | Beacon => (i < length (pa_sensors p))%nat | Mirror => (i < length (pa_mirrors p))%nat | _ => (i < length (pa_cameras p))%nat end.
Proof. destruct k; cbn [belongs]; intro B; try (destruct B as (s & B & _)); apply nth_error_Some; rewrite B; discriminate. Qed.

Lemma draw_ok g p : gu_any_none g = true -> matches g p -> (exists v, wavefront_value p v) ->
  exists d calls lo hi, collect p = Some d /\ draw g d = (calls, None) /\
    (forall k i im, belongs (gu_exp g) p k i im -> In (mkCall k i im (if wavefront k then Some (lo, hi) else None)) calls) /\
    (forall c, In c calls -> belongs (gu_exp g) p (c_kind c) (c_num c) (c_img c) /\ c_levels c = if wavefront (c_kind c) then Some (lo, hi) else None) /\
    (forall v, wavefront_value p v -> (lo <= v /\ v <= hi)%Qc) /\ wavefront_value p lo /\ wavefront_value p hi.
Proof.
  intros AN (N1 & N2 & N3 & HS & HC & HL & HE) [v0 V0]. destruct (collected p (fun s I => proj1 (HS s I))) as (f & MF & EC).
  match type of EC with _ = Some ?x => set (d := x) in * end.
  assert (FR : forall im, fronts g d im <-> exists e k i, wavefront k = true /\ belongs e p k i im).
  { intro im. split.
    - intros [i [[I F]|[[I F]|[I F]]]]; cbn [pd_phase pd_dm pd_res d] in F.
      + apply entry in F. exists (gu_exp g), Phase, i. split; [reflexivity|exact F].
      + exists (gu_exp g), Mirror, i. split; [reflexivity|exact F].
      + apply entry in F. exists (gu_exp g), Residual, i. split; [reflexivity|exact F].
    - intros (e & k & i & W & B). pose proof (belongs_lt _ _ _ _ _ B) as LT. exists i. destruct k; try discriminate W; cbn [belongs pd_phase pd_dm pd_res d] in *.
      + left. split; [lia|]. apply entry. exact B.
      + right; left. split; [lia|exact B].
      + right; right. split; [lia|]. apply entry. exact B. }
  destruct (scaling_ok g d AN) as (lo & hi & ES & SV & SL & SH).
  { intros i I. destruct (nth_lt (pa_sensors p) i ltac:(lia)) as [s E]. destruct (HS s (nth_error_In _ _ E)) as [_ P]. destruct (se_phase s) as [im|] eqn:Q; [|contradiction]. exists im. apply entry. exists s. auto. }
  { cbn. lia. } { cbn. rewrite map_length. lia. }
  { intro F. apply FR in F. destruct F as (e & k & i & _ & B). exact (HE e k i B). }
  { destruct V0 as (e & k & i & im & W & B & _). exists im. apply FR. exists e, k, i. auto. }
  exists d. unfold draw. rewrite ES. match goal with |- context [drawn ?l] => set (L := l) end.
  assert (PS : forall o, present g o = match o with Some _ => true | None => false end) by (intros [im|]; cbn; [reflexivity|rewrite AN; reflexivity]).
  assert (DP : forall k lv l i o, nth_error l i = Some o -> draw_present g k lv l i = inr match o with Some im => [mkCall k i im lv] | None => [] end).
  { intros k lv l i o E. unfold draw_present, draw_entry. rewrite E, PS. destruct o; reflexivity. }
  assert (XS : forall x, In x L -> exists c, x = inr c /\ forall cl, In cl c -> right_call g p (lo, hi) cl).
  { assert (K : forall x : perr + list call, (exists k i im lv, x = inr [mkCall k i im lv] /\ belongs (gu_exp g) p k i im /\ lv = if wavefront k then Some (lo, hi) else None) \/ x = inr [] ->
                 exists c, x = inr c /\ forall cl, In cl c -> right_call g p (lo, hi) cl).
    { intros x [(k & i & im & lv & -> & B & ->)| ->]; [|exists []; split; [reflexivity|intros cl []]]. eexists. split; [reflexivity|]. intros cl [<-|[]]. split; [exact B|reflexivity]. }
    intros x I. apply K. unfold L in I. rewrite !in_app_iff, !in_flat_map, in_map_iff in I. destruct I as [(i & I & J)|[(i & <- & I)|(i & I & J)]]; apply in_seq0 in I.
    - destruct (nth_lt (pa_sensors p) i ltac:(lia)) as [s E]. destruct (HS s (nth_error_In _ _ E)) as [P1 P2]. unfold draw_sensor in J. cbn [pd_focal pd_phase pd_lgs d] in J. rewrite MF in J.
      destruct J as [<-|[<-|[<-|[]]]].
      + destruct (se_detector s) as [im|] eqn:Q; [|contradiction]. left. exists Detector, i, im, None. unfold draw_entry. rewrite nth_error_map, E. cbn. rewrite Q. repeat split. exists s. auto.
      + destruct (se_phase s) as [im|] eqn:Q; [|contradiction]. left. assert (Z : nth_error (map se_phase (pa_sensors p)) i = Some (Some im)) by (apply entry; exists s; auto).
        exists Phase, i, im, (Some (lo, hi)). rewrite Z, (DP _ _ _ _ _ Z). repeat split. exists s. auto.
      + rewrite nth_error_map, E. cbn [option_map]. rewrite PS. destruct (se_psf s) as [im|] eqn:Q; [|right; reflexivity]. left. rewrite (HL i s E) by (rewrite Q; discriminate). unfold draw_entry. rewrite nth_error_map, E. cbn. rewrite Q.
        exists Beacon, i, im, None. repeat split. exists s. auto.
    - destruct (nth_lt (pa_mirrors p) i ltac:(lia)) as [o E]. cbn [pd_dm d]. rewrite (DP _ _ _ _ _ E). destruct o as [im|]; [|right; reflexivity]. left. exists Mirror, i, im, (Some (lo, hi)). repeat split. exact E.
    - destruct (nth_lt (pa_cameras p) i ltac:(lia)) as [s E]. destruct (HC s (nth_error_In _ _ E)) as [P1 P2]. unfold draw_camera in J. cbn [pd_sci pd_inst pd_res d] in J. destruct J as [<-|[<-|[]]].
      + rewrite nth_error_map, E. cbn [option_map]. rewrite PS. destruct (ca_long s) as [im|] eqn:Q; [|contradiction]. destruct (ca_inst s) as [im'|] eqn:Q'; [|contradiction]. unfold draw_entry. rewrite !nth_error_map, E. cbn [option_map].
        rewrite Q, Q'. destruct (gu_exp g) eqn:GE; [left|left|right; reflexivity]; [exists Science, i, im', None|exists Science, i, im, None]; repeat split; exists s; (split; [exact E|]); rewrite ?GE; assumption.
      + assert (Z : nth_error (map ca_residual (pa_cameras p)) i = Some (ca_residual s)) by (rewrite nth_error_map, E; reflexivity). rewrite (DP _ _ _ _ _ Z). destruct (ca_residual s) as [im|] eqn:Q; [|right; reflexivity].
        left. exists Residual, i, im, (Some (lo, hi)). repeat split. exists s. auto. }
  destruct (drawn_ok L) as (cs & ED & ID). { intros x I. destruct (XS x I) as (c & -> & _). exists c. reflexivity. }
  exists cs, lo, hi. split; [exact EC|]. split; [exact ED|]. split; [|split; [|split; [|split]]].
  - intros k i im B. apply ID. exists [mkCall k i im (if wavefront k then Some (lo, hi) else None)]. split; [|left; reflexivity]. pose proof (belongs_lt _ _ _ _ _ B) as LT.
    unfold L. rewrite !in_app_iff, !in_flat_map, in_map_iff. destruct k; cbn [belongs wavefront] in *.
    + left. exists i. split; [apply in_seq0; lia|]. left. unfold draw_entry. cbn [pd_focal d]. rewrite MF. apply entry in B. rewrite B. reflexivity.
    + left. exists i. split; [apply in_seq0; lia|]. right; left. cbn [pd_phase d]. apply entry in B. rewrite B. exact (DP Phase (Some (lo, hi)) _ _ _ B).
    + left. exists i. split; [apply in_seq0; lia|]. right; right; left. cbn [pd_lgs d]. destruct B as (s & E & Q). rewrite nth_error_map, E. cbn [option_map]. rewrite PS, Q. rewrite (HL i s E) by (rewrite Q; discriminate). unfold draw_entry. rewrite nth_error_map, E. cbn. rewrite Q. reflexivity.
    + right; left. exists i. split; [|apply in_seq0; lia]. cbn [pd_dm d]. exact (DP Mirror (Some (lo, hi)) _ _ _ B).
    + right; right. exists i. split; [apply in_seq0; lia|]. left. cbn [pd_sci pd_inst d]. destruct B as (s & E & Q). destruct (HC s (nth_error_In _ _ E)) as [P1 P2]. rewrite nth_error_map, E. cbn [option_map]. rewrite PS.
      destruct (ca_long s) as [im1|] eqn:Q1; [|contradiction]. unfold draw_entry. rewrite !nth_error_map, E. cbn [option_map]. rewrite Q1. destruct (gu_exp g); [rewrite Q; reflexivity|injection Q as ->; reflexivity|contradiction].
    + right; right. exists i. split; [apply in_seq0; lia|]. right; left. cbn [pd_res d]. apply entry in B. exact (DP Residual (Some (lo, hi)) _ _ _ B).
  - intros c I. apply ID in I. destruct I as (x & I1 & I2). destruct (XS _ I1) as (y & Q & R). injection Q as <-. exact (R c I2).
  - intros v (e & k & i & im & W & B & I). apply (SV im v); [|exact I]. apply FR. exists e, k, i. auto.
  - destruct SL as (im & F & I). apply FR in F. destruct F as (e & k & i & W & B). exists e, k, i, im. auto.
  - destruct SH as (im & F & I). apply FR in F. destruct F as (e & k & i & W & B). exists e, k, i, im. auto.
Qed.

(** ** Exceptions *)
Lemma gather_err {A} : forall (l : list (perr + list A)) e, In (inl e) l -> (forall e', In (inl e') l -> e' = e) -> gather l = inl e.
Proof.
  induction l as [|x r IH]; intros e I U; [destruct I|]. destruct x as [e'|c]; [cbn; f_equal; apply U; left; reflexivity|]. destruct I as [I|I]; [discriminate I|].
  cbn. rewrite (IH e I); [reflexivity|]. intros e' J. apply U. right. exact J.
Qed.
Lemma gather_none {A} : forall (l : list (perr + list A)) e, In (inl e) l -> exists e', gather l = inl e'.
Proof.
  induction l as [|x r IH]; intros e I; [destruct I|]. destruct x as [e'|c]; [exists e'; reflexivity|]. destruct I as [I|I]; [discriminate I|]. destruct (IH e I) as [e' E]. exists e'. cbn. rewrite E. reflexivity.
Qed.
Lemma drawn_stop : forall l r e, In (inl e) l -> snd (drawn (l ++ r)) <> None /\ forall c, In c (fst (drawn (l ++ r))) -> exists x, In (inr x) l /\ In c x.
Proof.
  induction l as [|x l IH]; intros r e I; [destruct I|]. destruct x as [e'|y]; [cbn; split; [discriminate|intros c []]|]. destruct I as [I|I]; [discriminate I|]. destruct (IH r e I) as [S D].
  cbn [app drawn]. destruct (drawn (l ++ r)) as [cs o]. cbn [fst snd] in *. split; [exact S|]. intros c J. apply in_app_iff in J. destruct J as [J|J]; [exists y; split; [left; reflexivity|exact J]|].
  destruct (D c J) as (x & X1 & X2). exists x. split; [right; exact X1|exact X2].
Qed.
Lemma beacon_stops g p d i s : gu_any_none g = false -> collect p = Some d -> nth_error (pa_sensors p) i = Some s -> (i < gu_ngs g)%nat -> se_psf s = None -> gu_lgs g i = false ->
  snd (draw g d) <> None /\ forall c, In c (fst (draw g d)) -> match c_kind c with Mirror | Science | Residual => False | _ => True end.
Proof.
  intros AN EC ES I P L. unfold draw. destruct (scaling g d) as [e|lv]; [cbn; split; [discriminate|intros c []]|].
  assert (Z : nth_error (pd_lgs d) i = Some None). { unfold collect in EC. destruct (all_some _) as [f|]; [|discriminate EC]. injection EC as <-. cbn. rewrite nth_error_map, ES. cbn. rewrite P. reflexivity. }
  match goal with |- context [drawn (?l ++ ?r)] => destruct (drawn_stop l r KeyError) as [S D] end.
  { apply in_flat_map. exists i. split; [apply in_seq0; exact I|]. right; right; left. rewrite Z. cbn. rewrite AN, L. reflexivity. }
  split; [exact S|]. intros c J. destruct (D c J) as (x & X1 & X2). apply in_flat_map in X1. destruct X1 as (j & _ & X1).
  assert (DE : forall k lv' l y, draw_entry g k lv' l j = inr y -> In c y -> c_kind c = k). { intros k lv' l y Q Q'. unfold draw_entry in Q. destruct (nth_error l j) as [[im|]|]; [injection Q as <-; destruct Q' as [<-|[]]; reflexivity|injection Q as <-; destruct Q'|discriminate Q]. }
  destruct X1 as [X1|[X1|[X1|[]]]].
  - rewrite (DE _ _ _ _ X1 X2). exact Logic.I.
  - destruct (nth_error (pd_phase d) j) as [[im|]|] eqn:Q.
    + unfold draw_present in X1. rewrite Q in X1. destruct (present g (Some im)); [rewrite (DE _ _ _ _ X1 X2); exact Logic.I|injection X1 as <-; destruct X2].
    + destruct (present g None); [discriminate X1|]. injection X1 as <-. destruct X2.
    + unfold draw_present in X1. rewrite Q in X1. discriminate X1.
  - destruct (nth_error (pd_lgs d) j) as [o|]; [|discriminate X1]. destruct (present g o); [|injection X1 as <-; destruct X2]. destruct (gu_lgs g j); [|discriminate X1]. rewrite (DE _ _ _ _ X1 X2). exact Logic.I.
Qed.
Lemma residual_stops g p d i s : gu_any_none g = false -> collect p = Some d -> nth_error (pa_cameras p) i = Some s -> (i < gu_nsci g)%nat -> ca_residual s = None -> exists e, draw g d = ([], Some e).
Proof.
  intros AN EC ES I P. assert (Z : nth_error (pd_res d) i = Some None). { unfold collect in EC. destruct (all_some _) as [f|]; [|discriminate EC]. injection EC as <-. cbn. rewrite nth_error_map, ES. cbn. rewrite P. reflexivity. }
  unfold draw, scaling. match goal with |- context [gather ?l] => destruct (gather_none l AttributeError) as [e E] end.
  { rewrite !in_app_iff. right; right. apply in_map_iff. exists i. split; [|apply in_seq0; exact I]. unfold extremes. rewrite Z. cbn. rewrite AN. reflexivity. }
  rewrite E. exists e. reflexivity.
Qed.
Lemma nothing_stops g p d : gu_any_none g = true -> collect p = Some d -> gu_ngs g = 0%nat -> gu_ndm g = 0%nat -> gu_nsci g = length (pa_cameras p) -> (forall s, In s (pa_cameras p) -> ca_residual s = None) -> draw g d = ([], Some ValueError).
Proof.
  intros AN EC E1 E2 E3 P. unfold draw, scaling. rewrite E1, E2. cbn [seq map app].
  assert (G : gather (map (extremes (present g) (pd_res d)) (seq 0 (gu_nsci g))) = inr []).
  { destruct (gather_ok (map (extremes (present g) (pd_res d)) (seq 0 (gu_nsci g)))) as (cs & E & I).
    - intros x J. exists []. apply in_map_iff in J. destruct J as (i & <- & J). apply in_seq0 in J. destruct (nth_lt (pa_cameras p) i ltac:(lia)) as [s ES].
      unfold collect in EC. destruct (all_some _) as [f|]; [|discriminate EC]. injection EC as <-. unfold extremes. cbn. rewrite nth_error_map, ES. cbn. rewrite (P s (nth_error_In _ _ ES)). cbn. rewrite AN. reflexivity.
    - rewrite E. f_equal. destruct cs as [|c cs]; [reflexivity|]. exfalso. destruct (proj1 (I c) (or_introl eq_refl)) as (x & J & K). apply in_map_iff in J. destruct J as (i & Q & J). apply in_seq0 in J. destruct (nth_lt (pa_cameras p) i ltac:(lia)) as [s ES].
      unfold collect in EC. destruct (all_some _) as [f|]; [|discriminate EC]. injection EC as <-. unfold extremes in Q. cbn in Q. rewrite nth_error_map, ES in Q. cbn in Q. rewrite (P s (nth_error_In _ _ ES)) in Q. cbn in Q. rewrite AN in Q. injection Q as <-. destruct K. }
  rewrite G. reflexivity.
Qed.

Local Open Scope Qc_scope.
Lemma qz_pos k : (0 < k)%nat -> 0 < qz (Z.of_nat k).
Proof. intro K. unfold Qclt. rewrite this_qz. change (this 0) with (inject_Z 0). rewrite <- Zlt_Qlt. lia. Qed.
Lemma qz_add a b : qz (Z.of_nat (a + b)) = qz (Z.of_nat a) + qz (Z.of_nat b).
Proof. rewrite Nat2Z.inj_add. apply Qc_is_canon. rewrite this_add, !this_qz, inject_Z_plus. reflexivity. Qed.
Lemma quot_pos x y : 0 < x -> 0 < y -> 0 < x / y.
Proof.
  intros X Y. assert (E : x / y * y = x) by (field; intro Q; rewrite Q in Y; qclra). destruct (Qclt_le_dec 0 (x / y)) as [L|L]; [exact L|]. exfalso.
  assert (x / y * y <= 0). { replace 0 with (0 * y) by ring. apply Qcmult_le_compat_r; [exact L|]. qclra. } rewrite E in H. qclra.
Qed.
Lemma stats_rate iters n t : (0 < iters)%nat -> 0 < t -> stats iters n t = (qz (Z.of_nat iters) / t, qz (Z.of_nat n - Z.of_nat iters) * (t / qz (Z.of_nat iters))).
Proof.
  intros K T. unfold stats. cbv zeta. pose proof (qz_pos _ K) as P. pose proof (quot_pos _ _ P T) as Q. destruct (Qc_eq_dec _ 0) as [E|_]; [exfalso; rewrite E in Q; qclra|].
  f_equal. field. split; intro E; rewrite E in *; qclra.
Qed.

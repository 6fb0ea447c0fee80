(** What the GUI draws. *)
From Verif.Base Require Import Vec.
From Coq Require Import List Arith Bool Lia.
From Verif.Model Require Import GuiDraw.
From Verif.Spec Require Import GuiDrawSpec.
Import ListNotations.

Lemma all_some_map {A} : forall l : list (option A), (forall x, In x l -> x <> None) -> exists f, all_some l = Some f /\ map Some f = l.
Proof.
  induction l as [|x r IH]; intro H; [exists []; split; reflexivity|]. destruct IH as (f & E & M); [intros; apply H; right; assumption|].
  destruct x as [x|]; [|exfalso; apply (H None); [left; reflexivity|reflexivity]]. exists (x :: f). cbn. rewrite E. split; [reflexivity|]. cbn. rewrite M. reflexivity.
Qed.
Lemma drawn_ok : forall l, (forall x, In x l -> exists c, x = inr c) -> exists cs, drawn l = (cs, None) /\ forall c, In c cs <-> exists x, In (inr x) l /\ In c x.
Proof.
  induction l as [|x r IH]; intro H; [exists []; split; [reflexivity|]; intro c; split; [intros []|intros (x & [] & _)]|].
  destruct IH as (cs & E & I); [intros; apply H; right; assumption|]. destruct (H x) as [y ->]; [left; reflexivity|]. exists (y ++ cs). cbn. rewrite E. split; [reflexivity|].
  intro c. rewrite in_app_iff, I. split.
  - intros [K|(x & K1 & K2)]; [exists y; split; [left; reflexivity|exact K]|exists x; split; [right; exact K1|exact K2]].
  - intros (x & [K|K] & L); [injection K as ->; left; exact L|right; exists x; split; assumption].
Qed.
Lemma gather_ok {A} : forall l : list (perr + list A), (forall x, In x l -> exists c, x = inr c) -> exists cs, gather l = inr cs /\ forall c, In c cs <-> exists x, In (inr x) l /\ In c x.
Proof.
  induction l as [|x r IH]; intro H; [exists []; split; [reflexivity|]; intro c; split; [intros []|intros (x & [] & _)]|].
  destruct IH as (cs & E & I); [intros; apply H; right; assumption|]. destruct (H x) as [y ->]; [left; reflexivity|]. exists (y ++ cs). cbn. rewrite E. split; [reflexivity|].
  intro c. rewrite in_app_iff, I. split.
  - intros [K|(x & K1 & K2)]; [exists y; split; [left; reflexivity|exact K]|exists x; split; [right; exact K1|exact K2]].
  - intros (x & [K|K] & L); [injection K as ->; left; exact L|right; exists x; split; assumption].
Qed.
(** exceptions *)
Lemma drawn_err : forall l r e, (forall x, In x l -> exists c, x = inr c) -> snd (drawn (l ++ inl e :: r)) = Some e.
Proof.
  induction l as [|x l IH]; intros r e H; [reflexivity|]. destruct (H x) as [y ->]; [left; reflexivity|]. cbn. specialize (IH r e (fun x I => H x (or_intror I))). destruct (drawn (l ++ inl e :: r)). exact IH.
Qed.
Lemma least_ok l a : least l = Some a -> In a l /\ forall x, In x l -> (a <= x)%Qc.
Proof.
  destruct l as [|x r]; intro E; [discriminate E|]. injection E as <-. revert x. induction r as [|y r IH]; intro x; cbn [fold_left].
  - split; [left; reflexivity|]. intros z [<-|[]]. apply Qcle_refl.
  - destruct (IH (qc_min x y)) as [I L]. split.
    + destruct I as [I|I]; [|right; right; exact I]. rewrite <- I. unfold qc_min at 1. destruct (Qclt_le_dec x y); [left; reflexivity|right; left; reflexivity].
    + intros z Z. assert (M : (qc_min x y <= x /\ qc_min x y <= y)%Qc). { unfold qc_min. destruct (Qclt_le_dec x y); split; qclra. }
      assert (L0 := L (qc_min x y) (or_introl eq_refl)). destruct Z as [<-|[<-|Z]]; [qclra|qclra|apply L; right; exact Z].
Qed.
Lemma greatest_ok l a : greatest l = Some a -> In a l /\ forall x, In x l -> (x <= a)%Qc.
Proof.
  destruct l as [|x r]; intro E; [discriminate E|]. injection E as <-. revert x. induction r as [|y r IH]; intro x; cbn [fold_left].
  - split; [left; reflexivity|]. intros z [<-|[]]. apply Qcle_refl.
  - destruct (IH (qc_max x y)) as [I L]. split.
    + destruct I as [I|I]; [|right; right; exact I]. rewrite <- I. unfold qc_max at 1. destruct (Qclt_le_dec x y); [right; left; reflexivity|left; reflexivity].
    + intros z Z. assert (M : (x <= qc_max x y /\ y <= qc_max x y)%Qc). { unfold qc_max. destruct (Qclt_le_dec x y); split; qclra. }
      assert (L0 := L (qc_max x y) (or_introl eq_refl)). destruct Z as [<-|[<-|Z]]; [qclra|qclra|apply L; right; exact Z].
Qed.
Lemma least_some l : l <> [] -> exists a, least l = Some a. Proof. destruct l; intro H; [contradiction|]. eexists. reflexivity. Qed.
Lemma greatest_some l : l <> [] -> exists a, greatest l = Some a. Proof. destruct l; intro H; [contradiction|]. eexists. reflexivity. Qed.

Lemma nth_map {A B} (f : A -> B) l i y : nth_error (map f l) i = Some y -> exists x, nth_error l i = Some x /\ f x = y.
Proof. rewrite nth_error_map. destruct (nth_error l i) as [x|]; intro E; [|discriminate E]. injection E as <-. exists x. split; reflexivity. Qed.
Lemma nth_lt {A} (l : list A) i : (i < length l)%nat -> exists x, nth_error l i = Some x.
Proof. intro H. destruct (nth_error l i) as [x|] eqn:E; [exists x; reflexivity|]. apply nth_error_None in E. lia. Qed.
Lemma in_seq0 n i : In i (seq 0 n) <-> (i < n)%nat. Proof. rewrite in_seq. lia. Qed.

(** the wavefronts of a plot *)
Definition fronts (g : gui) (d : plot) (im : img) : Prop :=
  exists i, (i < gu_ngs g)%nat /\ nth_error (pd_phase d) i = Some (Some im) \/ (i < gu_ndm g)%nat /\ nth_error (pd_dm d) i = Some (Some im) \/ (i < gu_nsci g)%nat /\ nth_error (pd_res d) i = Some (Some im).
Lemma scaling_ok g d : gu_any_none g = true -> (forall i, (i < gu_ngs g)%nat -> exists im, nth_error (pd_phase d) i = Some (Some im)) -> (gu_ndm g <= length (pd_dm d))%nat -> (gu_nsci g <= length (pd_res d))%nat ->
  ~ fronts g d [] -> (exists im, fronts g d im) ->
  exists lo hi, scaling g d = inr (lo, hi) /\ (forall im v, fronts g d im -> In v im -> (lo <= v /\ v <= hi)%Qc) /\ (exists im, fronts g d im /\ In lo im) /\ (exists im, fronts g d im /\ In hi im).
Proof.
  intros AN HP HD HR HE [im0 F0]. unfold scaling.
  assert (X : forall test (l : list (option img)) i o, nth_error l i = Some o -> (test o = true -> exists im, o = Some im /\ im <> []) ->
             exists c, extremes test l i = inr c /\ forall a b, In (a, b) c -> exists im, nth_error l i = Some (Some im) /\ In a im /\ In b im /\ forall v, In v im -> (a <= v /\ v <= b)%Qc).
  { intros test l i o E H. unfold extremes. rewrite E. destruct (test o); [|exists []; split; [reflexivity|intros a b []]]. destruct (H eq_refl) as (im & -> & NE).
    destruct (least_some im NE) as [a A]. destruct (greatest_some im NE) as [b B]. rewrite A, B. exists [(a, b)]. split; [reflexivity|]. intros a' b' [K|[]]. injection K as <- <-. exists im.
    destruct (least_ok _ _ A) as [A1 A2]. destruct (greatest_ok _ _ B) as [B1 B2]. repeat split; auto. }
  assert (Y : forall test (l : list (option img)) i im, nth_error l i = Some (Some im) -> im <> [] -> test (Some im) = true -> exists a b, extremes test l i = inr [(a, b)]).
  { intros test l i im E NE T. unfold extremes. rewrite E, T. destruct (least_some im NE) as [a A]. destruct (greatest_some im NE) as [b B]. rewrite A, B. exists a, b. reflexivity. }
  assert (PS : forall o, present g o = true -> exists im, o = Some im) by (intros [im|]; [intros _; exists im; reflexivity|cbn; rewrite AN; discriminate]).
  match goal with |- context [gather ?l] => set (L := l) end.
  assert (XS : forall x, In x L -> exists c, x = inr c /\ forall a b, In (a, b) c -> exists im, fronts g d im /\ In a im /\ In b im /\ forall v, In v im -> (a <= v /\ v <= b)%Qc).
  { intros x I. unfold L in I. rewrite !in_app_iff, !in_map_iff in I. destruct I as [(i & <- & I)|[(i & <- & I)|(i & <- & I)]]; apply in_seq0 in I.
    - destruct (HP i I) as [im E]. destruct (X (fun _ => true) _ i _ E) as (c & EC & K). { intros _. exists im. split; [reflexivity|]. intros ->. apply HE. exists i. left. auto. }
      exists c. split; [exact EC|]. intros a b IN. destruct (K a b IN) as (im' & E' & R). exists im'. split; [exists i; left; auto|exact R].
    - destruct (nth_lt (pd_dm d) i ltac:(lia)) as [o E]. destruct (X (present g) _ i _ E) as (c & EC & K). { intros P. destruct (PS o P) as [im ->]. exists im. split; [reflexivity|]. intros ->. apply HE. exists i. right; left. auto. }
      exists c. split; [exact EC|]. intros a b IN. destruct (K a b IN) as (im' & E' & R). exists im'. split; [exists i; right; left; auto|exact R].
    - destruct (nth_lt (pd_res d) i ltac:(lia)) as [o E]. destruct (X (present g) _ i _ E) as (c & EC & K). { intros P. destruct (PS o P) as [im ->]. exists im. split; [reflexivity|]. intros ->. apply HE. exists i. right; right. auto. }
      exists c. split; [exact EC|]. intros a b IN. destruct (K a b IN) as (im' & E' & R). exists im'. split; [exists i; right; right; auto|exact R]. }
  assert (FS : forall im, fronts g d im -> exists a b, In (inr [(a, b)]) L /\ forall v, In v im -> (a <= v /\ v <= b)%Qc).
  { intros im F. assert (NE : im <> []) by (intros ->; exact (HE F)). destruct F as [i F].
    assert (Z : exists test l, nth_error l i = Some (Some im) /\ test (Some im) = true /\ In (extremes test l i) L).
    { unfold L. destruct F as [[I E]|[[I E]|[I E]]].
      - exists (fun _ => true), (pd_phase d). repeat split; auto. rewrite !in_app_iff. left. apply in_map. apply in_seq0. exact I.
      - exists (present g), (pd_dm d). repeat split; auto. rewrite !in_app_iff. right; left. apply in_map. apply in_seq0. exact I.
      - exists (present g), (pd_res d). repeat split; auto. rewrite !in_app_iff. right; right. apply in_map. apply in_seq0. exact I. }
    destruct Z as (test & l & E & T & I). destruct (Y test l i im E NE T) as (a & b & EX). exists a, b. split; [rewrite <- EX; exact I|].
    destruct (X test l i _ E) as (c & EC & K); [intros _; exists im; auto|]. rewrite EX in EC. injection EC as <-. destruct (K a b (or_introl eq_refl)) as (im' & E' & _ & _ & R). rewrite E in E'. injection E' as <-. exact R. }
  destruct (gather_ok L) as (cs & EG & IG). { intros x I. destruct (XS x I) as (c & -> & _). exists c. reflexivity. }
  rewrite EG. destruct (FS im0 F0) as (a0 & b0 & I0 & _). assert (N : In (a0, b0) cs) by (apply IG; exists [(a0, b0)]; split; [exact I0|left; reflexivity]).
  destruct (least_some (map fst cs)) as [lo LO]; [intro Q; apply (in_map fst) in N; rewrite Q in N; destruct N|]. destruct (greatest_some (map snd cs)) as [hi HI]; [intro Q; apply (in_map snd) in N; rewrite Q in N; destruct N|].
  rewrite LO, HI. destruct (least_ok _ _ LO) as [LI LL]. destruct (greatest_ok _ _ HI) as [GI GL]. exists lo, hi. split; [reflexivity|].
  assert (SRC : forall a b, In (a, b) cs -> exists im, fronts g d im /\ In a im /\ In b im).
  { intros a b I. apply IG in I. destruct I as (x & I1 & I2). destruct (XS _ I1) as (c & Q & K). injection Q as <-. destruct (K a b I2) as (im & R1 & R2 & R3 & _). exists im. auto. }
  split; [|split].
  - intros im v F V. destruct (FS im F) as (a & b & I & R). destruct (R v V) as [R1 R2]. assert (J : In (a, b) cs) by (apply IG; exists [(a, b)]; split; [exact I|left; reflexivity]).
    pose proof (LL a (in_map fst _ _ J)). pose proof (GL b (in_map snd _ _ J)). split; qclra.
  - apply in_map_iff in LI. destruct LI as ([a b] & <- & I). destruct (SRC a b I) as (im & R1 & R2 & _). exists im. auto.
  - apply in_map_iff in GI. destruct GI as ([a b] & <- & I). destruct (SRC a b I) as (im & R1 & _ & R2). exists im. auto.
Qed.

From Verif.Base Require Import Vec.
From Verif.Model Require Import GuiGain.
From Verif.Spec Require Import GuiGainSpec.
From Coq Require Import Lia.

Lemma set_nth_length {A} (l : list A) k x : (k < length l)%nat -> length (set_nth l k x) = length l.
Proof. intros H. unfold set_nth. rewrite app_length, firstn_length. cbn [length]. rewrite skipn_length. lia. Qed.
Lemma set_nth_get {A} (l : list A) k x j : (k < length l)%nat -> nth_error (set_nth l k x) j = if (j =? k)%nat then Some x else nth_error l j.
Proof.
  revert k j. induction l as [|a l IH]; intros [|k] [|j] H; cbn in *; try lia; try reflexivity.
  apply IH. lia.
Qed.
Lemma nth_of_get {A} (l : list A) j d : nth j l d = match nth_error l j with Some x => x | None => d end.
Proof. revert j. induction l as [|a l IH]; intros [|j]; cbn; auto. Qed.

Section P.
  Variable td : Qc -> Qc.
  Notation step := (gui_step td).
  Notation run := (gui_run td).

  Definition valid (w : world) : Prop := (w_sim w < length (w_heap w))%nat /\ (w_gui w < length (w_heap w))%nat /\
    match w_dms w with Some c => (c < length (w_heap w))%nat | None => True end.
  Lemma set_gain_length h c k v : (c < length h)%nat -> length (set_gain h c k v) = length h.
  Proof. intros H. unfold set_gain. destruct (k <? _)%nat; auto. now apply set_nth_length. Qed.
  Lemma valid_step w o : valid w -> valid (step w o).
  Proof.
    intros (A & B & C). destruct o; cbn [gui_step]; [..|destruct (k <? length (w_boxes w))%nat; [|exact (conj A (conj B C))]]; cbn; unfold valid; cbn; rewrite ?app_length; cbn [length]; try solve [repeat split; try lia; destruct (w_dms w); auto; lia].
    rewrite set_gain_length by assumption. exact (conj A (conj B C)).
  Qed.
  Lemma valid_run ops w : valid w -> valid (run w ops).
  Proof. revert w. induction ops as [|o ops IH]; intros w H; [exact H|]. cbn. apply IH, valid_step, H. Qed.
  Lemma valid_open gs : valid (gui_open td gs).
  Proof. unfold valid. cbn. repeat split; auto. Qed.

  (** one object behind boxes and mirrors *)
  Definition settled (w : world) : Prop := valid w /\ w_dms w = Some (w_gui w) /\ w_sim w = w_gui w /\
    length (w_boxes w) = length (gains_of w (w_gui w)).
  Lemma settled_init w : valid w -> settled (run w initialise).
  Proof.
    intros H. unfold settled. split; [now apply valid_run|]. cbn. repeat split. unfold gains_of. cbn. now rewrite map_length.
  Qed.
  Lemma gains_set w k v : (w_gui w < length (w_heap w))%nat -> (k < length (gains_of w (w_gui w)))%nat ->
    forall c, nth c (set_gain (w_heap w) (w_gui w) k v) [] = if (c =? w_gui w)%nat then set_nth (gains_of w (w_gui w)) k v else gains_of w c.
  Proof.
    intros H1 H2 c. unfold set_gain, gains_of in *. rewrite (proj2 (Nat.ltb_lt _ _) H2).
    rewrite nth_of_get, set_nth_get by assumption. destruct (c =? w_gui w)%nat; [reflexivity|]. symmetry. apply nth_of_get.
  Qed.
  Lemma settled_step w o : settled w -> no_load o -> settled (step w o).
  Proof.
    intros (V & D & S & B) H. unfold settled. split; [now apply valid_step|]. destruct o; try (destruct H; fail); cbn [gui_step].
    - cbn. rewrite S. repeat split; auto.
    - cbn. rewrite S. repeat split; auto.
    - cbn. repeat split; auto. unfold gains_of. cbn. now rewrite map_length.
    - destruct (k <? length (w_boxes w))%nat eqn:E; [|now repeat split]. apply Nat.ltb_lt in E. cbn. repeat split; auto.
      unfold gains_of. cbn. destruct V as (_ & V & _). rewrite gains_set by (auto; lia). rewrite Nat.eqb_refl, !set_nth_length by lia. exact B.
  Qed.
  Lemma settled_run ops w : settled w -> Forall no_load ops -> settled (run w ops).
  Proof.
    intros H F. revert w H. induction F as [|o ops Ho F IH]; intros w H; [exact H|]. cbn. apply IH, settled_step; assumption.
  Qed.
  Lemma settled_used w : settled w -> used_gains w = gains_of w (w_gui w).
  Proof. intros (_ & D & _). unfold used_gains. now rewrite D. Qed.
  Lemma move_settled w k v : settled w -> (k < length (used_gains w))%nat ->
    with_nth (used_gains w) (used_gains (step w (MoveBox k v))) k v /\ with_nth (w_boxes w) (w_boxes (step w (MoveBox k v))) k v.
  Proof.
    intros HS Hk. pose proof (settled_step w (MoveBox k v) HS I) as HS'. rewrite (settled_used _ HS'). rewrite (settled_used w HS) in *.
    destruct HS as (V & D & S & B). destruct V as (_ & V & _). cbn [gui_step]. rewrite (proj2 (Nat.ltb_lt k (length (w_boxes w)))) by lia. cbn [w_gui w_boxes].
    match goal with |- context [gains_of (mkWorld ?h ?a ?b ?c ?d) ?e] => change (gains_of (mkWorld h a b c d) e) with (nth e h []) end.
    rewrite gains_set by auto. rewrite Nat.eqb_refl. unfold with_nth. rewrite !set_nth_length by lia.
    repeat split; intros j; apply set_nth_get; lia.
  Qed.
  Lemma moves gs pre ops k v : Forall no_load ops ->
    let w := run (gui_open td gs) (pre ++ initialise ++ ops) in (k < length (used_gains w))%nat ->
    with_nth (used_gains w) (used_gains (step w (MoveBox k v))) k v /\ with_nth (w_boxes w) (w_boxes (step w (MoveBox k v))) k v.
  Proof.
    intros F. cbv zeta. apply move_settled. unfold gui_run. rewrite !fold_left_app. apply settled_run; [|assumption].
    apply settled_init, valid_run, valid_open.
  Qed.
  (** initialising again keeps the gains set, and the boxes then show them *)
  Lemma reinit w : settled w -> used_gains (run w initialise) = used_gains w /\ w_boxes (run w initialise) = map (box_of td) (used_gains w).
  Proof.
    intros HS. pose proof (settled_used w HS) as U. destruct HS as (V & D & S & B). rewrite U. cbn. unfold used_gains, gains_of. cbn. rewrite S. auto.
  Qed.
  Lemma after_init w : valid w -> w_boxes (run w initialise) = map (box_of td) (used_gains (run w initialise)).
  Proof. intros V. reflexivity. Qed.

  (** a file is loaded: the boxes belong to an object no mirror holds *)
  Definition apart (w : world) : Prop := valid w /\ w_dms w <> Some (w_gui w).
  Lemma apart_move w k v : apart w -> apart (step w (MoveBox k v)) /\ used_gains (step w (MoveBox k v)) = used_gains w.
  Proof.
    intros [V A]. split.
    - split; [now apply valid_step|]. cbn [gui_step]. destruct (k <? length (w_boxes w))%nat; exact A.
    - cbn [gui_step]. destruct (k <? length (w_boxes w))%nat; [|reflexivity]. unfold used_gains. cbn. destruct (w_dms w) as [c|] eqn:D; [|reflexivity].
      unfold gains_of at 1. cbn. destruct (k <? length (gains_of w (w_gui w)))%nat eqn:E.
      + apply Nat.ltb_lt in E. destruct V as (_ & V & _). rewrite gains_set by auto. destruct (c =? w_gui w)%nat eqn:Ec; [|reflexivity].
        apply Nat.eqb_eq in Ec. subst. congruence.
      + unfold set_gain. fold (gains_of w (w_gui w)). rewrite E. reflexivity.
  Qed.
  Lemma apart_moves ms w : apart w -> Forall is_move ms -> used_gains (run w ms) = used_gains w.
  Proof.
    intros A F. revert w A. induction F as [|o ms Ho F IH]; intros w A; [reflexivity|]. destruct o; try destruct Ho.
    cbn. destruct (apart_move w k v A) as [A' U]. rewrite <- U. apply IH, A'.
  Qed.
  Lemma loaded_used w gs : valid w -> used_gains (step w (LoadFile gs)) = used_gains w /\ apart (step w (LoadFile gs)).
  Proof.
    intros V. split.
    - cbn. unfold used_gains. cbn. destruct (w_dms w) as [c|] eqn:D; [|reflexivity]. unfold gains_of. cbn.
      destruct V as (_ & _ & V). rewrite D in V. now rewrite app_nth1.
    - split; [now apply valid_step|]. cbn. destruct V as (_ & _ & V). destruct (w_dms w) as [c|]; [|discriminate]. intros E. injection E as E. lia.
  Qed.
  Lemma loaded gs0 pre gs ms : Forall is_move ms -> let w := run (gui_open td gs0) pre in
    used_gains (run w (LoadFile gs :: ms)) = used_gains w.
  Proof.
    intros F. cbv zeta. set (w := run (gui_open td gs0) pre). assert (V : valid w) by (apply valid_run, valid_open).
    destruct (loaded_used w gs V) as [U A]. change (run w (LoadFile gs :: ms)) with (run (step w (LoadFile gs)) ms).
    rewrite (apart_moves ms _ A F). exact U.
  Qed.

  Lemma reloaded gs0 pre gs : used_gains (run (gui_open td gs0) (pre ++ Reload gs :: initialise)) = gs.
  Proof.
    unfold gui_run. rewrite fold_left_app. fold (gui_run td (gui_open td gs0) pre). set (w := gui_run td (gui_open td gs0) pre).
    cbn. unfold used_gains, gains_of. cbn. rewrite app_nth2, Nat.sub_diag by lia. reflexivity.
  Qed.
  Lemma reinited gs pre ops : Forall no_load ops -> let w := run (gui_open td gs) (pre ++ initialise ++ ops) in
    used_gains (run w initialise) = used_gains w.
  Proof.
    intros F. cbv zeta. apply reinit. unfold gui_run. rewrite !fold_left_app. apply settled_run; [|assumption].
    apply settled_init, valid_run, valid_open.
  Qed.
  Lemma displayed gs pre : let w := run (gui_open td gs) (pre ++ initialise) in w_boxes w = map (box_of td) (used_gains w).
  Proof. cbv zeta. unfold gui_run. rewrite fold_left_app. apply after_init, valid_run, valid_open. Qed.

  (** ** What the boxes show *)
  Lemma qmin_cases a b : (qmin a b = a /\ (a <= b)%Qc) \/ (qmin a b = b /\ (b < a)%Qc).
  Proof. unfold qmin. destruct (qc_leb_spec a b); [left|right]; split; auto. Qed.
  Lemma qmax_cases a b : (qmax a b = b /\ (a <= b)%Qc) \/ (qmax a b = a /\ (b < a)%Qc).
  Proof. unfold qmax. destruct (qc_leb_spec a b); [left|right]; split; auto. Qed.
  Lemma hundredths_z z : hundredths (qz z).
  Proof. exists (100 * z)%Z. rewrite qz_mul. field. intros H. discriminate H. Qed.
  Lemma big : (1 < qfrac 9999 100)%Qc.
  Proof. reflexivity. Qed.
  Lemma box_range g : hundredths (td g) -> showable (box_of td g).
  Proof.
    intros H. unfold box_of, showable. pose proof big as HB. pose proof (hundredths_z 0) as H0. pose proof (hundredths_z 1) as H1.
    assert (A : hundredths (qmax (td g) 0) /\ (0 <= qmax (td g) 0)%Qc).
    { destruct (qmax_cases (td g) 0) as [[-> ?]|[-> ?]]; split; auto; qclra. }
    destruct A as [A A']. revert A A'. generalize (qmax (td g) 0). intros m A A'.
    destruct (qmin_cases m (qfrac 9999 100)) as [[-> ?]|[-> ?]]; destruct (qmin_cases m 1) as [[E ?]|[E ?]].
    - rewrite E. auto.
    - rewrite E. repeat split; auto; discriminate.
    - exfalso. qclra.
    - destruct (qmin_cases (qfrac 9999 100) 1) as [[-> ?]|[-> ?]]; [exfalso; qclra|]. repeat split; auto; discriminate.
  Qed.
  Lemma box_shows g : rounds td -> (box_of td g = g <-> showable g).
  Proof.
    intros (R1 & R2 & _). split.
    - intros E. rewrite <- E. apply box_range, R1.
    - intros (H & H0 & H1). unfold box_of. rewrite (R2 g H). pose proof big as HB.
      destruct (qmax_cases g 0) as [[-> ?]|[-> ?]].
      + assert (g = 0%Qc) as -> by (apply Qcle_antisym; auto). reflexivity.
      + destruct (qmin_cases g (qfrac 9999 100)) as [[-> ?]|[-> ?]]; [|exfalso; qclra].
        destruct (qmin_cases g 1) as [[-> ?]|[-> ?]]; [reflexivity|]. exfalso. qclra.
  Qed.
  Lemma box_over g : rounds td -> (1 < g)%Qc -> box_of td g = 1%Qc.
  Proof.
    intros (R1 & R2 & R3) H. unfold box_of. pose proof big as HB.
    assert (A : (1 <= td g)%Qc). { rewrite <- (R2 1%Qc (hundredths_z 1)). apply R3. qclra. }
    destruct (qmax_cases (td g) 0) as [[-> ?]|[-> ?]]; [exfalso; qclra|].
    destruct (qmin_cases (td g) (qfrac 9999 100)) as [[-> ?]|[-> ?]].
    - destruct (qmin_cases (td g) 1) as [[-> ?]|[-> ?]]; [|reflexivity]. apply Qcle_antisym; auto.
    - reflexivity.
  Qed.
  Lemma map_box gs : rounds td -> (map (box_of td) gs = gs <-> Forall showable gs).
  Proof.
    intros R. induction gs as [|g gs IH]; [split; auto|]. cbn [map]. split.
    - intros E. constructor; [|apply IH]; [apply (box_shows g R)|]; congruence.
    - intros F. inversion F; subst. f_equal; [now apply (box_shows g R) | now apply IH].
  Qed.
End P.

Lemma half_up_rounds : rounds half_up.
Proof.
  assert (N : qz 100 <> 0%Qc) by discriminate.
  repeat split.
  - intros g. eexists. reflexivity.
  - intros g [z ->]. unfold half_up. f_equal. f_equal. replace (qz 100 * (qz z / qz 100) + qfrac 1 2)%Qc with (qfrac 1 2 + qz z)%Qc by (field; exact N).
    rewrite qc_floor_add_z. reflexivity.
  - intros g h H. unfold half_up. pose proof (qc_floor_mono (qz 100 * g + qfrac 1 2) (qz 100 * h + qfrac 1 2)) as M.
    assert (A : (qz 100 * g + qfrac 1 2 <= qz 100 * h + qfrac 1 2)%Qc). { change (qz 100) with (Q2Qc 100). qclra. }
    apply M, qz_le in A. change (qz 100) with (Q2Qc 100) in *. unfold Qcdiv. apply Qcmult_le_compat_r; [exact A|discriminate].
Qed.

(** Lemmas for the closed loop. *)
From Verif.Base Require Import Vec PyFacts.
From Verif.Model Require Import Recon Delay Dm Loop.
From Verif.Spec Require Import ReconSpec DelaySpec LoopSpec.
From Verif.Proofs Require Import ReconProofs DelayProofs LoopScalar.

(** ** Vectors *)
Lemma axpy_length a u v : length u = length v -> length (axpy a u v) = length v.
Proof. intros E. unfold axpy. rewrite vadd_length; rewrite vscale_length; auto. Qed.
Lemma axpy_self v : axpy (-(1)) v v = vzero (length v).
Proof. unfold axpy. rewrite <- (vscale_1 v) at 2. rewrite vadd_scale. replace (-(1) + 1)%Qc with 0%Qc by ring. apply vscale_0. Qed.
Lemma axpy_cons a x u y v : axpy a (x :: u) (y :: v) = (a * x + y)%Qc :: axpy a u v.
Proof. reflexivity. Qed.
Lemma axpy_app a u u' : forall v v', length u = length v -> axpy a (u ++ u') (v ++ v') = axpy a u v ++ axpy a u' v'.
Proof.
  induction u as [|x u IH]; intros [|y v] v' E; simpl in E; try discriminate; auto.
  cbn [app]. rewrite !axpy_cons. cbn [app]. f_equal. apply IH. lia.
Qed.
Lemma firstn_axpy a n u v : firstn n (axpy a u v) = axpy a (firstn n u) (firstn n v).
Proof. unfold axpy. rewrite firstn_vadd, firstn_vscale. reflexivity. Qed.
Lemma skipn_axpy a n u v : length u = length v -> skipn n (axpy a u v) = axpy a (skipn n u) (skipn n v).
Proof. intros E. unfold axpy. rewrite skipn_vadd by (rewrite vscale_length; auto). rewrite skipn_vscale. reflexivity. Qed.
Lemma seg_axpy o n a u v : length u = length v -> seg o n (axpy a u v) = axpy a (seg o n u) (seg o n v).
Proof. intros E. unfold seg. rewrite skipn_axpy by auto. apply firstn_axpy. Qed.
Lemma elem_axpy a u : forall v x, length u = length v -> elem (axpy a u v) x = (a * elem u x + elem v x)%Qc.
Proof.
  unfold elem. induction u as [|y u IH]; intros [|z v] x E; simpl in E; try discriminate.
  - destruct x; simpl; ring.
  - rewrite axpy_cons. destruct x; [reflexivity|]. cbn [nth]. apply IH. lia.
Qed.
Lemma mvm_axpy M a u v : length u = length v -> mvm M (axpy a u v) = axpy a (mvm M u) (mvm M v).
Proof. intros E. unfold axpy. rewrite mvm_add by (rewrite vscale_length; auto). rewrite mvm_scale. reflexivity. Qed.
Lemma elem_vzero n x : elem (vzero n) x = 0%Qc.
Proof. unfold elem, vzero. revert x; induction n; intros [|x]; cbn [repeat nth]; auto. Qed.
Lemma elem_vneg v x : elem (vneg v) x = (- elem v x)%Qc.
Proof. unfold elem, vneg. revert x; induction v; intros [|x]; cbn [map nth]; auto; ring. Qed.
Lemma elem_vadd u : forall v x, length u = length v -> elem (vadd u v) x = (elem u x + elem v x)%Qc.
Proof.
  intros v x E. replace (vadd u v) with (axpy 1 u v) by (unfold axpy; rewrite vscale_1; reflexivity).
  rewrite elem_axpy by auto. ring.
Qed.
Lemma elem_vscale c v x : elem (vscale c v) x = (c * elem v x)%Qc.
Proof. unfold elem, vscale. revert x; induction v; intros [|x]; cbn [map nth]; auto; ring. Qed.

Lemma axpy_zero a m : axpy a (vzero m) (vzero m) = vzero m.
Proof. unfold axpy. rewrite vscale_zero. apply vadd_0_l. apply vzero_length. Qed.

Lemma lincomb_length m u sh : Forall (fun s => length s = m) sh -> length (lincomb m u sh) = m.
Proof.
  revert u; induction sh as [|s sh IH]; intros [|x u] HF; try apply vzero_length.
  inversion HF; subst. unfold lincomb. cbn [combine fold_right fst snd].
  fold (lincomb (length s) u sh). rewrite vadd_length; rewrite vscale_length; auto. symmetry. apply IH; auto.
Qed.

Lemma lincomb_axpy m a : forall sh u v, Forall (fun s => length s = m) sh -> length u = length v ->
  lincomb m (axpy a u v) sh = axpy a (lincomb m u sh) (lincomb m v sh).
Proof.
  induction sh as [|s sh IH]; intros [|x u] [|y v] HF E; simpl in E; try discriminate.
  - change (vzero m = axpy a (vzero m) (vzero m)). rewrite axpy_zero. reflexivity.
  - rewrite axpy_cons. unfold lincomb. cbn [combine fold_right fst snd]. symmetry. apply axpy_zero.
  - change (vzero m = axpy a (vzero m) (vzero m)). symmetry. apply axpy_zero.
  - inversion HF; subst. rewrite axpy_cons. unfold lincomb. cbn [combine fold_right fst snd].
    fold (lincomb (length s) (axpy a u v) sh) (lincomb (length s) u sh) (lincomb (length s) v sh).
    rewrite IH by (auto; lia). unfold axpy.
    assert (L1 : length (lincomb (length s) u sh) = length s) by (apply lincomb_length; auto).
    assert (L2 : length (lincomb (length s) v sh) = length s) by (apply lincomb_length; auto).
    rewrite vscale_add, vscale_scale, <- vadd_scale, !vadd_assoc. f_equal.
    rewrite <- !vadd_assoc. f_equal. apply vadd_comm.
Qed.

(** Two linear functionals that agree on the unit vectors agree. *)
Lemma unit_vec_prefix n k (c : vec) : length c = n -> (k < n)%nat ->
  firstn (S k) c ++ vzero (n - S k) = axpy (elem c k) (unit_vec n k) (firstn k c ++ vzero (n - k)).
Proof.
  revert k c; induction n; intros k c E Hk; [lia|]. destruct c as [|x c]; simpl in E; [discriminate|].
  destruct k as [|k].
  - rewrite unit_vec_S_0. cbn [firstn app]. replace (S n - 0)%nat with (S n) by lia. replace (S n - 1)%nat with n by lia.
    unfold elem. cbn [nth]. change (vzero (S n)) with (0%Qc :: vzero n). rewrite axpy_cons, axpy_zero. f_equal. ring.
  - rewrite unit_vec_S_S. change (firstn (S (S k)) (x :: c)) with (x :: firstn (S k) c). change (firstn (S k) (x :: c)) with (x :: firstn k c).
    cbn [app]. replace (S n - S (S k))%nat with (n - S k)%nat by lia. replace (S n - S k)%nat with (n - k)%nat by lia.
    rewrite IHn by lia. rewrite axpy_cons. unfold elem. cbn [nth]. f_equal. ring.
Qed.

Lemma linear_ext n (h k : vec -> Qc) :
  (forall a u v, length u = n -> length v = n -> h (axpy a u v) = (a * h u + h v)%Qc) ->
  (forall a u v, length u = n -> length v = n -> k (axpy a u v) = (a * k u + k v)%Qc) ->
  (forall y, (y < n)%nat -> h (unit_vec n y) = k (unit_vec n y)) ->
  forall c, length c = n -> h c = k c.
Proof.
  intros Hh Hk HU c Hc.
  assert (HZ : forall f : vec -> Qc, (forall a u v, length u = n -> length v = n -> f (axpy a u v) = (a * f u + f v)%Qc) -> f (vzero n) = 0%Qc).
  { intros f Hf. pose proof (Hf (-(1))%Qc (vzero n) (vzero n) (vzero_length n) (vzero_length n)) as E.
    rewrite axpy_zero in E. rewrite E. ring. }
  assert (HP : forall j, (j <= n)%nat -> h (firstn j c ++ vzero (n - j)) = k (firstn j c ++ vzero (n - j))).
  { induction j; intros Hj.
    - cbn [firstn app]. rewrite Nat.sub_0_r, (HZ h Hh), (HZ k Hk). reflexivity.
    - rewrite unit_vec_prefix by (auto; lia).
      assert (L : length (firstn j c ++ vzero (n - j)) = n) by (rewrite app_length, firstn_length, vzero_length; lia).
      rewrite Hh, Hk by (auto using unit_vec_length). rewrite IHj, HU by lia. reflexivity. }
  specialize (HP n (Nat.le_refl _)). rewrite Nat.sub_diag in HP. cbn [vzero repeat] in HP.
  rewrite app_nil_r in HP. rewrite <- Hc, firstn_all in HP. exact HP.
Qed.

Lemma seg_unit_out t x o n : (o + n <= t)%nat -> (x < o \/ o + n <= x)%nat -> seg o n (unit_vec t x) = vzero n.
Proof.
  intros H1 H2. apply nth_error_ext. intros i. destruct (le_lt_dec n i) as [Hi|Hi].
  - rewrite (proj2 (nth_error_None _ _)), (proj2 (nth_error_None _ _)); auto.
    + rewrite vzero_length; auto.
    + rewrite seg_length; auto. rewrite unit_vec_length. lia.
  - unfold seg. rewrite nth_error_firstn_lt by auto. rewrite nth_error_skipn. unfold unit_vec.
    rewrite nth_error_map, seq_nth_error by lia. simpl. destruct ((o + i =? x)%nat) eqn:E; [apply Nat.eqb_eq in E; lia|].
    unfold vzero. rewrite (nth_error_repeat _ Hi). reflexivity.
Qed.

Lemma elem_unit n y x : (y < n)%nat -> elem (unit_vec n y) x = if (x =? y)%nat then 1%Qc else 0%Qc.
Proof.
  intros H. unfold elem. destruct (le_lt_dec n x) as [Hx|Hx].
  - rewrite nth_overflow by (rewrite unit_vec_length; auto). destruct (x =? y)%nat eqn:E; auto. apply Nat.eqb_eq in E. lia.
  - assert (E : nth_error (unit_vec n y) x = Some (if (x =? y)%nat then 1%Qc else 0%Qc)).
    { unfold unit_vec. rewrite nth_error_map, seq_nth_error by auto. reflexivity. }
    apply nth_error_nth with (1 := E).
Qed.

(** element of a segment *)
Lemma elem_seg o n v x : (o <= x < o + n)%nat -> elem (seg o n v) (x - o) = elem v x.
Proof.
  intros H. unfold elem, seg. replace x with (o + (x - o))%nat at 2 by lia. remember (x - o)%nat as j.
  assert (Hj : (j < n)%nat) by lia. clear - Hj.
  destruct (nth_error (skipn o v) j) as [y|] eqn:E.
  - assert (E2 : nth_error (firstn n (skipn o v)) j = Some y) by (rewrite nth_error_firstn_lt; auto).
    rewrite (nth_error_nth _ _ 0%Qc E2). rewrite nth_error_skipn in E. rewrite (nth_error_nth _ _ 0%Qc E). reflexivity.
  - apply nth_error_None in E. rewrite nth_overflow by (rewrite firstn_length; lia).
    rewrite skipn_length in E. rewrite nth_overflow by lia. reflexivity.
Qed.

(** ** The calibrated system *)
Section System.
  Variable fit : nat -> vec -> vec.
  Variables npix npx nmeas : nat.
  Variable wfss : list (list vec -> vec).
  Variables ds0 ds : list dm.
  Variables imat ctrl : mat.
  Hypothesis HS : calibrated_system fit npix npx nmeas wfss ds0 ds imat ctrl.

  Let total := total_acts (nvalids ds).

  Definition good (d : dm) : Prop := dm_shaped d npix /\ n_valid d = Some (length (shapes d)) /\ shapes d <> [].

  Lemma nth_all {A} (P : A -> Prop) l : (forall i x, nth_error l i = Some x -> P x) -> Forall P l.
  Proof. intros H. apply Forall_forall. intros x Hx. destruct (In_nth_error _ _ Hx) as [i Hi]. eauto. Qed.

  Lemma sys_facts : length ds = length ds0 /\ length imat = total /\ Forall good ds.
  Proof.
    destruct HS as [HF HI HL HT HW HN HR HV].
    destruct (calibration_matches_operation fit npx wfss (fun k n => proj1 (proj2 (HT k)) n) npix ds0 ds imat HF HI HL) as [E1 _].
    unfold make_imat in HI. destruct (make_imat_from fit npx wfss (length ds0) 0 ds0) as [ds1 [Ms|e]] eqn:Em; simpl in HI; [|discriminate].
    injection HI as E0 _. rewrite E0 in *. clear E0 ds1.
    destruct (make_imat_from_ok fit npx wfss npix _ _ _ _ _ HF Em) as (L1 & L2 & H).
    split; [auto|]. split; [exact E1|].
    apply nth_all. intros i d' Hd'.
    assert (Hi : (i < length ds0)%nat) by (rewrite <- L1; apply nth_error_Some; congruence).
    destruct (nth_error ds0 i) as [d|] eqn:Ed; [|apply nth_error_None in Ed; lia].
    destruct (H i d Ed) as (d2 & M & E2 & E3 & E4). assert (d2 = d') by congruence. subst d2.
    destruct (calibrated_lengths _ _ _ _ _ _ _ _ E4) as [G1 G2].
    destruct E4 as (flags & _ & Es & _).
    rewrite Forall_forall in HF. destruct (HF d (nth_error_In _ _ Ed)) as [HS0 _].
    split; [|split].
    - unfold dm_shaped in *. rewrite Es. apply Forall_forall. intros s Hs. rewrite Forall_forall in HS0. apply HS0. eapply pick_In; eauto.
    - rewrite G1, G2. reflexivity.
    - rewrite Forall_forall in HL. destruct (HL d' (nth_error_In _ _ Hd')) as [n Hn]. rewrite G1 in Hn. inversion Hn.
      intros E. rewrite E in G2. simpl in G2. lia.
  Qed.

  Definition sframe (k : nat) (d : dm) (c : vec) : vec := fit k (lincomb npix c (shapes d)).

  Lemma nv_good d : good d -> nv d = length (shapes d).
  Proof. intros (_ & E & _). unfold nv. rewrite E. reflexivity. Qed.

  Lemma dm_frame_good k d c : good d -> length c = length (shapes d) -> dm_frame fit k d c = Ok (sframe k d c).
  Proof.
    intros (H1 & H2 & H3) HL. unfold dm_frame, sframe, make_dm_frame. unfold dm_shaped in H1.
    destruct (shapes d) as [|s0 sh] eqn:E; [congruence|]. rewrite HL, Nat.eqb_refl. simpl. inversion H1; subst. reflexivity.
  Qed.

  Fixpoint surfaces (sel : dm -> bool) (k o : nat) (l : list dm) (c : vec) : list vec :=
    match l with
    | [] => []
    | d :: r => (if sel d then sframe k d (seg o (nv d) c) else vzero npx) :: surfaces sel (S k) (o + nv d) r c
    end.

  Lemma surfaces_length sel l : forall k o c, length (surfaces sel k o l c) = length l.
  Proof. induction l; intros; simpl; auto. Qed.

  Lemma surfaces_nth sel l : forall k o c i d, nth_error l i = Some d ->
    nth_error (surfaces sel k o l c) i
    = Some (if sel d then sframe (k + i) d (seg (o + fold_left Nat.add (firstn i (nvalids l)) 0%nat) (nv d) c) else vzero npx).
  Proof.
    induction l as [|d0 l IH]; intros k o c [|i] d Hd; simpl in Hd; try discriminate.
    - inversion Hd; subst. simpl. rewrite !Nat.add_0_r. reflexivity.
    - cbn [surfaces nth_error]. rewrite (IH _ _ _ _ _ Hd). cbn [nvalids map firstn fold_left].
      fold (nv d0). rewrite (fold_add_shift _ (0 + nv d0)). fold (nvalids l). replace (S k + i)%nat with (k + S i)%nat by lia.
      rewrite Nat.add_0_l, Nat.add_assoc. reflexivity.
  Qed.

  Lemma run_dms_surfaces l : forall k o c, Forall good l -> (o + total_acts (nvalids l) <= length c)%nat ->
    run_dms_from fit k l (dm_offsets o (nvalids l)) c = Ok (surfaces (fun _ => true) k o l c).
  Proof.
    induction l as [|d l IH]; intros k o c HG HL; auto.
    inversion HG; subst. pose proof (nv_good d H1) as Hnv. destruct H1 as (G1 & G2 & G3).
    cbn [nvalids map]. fold (nvalids l). rewrite G2. cbn [dm_offsets run_dms_from]. rewrite G2.
    cbn [nvalids map] in HL. rewrite G2, total_acts_cons in HL. fold (nvalids l) in HL.
    rewrite seg_pyslice by lia. rewrite dm_frame_good by (repeat split; auto; rewrite seg_length; lia).
    cbn [bind]. rewrite IH by (auto; lia). cbn [bind surfaces]. rewrite Hnv. reflexivity.
  Qed.

  Lemma stack_lincomb_ok d c : good d -> length (lincomb npix c (shapes d)) = npix.
  Proof. intros (H & _). apply lincomb_length. exact H. Qed.

  Lemma surfaces_stack sel l k o c : Forall good l -> stack_ok (length l) npx (surfaces sel k o l c).
  Proof.
    intros HG. split; [apply surfaces_length|]. destruct HS as [_ _ _ HT _ _ _ _].
    revert k o. induction HG; intros k o; simpl; constructor; auto.
    destruct (sel x); [|apply vzero_length]. unfold sframe. apply (HT k). apply stack_lincomb_ok; auto.
  Qed.

  Lemma surfaces_axpy sel l a u v : forall k o, Forall good l -> length u = length v ->
    surfaces sel k o l (axpy a u v) = stack_axpy a (surfaces sel k o l u) (surfaces sel k o l v).
  Proof.
    intros k o HG E. destruct HS as [_ _ _ HT _ _ _ _]. revert k o.
    induction HG as [|d l Hd HG IH]; intros k o; auto.
    cbn [surfaces]. unfold stack_axpy. cbn [combine map fst snd]. fold (stack_axpy a (surfaces sel (S k) (o + nv d) l u) (surfaces sel (S k) (o + nv d) l v)).
    rewrite <- IH. f_equal. destruct (sel d); [|symmetry; apply axpy_zero].
    unfold sframe. rewrite seg_axpy by auto.
    rewrite lincomb_axpy; [|apply Hd|].
    - apply HT; apply stack_lincomb_ok; auto.
    - unfold seg. rewrite !firstn_length, !skipn_length. lia.
  Qed.

  Lemma slopes_axpy a s t : stack_ok (length ds0) npx s -> stack_ok (length ds0) npx t ->
    all_slopes wfss (stack_axpy a s t) = axpy a (all_slopes wfss s) (all_slopes wfss t).
  Proof.
    intros Hs Ht. destruct HS as [_ _ _ _ HW _ _ _]. clear HS. unfold all_slopes.
    induction HW as [|w ws [[m Hm] Hw] HW IH]; auto. cbn [map concat]. rewrite Hw, IH by auto.
    rewrite axpy_app; auto. rewrite (Hm s Hs), (Hm t Ht). reflexivity.
  Qed.

  (** zero stack *)
  Definition zstack (s : list vec) : Prop := s = repeat (vzero npx) (length ds0).
  Lemma zstack_ok : stack_ok (length ds0) npx (repeat (vzero npx) (length ds0)).
  Proof. split; [apply repeat_length|]. apply Forall_forall. intros v Hv. apply repeat_spec in Hv. subst. apply vzero_length. Qed.
  Lemma slopes_zero : all_slopes wfss (repeat (vzero npx) (length ds0)) = vzero nmeas.
  Proof.
    set (z := repeat (vzero npx) (length ds0)). pose proof zstack_ok as Hz. fold z in Hz.
    assert (E : stack_axpy (-(1)) z z = z).
    { unfold z, stack_axpy. clear. induction (length ds0); cbn [repeat combine map fst snd]; auto. f_equal; auto. apply axpy_zero. }
    pose proof (slopes_axpy (-(1)) z z Hz Hz) as H. rewrite E in H. rewrite axpy_self in H.
    rewrite H. destruct HS as [_ _ _ _ _ HN _ _]. rewrite (HN z Hz). reflexivity.
  Qed.

  (** offsets of the mirrors *)
  Lemma belongs_unique x d i o n : belongs ds x d -> nth_error ds i <> None ->
    nth_error (dm_offsets 0 (nvalids ds)) i = Some o -> nth_error (nvalids ds) i = Some n -> (o <= x < o + n)%nat ->
    nth_error ds i = Some d.
  Proof.
    intros (i' & o' & n' & H1 & H2 & H3 & H4) Hi Ho Hn Hx.
    assert (Hn' : nth_error (nvalids ds) i' = Some n') by (unfold nvalids; rewrite nth_error_map, H1; simpl; rewrite H2; reflexivity).
    assert (Ht : (x < total_acts (nvalids ds))%nat).
    { rewrite (dm_offsets_nth _ 0 i n Hn) in Ho. inversion Ho; subst o. pose proof (fold_prefix_le _ i n Hn). unfold total_acts. lia. }
    destruct (split_covers (nvalids ds) x Ht) as (j & _ & HU).
    assert (i = j) by (symmetry; apply HU; exists o, n; repeat split; auto; lia).
    assert (i' = j) by (symmetry; apply HU; exists o', n'; repeat split; auto; lia). congruence.
  Qed.

  Lemma belongs_exists x : (x < total)%nat -> exists d, belongs ds x d.
  Proof.
    intros Hx. destruct (split_covers (nvalids ds) x Hx) as (i & (o & n & H1 & H2 & H3) & _).
    unfold nvalids in H2. rewrite nth_error_map in H2. destruct (nth_error ds i) as [d|] eqn:Ed; simpl in H2; [|discriminate].
    exists d, i, o, n. split; auto. split; auto.
    destruct sys_facts as (_ & _ & HG). rewrite Forall_forall in HG. destruct (HG d (nth_error_In _ _ Ed)) as (_ & G & _).
    rewrite G in *. congruence.
  Qed.

  Lemma belongs_lt x d : belongs ds x d -> (x < total)%nat.
  Proof.
    intros (i & o & n & H1 & H2 & H3 & H4).
    assert (Hn : nth_error (nvalids ds) i = Some n) by (unfold nvalids; rewrite nth_error_map, H1; simpl; rewrite H2; reflexivity).
    rewrite (dm_offsets_nth _ 0 i n Hn) in H3. inversion H3. pose proof (fold_prefix_le _ i n Hn). unfold total, total_acts. lia.
  Qed.

  Lemma nvalids_total l : Forall good l -> total_acts (nvalids l) = fold_left Nat.add (nvalids l) 0%nat.
  Proof. reflexivity. Qed.

  (** reconstruction of the correction seen by the sensors *)
  Lemma surfaces_unit_closed y d : belongs ds y d -> closed d = true ->
    surfaces closed 0 0 ds (unit_vec total y) = surfaces (fun _ => true) 0 0 ds (unit_vec total y).
  Proof.
    intros HB Hc. apply nth_error_ext. intros i. destruct (nth_error ds i) as [di|] eqn:Ei.
    - rewrite !(surfaces_nth _ _ _ _ _ _ _ Ei). f_equal. destruct (closed di) eqn:Ec; auto.
      destruct sys_facts as (_ & _ & HG). rewrite Forall_forall in HG. pose proof (HG di (nth_error_In _ _ Ei)) as Gi.
      assert (Hn : nth_error (nvalids ds) i = Some (nv di)) by (unfold nvalids; rewrite nth_error_map, Ei; reflexivity).
      rewrite seg_unit_out.
      + unfold sframe. rewrite nv_good by auto. rewrite lincomb_zero by apply Gi. destruct HS as [_ _ _ HT _ _ _ _]. symmetry. apply HT.
      + pose proof (fold_prefix_le _ i _ Hn). unfold total, total_acts. lia.
      + set (o := (0 + fold_left Nat.add (firstn i (nvalids ds)) 0)%nat).
        destruct (le_lt_dec o y) as [Hy|Hy]; [|left; auto]. destruct (le_lt_dec (o + nv di) y) as [Hy2|Hy2]; [right; auto|].
        exfalso. assert (nth_error ds i = Some d).
        { eapply (belongs_unique y d i o); eauto; [congruence|]. rewrite (dm_offsets_nth _ 0 i _ Hn). f_equal. }
        congruence.
    - apply nth_error_None in Ei. rewrite !(proj2 (nth_error_None _ _)) by (rewrite surfaces_length; auto). reflexivity.
  Qed.

  Lemma surfaces_unit_open y d : belongs ds y d -> closed d = false ->
    surfaces closed 0 0 ds (unit_vec total y) = repeat (vzero npx) (length ds0).
  Proof.
    intros HB Hc. destruct sys_facts as (Hl & _ & HG). apply nth_error_ext. intros i. destruct (nth_error ds i) as [di|] eqn:Ei.
    - rewrite (surfaces_nth _ _ _ _ _ _ _ Ei).
      assert (Hi : (i < length ds0)%nat) by (rewrite <- Hl; apply nth_error_Some; congruence).
      rewrite (nth_error_repeat _ Hi). f_equal. destruct (closed di) eqn:Ec; auto.
      rewrite Forall_forall in HG. pose proof (HG di (nth_error_In _ _ Ei)) as Gi.
      assert (Hn : nth_error (nvalids ds) i = Some (nv di)) by (unfold nvalids; rewrite nth_error_map, Ei; reflexivity).
      rewrite seg_unit_out.
      + unfold sframe. rewrite nv_good by auto. rewrite lincomb_zero by apply Gi. destruct HS as [_ _ _ HT _ _ _ _]. apply HT.
      + pose proof (fold_prefix_le _ i _ Hn). unfold total, total_acts. lia.
      + set (o := (0 + fold_left Nat.add (firstn i (nvalids ds)) 0)%nat).
        destruct (le_lt_dec o y) as [Hy|Hy]; [|left; auto]. destruct (le_lt_dec (o + nv di) y) as [Hy2|Hy2]; [right; auto|].
        exfalso. assert (nth_error ds i = Some d).
        { eapply (belongs_unique y d i o); eauto; [congruence|]. rewrite (dm_offsets_nth _ 0 i _ Hn). f_equal. }
        congruence.
    - apply nth_error_None in Ei. rewrite !(proj2 (nth_error_None _ _)); auto; rewrite ?surfaces_length, ?repeat_length; lia.
  Qed.

  Lemma concat_vneg (ws : list (list vec -> vec)) s : concat (map (fun w => vneg (w s)) ws) = vneg (concat (map (fun w => w s) ws)).
  Proof. induction ws; simpl; auto. rewrite IHws. unfold vneg. rewrite map_app. reflexivity. Qed.

  Lemma recon_unit y d : belongs ds y d ->
    mvm ctrl (all_slopes wfss (surfaces closed 0 0 ds (unit_vec total y)))
    = if closed d then vneg (unit_vec total y) else vzero total.
  Proof.
    intros HB. destruct sys_facts as (Hl & Hi & HG). pose proof (belongs_lt y d HB) as Hy.
    pose proof HS as [HF HI HL HT HW HN HR HV].
    destruct (closed d) eqn:Ec.
    - rewrite (surfaces_unit_closed y d HB Ec).
      destruct (calibration_matches_operation fit npx wfss (fun k n => proj1 (proj2 (HT k)) n) npix ds0 ds imat HF HI HL) as [_ E2].
      destruct (nth_error imat y) as [row|] eqn:Er; [|apply nth_error_None in Er; lia].
      destruct (E2 y row Er) as (frames & R1 & R2 & R3).
      unfold run_dms in R1. rewrite run_dms_surfaces in R1 by (auto; rewrite unit_vec_length, Hi; unfold total; lia).
      inversion R1 as [R1']. rewrite Hi in *. rewrite R1'.
      unfold wfs_row in R3. rewrite concat_vneg in R3. pose proof (HV y row Er) as V. try rewrite Hi in V.
      rewrite <- V, R3. unfold all_slopes. remember (concat (map (fun w => w frames) wfss)) as S0.
      rewrite (vneg_scale S0), mvm_scale, vneg_scale, vscale_scale.
      replace (-(1) * -(1))%Qc with 1%Qc by ring. rewrite vscale_1. reflexivity.
    - rewrite (surfaces_unit_open y d HB Ec), slopes_zero, mvm_zero, HR, Hi. reflexivity.
  Qed.

  Lemma recon_closed c x d : length c = total -> belongs ds x d ->
    elem (mvm ctrl (all_slopes wfss (surfaces closed 0 0 ds c))) x = if closed d then (- elem c x)%Qc else 0%Qc.
  Proof.
    intros Hc HB. destruct sys_facts as (Hl & Hi & HG). pose proof HS as [HF HI HL HT HW HN HR HV].
    apply (linear_ext total (fun c => elem (mvm ctrl (all_slopes wfss (surfaces closed 0 0 ds c))) x)
                            (fun c => if closed d then (- elem c x)%Qc else 0%Qc)); auto.
    - intros a u v Hu Hv. rewrite surfaces_axpy by (auto; congruence).
      assert (Su : stack_ok (length ds0) npx (surfaces closed 0 0 ds u)) by (rewrite <- Hl; apply surfaces_stack; auto).
      assert (Sv : stack_ok (length ds0) npx (surfaces closed 0 0 ds v)) by (rewrite <- Hl; apply surfaces_stack; auto).
      rewrite slopes_axpy by auto. rewrite mvm_axpy by (rewrite !HN; auto).
      apply elem_axpy. rewrite !mvm_length. reflexivity.
    - intros a u v Hu Hv. destruct (closed d); [|ring]. rewrite elem_axpy by congruence. ring.
    - intros y Hy. destruct (belongs_exists y Hy) as [dy HBy]. rewrite (recon_unit y dy HBy).
      pose proof (belongs_lt x d HB) as Hx. rewrite elem_unit by auto.
      destruct (x =? y)%nat eqn:E.
      + apply Nat.eqb_eq in E. subst y. assert (dy = d).
        { destruct HBy as (i & o & n & B1 & B2 & B3 & B4).
          assert (nth_error ds i = Some d); [|congruence].
          eapply (belongs_unique x d i o n); eauto; [congruence|]. unfold nvalids. rewrite nth_error_map, B1. simpl. rewrite B2. reflexivity. }
        subst dy. destruct (closed d).
        * rewrite elem_vneg, elem_unit, Nat.eqb_refl by auto. reflexivity.
        * apply elem_vzero.
      + destruct (closed dy), (closed d); rewrite ?elem_vneg, ?elem_unit, ?elem_vzero, ?E by auto; ring.
  Qed.

  (** gain law, element by element *)
  Lemma gains_elem a new x d : length a = total -> length new = total -> belongs ds x d ->
    elem (gains ds a new) x
    = if closed d then (elem a x + gain d * elem new x)%Qc else (gain d * elem new x + (1 - gain d) * elem a x)%Qc.
  Proof.
    intros Ha Hn (i & o & n & B1 & B2 & B3 & B4).
    assert (Hnn : nth_error (nvalids ds) i = Some n) by (unfold nvalids; rewrite nth_error_map, B1; simpl; rewrite B2; reflexivity).
    rewrite (dm_offsets_nth _ 0 i n Hnn) in B3.
    assert (Eo : fold_left Nat.add (firstn i (nvalids ds)) 0%nat = o) by (injection B3; intros; lia). clear B3.
    assert (Env : nv d = n) by (unfold nv; rewrite B2; reflexivity).
    pose proof (gains_seg ds a new i d ltac:(congruence) Ha B1) as G. rewrite Env, Eo in G.
    rewrite <- !(elem_seg o n _ x) by lia. rewrite G. unfold law.
    assert (Ls : forall v, length v = total -> length (seg o n v) = n).
    { intros v Hv. apply seg_length. pose proof (fold_prefix_le _ i n Hnn). rewrite Hv. unfold total, total_acts. lia. }
    destruct (closed d); rewrite elem_vadd by (rewrite ?vscale_length, !Ls; auto); rewrite !elem_vscale; reflexivity.
  Qed.

  (** ** One frame *)
  Lemma surfaces_ext sel1 sel2 l : (forall d, sel1 d = sel2 d) -> forall k o c, surfaces sel1 k o l c = surfaces sel2 k o l c.
  Proof. intros H. induction l; intros; simpl; auto. rewrite H, IHl. reflexivity. Qed.

  Lemma dm_surface_ok c k d : length c = total -> nth_error ds k = Some d ->
    dm_surface fit ds c k = Ok (nth k (surfaces (fun _ => true) 0 0 ds c) []).
  Proof.
    intros Hc Hd. destruct sys_facts as (_ & _ & HG). rewrite Forall_forall in HG. pose proof (HG d (nth_error_In _ _ Hd)) as Gd.
    pose proof (surfaces_nth (fun _ => true) ds 0 0 c k d Hd) as E. etransitivity; [|apply f_equal; symmetry; apply (nth_error_nth _ _ [] E)].
    assert (Hnn : nth_error (nvalids ds) k = Some (nv d)) by (unfold nvalids; rewrite nth_error_map, Hd; reflexivity).
    unfold dm_surface. rewrite Hd, (dm_offsets_nth _ 0 k _ Hnn). pose proof (nv_good d Gd) as En. destruct Gd as (G1 & G2 & G3). rewrite G2.
    pose proof (fold_prefix_le _ k _ Hnn) as HP. fold (total_acts (nvalids ds)) in HP.
    rewrite seg_pyslice by (rewrite Hc; unfold total; rewrite <- En; lia).
    rewrite En. apply dm_frame_good; [repeat split; auto|]. apply seg_length. rewrite Hc. unfold total. rewrite <- En. lia.
  Qed.

  Definition zero_where (sel : dm -> bool) (l : list dm) (buf : list vec) : Prop :=
    length buf = length l /\ forall i d, nth_error l i = Some d -> sel d = false -> nth_error buf i = Some (vzero npx).

  Lemma group_ok cl surf c : forall l k o buf,
    (forall j d, nth_error l j = Some d -> surf (k + j)%nat = Ok (nth j (surfaces (fun _ => true) k o l c) [])) ->
    zero_where (fun d => Bool.eqb (closed d) cl) l buf ->
    run_group_from k cl (map closed l) surf buf = Ok (surfaces (fun d => Bool.eqb (closed d) cl) k o l c).
  Proof.
    induction l as [|d l IH]; intros k o [|b buf] Hs [HZ1 HZ2]; simpl in HZ1; try discriminate; auto.
    cbn [map run_group_from surfaces].
    assert (E0 : (if Bool.eqb (closed d) cl then surf k else Ok b)
                 = Ok (if Bool.eqb (closed d) cl then sframe k d (seg o (nv d) c) else vzero npx)).
    { destruct (Bool.eqb (closed d) cl) eqn:Ec.
      - specialize (Hs 0%nat d eq_refl). rewrite Nat.add_0_r in Hs. exact Hs.
      - specialize (HZ2 0%nat d eq_refl Ec). simpl in HZ2. congruence. }
    rewrite E0. cbn [bind]. rewrite (IH (S k) (o + nv d)%nat buf).
    - reflexivity.
    - intros j d' Hj. specialize (Hs (S j) d' Hj). replace (k + S j)%nat with (S k + j)%nat in Hs by lia. exact Hs.
    - split; [lia|]. intros i d' Hi Hd'. apply (HZ2 (S i) d' Hi Hd').
  Qed.

  Lemma surfaces_zero_where sel c : zero_where sel ds (surfaces sel 0 0 ds c).
  Proof.
    split; [apply surfaces_length|]. intros i d Hd Hs. rewrite (surfaces_nth _ _ _ _ _ _ _ Hd), Hs. reflexivity.
  Qed.

  Lemma surfaces_sum l c : forall k o, Forall good l ->
    map (fun p => vadd (fst p) (snd p))
      (combine (surfaces (fun d => Bool.eqb (closed d) false) k o l c) (surfaces (fun d => Bool.eqb (closed d) true) k o l c))
    = surfaces (fun _ => true) k o l c.
  Proof.
    intros k o HG. destruct HS as [_ _ _ HT _ _ _ _]. revert k o.
    induction HG as [|d l Hd HG IH]; intros k o; auto. cbn [surfaces combine map fst snd]. rewrite IH. f_equal.
    assert (L : length (sframe k d (seg o (nv d) c)) = npx) by (unfold sframe; apply (HT k), stack_lincomb_ok; auto).
    destruct (closed d); cbn [Bool.eqb]; [apply vadd_0_l|apply vadd_0_r]; exact L.
  Qed.

  Definition corr_inv (cc : corr) : Prop :=
    zero_where (fun d => Bool.eqb (closed d) true) ds (cl cc) /\ zero_where (fun d => Bool.eqb (closed d) false) ds (op cc).

  Lemma loop_corr_ok c cc : length c = total -> corr_inv cc ->
    exists cc', corr_inv cc' /\
    loop_corr (map closed ds) (dm_surface fit ds c) cc
    = Ok (cc', surfaces closed 0 0 ds c, surfaces (fun _ => true) 0 0 ds c).
  Proof.
    intros Hc [Z1 Z2]. destruct sys_facts as (_ & _ & HG).
    assert (Hsurf : forall j d, nth_error ds j = Some d -> dm_surface fit ds c (0 + j)%nat = Ok (nth j (surfaces (fun _ => true) 0 0 ds c) [])).
    { intros j d Hj. apply dm_surface_ok with (d := d); auto. }
    exists (mkCorr (surfaces (fun d => Bool.eqb (closed d) true) 0 0 ds c) (surfaces (fun d => Bool.eqb (closed d) false) 0 0 ds c)).
    split; [split; apply surfaces_zero_where|].
    unfold loop_corr, run_group. rewrite (group_ok true _ c ds 0 0 _ Hsurf Z1). cbn [bind].
    rewrite (group_ok false _ c ds 0 0 _ Hsurf Z2). cbn [bind].
    rewrite surfaces_sum by auto.
    rewrite (surfaces_ext (fun d => Bool.eqb (closed d) true) closed ds (fun d => match closed d as b return Bool.eqb b true = b with true => eq_refl | false => eq_refl end)).
    reflexivity.
  Qed.

  Lemma delay_const_step (b : list vec) v dl : (length b <= dl)%nat ->
    exists b' c, delay zero_like_vec b v (Z.of_nat dl) = (b', Ok c) /\ (length b' <= dl)%nat /\
      (forall P : vec -> Prop, Forall P b -> P v -> P (zero_like_vec v) -> Forall P b' /\ P c).
  Proof.
    intros Hb. unfold delay. rewrite app_length. cbn [length].
    destruct (Z.of_nat (length b + 1) <=? Z.of_nat dl) eqn:E.
    - exists (b ++ [v]), (zero_like_vec v). split; auto. rewrite app_length. apply Z.leb_le in E. cbn [length]. split; [lia|].
      intros P H1 H2 H3. split; auto. apply Forall_app. split; auto.
    - apply Z.leb_gt in E. replace (Z.to_nat (Z.of_nat (length b + 1) - Z.of_nat dl)) with 1%nat by lia.
      destruct b as [|x b].
      + cbn [app pops pop0]. exists [], v. split; [reflexivity|]. split; [simpl; lia|]. intros P H1 H2 H3. auto.
      + cbn [app pops pop0]. exists (b ++ [v]), x. split; auto. rewrite app_length. cbn [length] in *. split; [lia|].
        intros P H1 H2 H3. inversion H1; subst. split; auto. apply Forall_app. auto.
  Qed.

  Definition loop_inv (dl : nat) (L : loop_state) : Prop :=
    length (commands total (l_recon L)) = total /\ length (l_slopes L) = nmeas /\ (length (l_buf L) <= dl)%nat /\
    Forall (fun v => length v = total) (l_buf L) /\ corr_inv (l_corr L).

  Definition next_commands (L : loop_state) : vec := gains ds (commands total (l_recon L)) (mvm ctrl (l_slopes L)).

  Lemma loop_frame_ok dl L sense : loop_inv dl L -> (forall s, stack_ok (length ds0) npx s -> length (sense s) = nmeas) ->
    exists b' c cc', delay zero_like_vec (l_buf L) (next_commands L) (Z.of_nat dl) = (b', Ok c) /\ length c = total /\
      loop_frame fit ds nmeas total ctrl (Z.of_nat dl) L sense
      = Ok (mkLoop (Some (next_commands L)) b' (sense (surfaces closed 0 0 ds c)) cc',
            mkOut c (sense (surfaces closed 0 0 ds c)) (surfaces (fun _ => true) 0 0 ds c)) /\
      loop_inv dl (mkLoop (Some (next_commands L)) b' (sense (surfaces closed 0 0 ds c)) cc').
  Proof.
    intros (I1 & I2 & I3 & I4 & I5) Hsense. destruct sys_facts as (Hl & Hi & HG). pose proof HS as [HF HI HL HT HW HN HR HV].
    assert (LN : length (next_commands L) = total).
    { unfold next_commands. rewrite gains_length; auto. rewrite mvm_length. congruence. }
    destruct (delay_const_step (l_buf L) (next_commands L) dl I3) as (b' & c & E1 & E2 & E3).
    destruct (E3 (fun v => length v = total) I4 LN) as [E4 E5]. { unfold zero_like_vec. rewrite vzero_length. exact LN. }
    destruct (loop_corr_ok c (l_corr L) E5 I5) as (cc' & C1 & C2).
    exists b', c, cc'. split; auto. split; auto. split.
    - unfold loop_frame, reconstruct. rewrite I2, Nat.eqb_refl.
      fold (commands total (l_recon L)). rewrite apply_gain_eq; auto.
      + cbn [bind]. fold (next_commands L). rewrite E1. cbn [bind]. rewrite C2. cbn [bind fst snd]. reflexivity.
      + apply Forall_forall. intros d Hd. rewrite Forall_forall in HG. destruct (HG d Hd) as (_ & G & _). unfold has_valid. congruence.
      + rewrite mvm_length. congruence.
    - repeat split; simpl; auto; try apply C1. apply Hsense. rewrite <- Hl. apply surfaces_stack; auto.
  Qed.

  (** ** A run *)
  Lemma loop_run_ok dl senses : forall L, loop_inv dl L ->
    Forall (fun f : list vec -> vec => forall s, stack_ok (length ds0) npx s -> length (f s) = nmeas) senses ->
    exists L' outs As, loop_run fit ds nmeas total ctrl (Z.of_nat dl) L senses = Ok (L', outs) /\
      length outs = length senses /\ length As = S (length senses) /\
      run_delay zero_like_vec (l_buf L) (map (fun v => (v, Z.of_nat dl)) (firstn (length senses) As)) = map (fun o => Ok (applied o)) outs /\
      nth_error As 0 = Some (next_commands L) /\
      Forall (fun v => length v = total) As /\
      Forall (fun o => length (applied o) = total /\ science o = surfaces (fun _ => true) 0 0 ds (applied o)) outs /\
      forall n f A o, nth_error senses n = Some f -> nth_error As n = Some A -> nth_error outs n = Some o ->
        measured o = f (surfaces closed 0 0 ds (applied o)) /\
        nth_error As (S n) = Some (gains ds A (mvm ctrl (measured o))).
  Proof.
    induction senses as [|f senses IH]; intros L HI HF.
    - exists L, [], [next_commands L]. repeat split; auto.
      + constructor; auto. destruct HI as (I1 & I2 & _). unfold next_commands. rewrite gains_length; auto.
        destruct HS as [_ _ _ _ _ _ HR _]. destruct sys_facts as (_ & Hi & _). rewrite mvm_length. congruence.
      + destruct n; discriminate.
      + destruct n; discriminate.
    - inversion HF as [|? ? Hf HF']; subst.
      destruct (loop_frame_ok dl L f HI Hf) as (b' & c & cc' & E1 & E2 & E3 & E4).
      remember (mkLoop (Some (next_commands L)) b' (f (surfaces closed 0 0 ds c)) cc') as L1 eqn:EL1.
      destruct (IH L1 E4 HF') as (L' & outs & As & R1 & R2 & R3 & R4 & R5 & R6 & R7 & R8).
      exists L', (mkOut c (f (surfaces closed 0 0 ds c)) (surfaces (fun _ => true) 0 0 ds c) :: outs), (next_commands L :: As).
      split; [cbn [loop_run]; rewrite E3; cbn [bind fst snd]; rewrite R1; reflexivity|].
      split; [simpl; lia|]. split; [simpl; lia|]. split; [|split; [|split; [|split]]].
      + cbn [length firstn map run_delay]. rewrite E1. cbn [applied]. f_equal. rewrite <- R4, EL1. reflexivity.
      + reflexivity.
      + constructor; auto. destruct HI as (I1 & I2 & _). unfold next_commands. rewrite gains_length; auto.
        destruct HS as [_ _ _ _ _ _ HR _]. destruct sys_facts as (_ & Hi & _). rewrite mvm_length. congruence.
      + constructor; auto.
      + intros [|n] f0 A o H1 H2 H3; cbn [nth_error] in H1, H2, H3.
        * inversion H1; inversion H2; inversion H3; subst. cbn [measured applied]. split; [reflexivity|].
          etransitivity; [exact R5|]. reflexivity.
        * apply (R8 n f0 A o H1 H2 H3).
  Qed.

  Lemma init_inv dl : loop_inv dl (loop_init (length ds) npx nmeas).
  Proof.
    unfold loop_inv, loop_init. simpl. rewrite !vzero_length. repeat split; auto; try lia; try apply repeat_length.
    - intros i d Hd _. apply nth_error_repeat. apply nth_error_Some. congruence.
    - intros i d Hd _. apply nth_error_repeat. apply nth_error_Some. congruence.
  Qed.

  Lemma mvm_vadd_elem base s x : length base = nmeas -> length s = nmeas -> (x < total)%nat ->
    elem (mvm ctrl (vadd base s)) x = (elem (mvm ctrl base) x + elem (mvm ctrl s) x)%Qc.
  Proof. intros H1 H2 _. rewrite mvm_add by congruence. apply elem_vadd. rewrite !mvm_length. reflexivity. Qed.

  Theorem system_law dl (bases : list vec) : Forall (fun b => length b = nmeas) bases ->
    exists outs, system_run fit npx nmeas wfss ds ctrl dl bases = Ok outs /\ length outs = length bases /\
      (forall x d, belongs ds x d -> exists u : nat -> Qc, u 0%nat = 0%Qc /\
         forall n base, nth_error bases n = Some base ->
           command outs n x = (if (n <? dl)%nat then 0%Qc else u (n - dl)%nat) /\
           u (S n) = (if closed d then u n + gain d * (elem (mvm ctrl base) x - command outs n x)
                      else gain d * elem (mvm ctrl base) x + (1 - gain d) * u n)%Qc) /\
      (forall o, In o outs -> run_dms fit ds (applied o) = Ok (science o)).
  Proof.
    intros HB. destruct sys_facts as (Hl & Hi & HG). pose proof HS as [HF HI HL HT HW HN HR HV].
    assert (HSs : Forall (fun f : list vec -> vec => forall s, stack_ok (length ds0) npx s -> length (f s) = nmeas) (map (with_turbulence wfss) bases)).
    { apply Forall_forall. intros f Hf. apply in_map_iff in Hf. destruct Hf as (b & <- & Hb). intros s Hs. unfold with_turbulence.
      rewrite Forall_forall in HB. rewrite vadd_length; rewrite (HB b Hb); auto. rewrite HN; auto. }
    destruct (loop_run_ok dl _ _ (init_inv dl) HSs) as (L' & outs & As & R1 & R2 & R3 & R4 & R5 & R6 & R7 & R8).
    rewrite map_length in R2, R3, R4. exists outs. unfold system_run. fold total. rewrite R1. split; auto. split; auto. split.
    - intros x d Bx. exists (fun n => match nth_error As n with Some A => elem A x | None => 0%Qc end).
      split.
      + rewrite R5. unfold next_commands, loop_init. cbn [l_recon l_slopes commands]. rewrite mvm_zero, HR, Hi.
        rewrite gains_elem with (d := d); rewrite ?vzero_length; auto. rewrite !elem_vzero. destruct (closed d); ring.
      + intros n base Hn. fold vec in *.
        assert (Hnl : (n < length bases)%nat) by (apply nth_error_Some; congruence).
        destruct (nth_error outs n) as [o|] eqn:Eo; [|apply nth_error_None in Eo; lia].
        destruct (nth_error As n) as [A|] eqn:EA; [|apply nth_error_None in EA; lia].
        assert (Hf : nth_error (map (with_turbulence wfss) bases) n = Some (with_turbulence wfss base)) by (rewrite nth_error_map, Hn; reflexivity).
        destruct (R8 n _ A o Hf EA Eo) as [M1 M2].
        assert (Ha : length (applied o) = total). { rewrite Forall_forall in R7. apply (R7 o). eapply nth_error_In; eauto. }
        assert (HA : length A = total). { rewrite Forall_forall in R6. apply (R6 A). eapply nth_error_In; eauto. }
        assert (HbL : length base = nmeas). { rewrite Forall_forall in HB. apply HB. eapply nth_error_In; eauto. }
        unfold command. rewrite Eo. split.
        * cbn [l_buf loop_init] in R4. pose proof (@run_delay_const vec zero_like_vec dl (firstn (length bases) As)) as [_ DL].
          rewrite R4 in DL. specialize (DL n A). rewrite nth_error_firstn_lt in DL by auto. specialize (DL EA).
          rewrite nth_error_map, Eo in DL. cbn [option_map] in DL.
          destruct (n <? dl)%nat eqn:Ed.
          -- injection DL as DL. rewrite DL. apply elem_vzero.
          -- apply Nat.ltb_ge in Ed. rewrite nth_error_firstn_lt in DL by lia.
             destruct (nth_error As (n - dl)) as [A'|] eqn:EA'; cbn [option_map] in DL; [|discriminate]. injection DL as DL. rewrite DL. reflexivity.
        * rewrite M2. rewrite gains_elem with (d := d); auto; [|rewrite mvm_length; congruence].
          rewrite M1. unfold with_turbulence.
          assert (Sc : stack_ok (length ds0) npx (surfaces closed 0 0 ds (applied o))) by (rewrite <- Hl; apply surfaces_stack; auto).
          rewrite mvm_vadd_elem; [|auto|apply HN; auto|eapply belongs_lt; eauto].
          rewrite (recon_closed (applied o) x d Ha Bx). destruct (closed d); ring.
    - intros o Ho. rewrite Forall_forall in R7. destruct (R7 o Ho) as [S1 S2]. rewrite S2. unfold run_dms.
      apply run_dms_surfaces; auto. rewrite S1. unfold total. lia.
  Qed.
End System.

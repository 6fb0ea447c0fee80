(** Proofs about the closed loop with inexact sensors. *)
From Verif.Base Require Import Vec.
From Verif.Model Require Import Recon Delay Dm Loop.
From Verif.Spec Require Import ReconSpec LoopSpec.
From Verif.Proofs Require Import ReconProofs DelayProofs LoopProofs LoopScalar.
From Verif.Spec Require Import RobustSpec.

Section Driven.
  Variable fit : nat -> vec -> vec.
  Variables npix npx nmeas : nat.
  Variable ds : list dm.
  Variable ctrl : mat.
  Hypothesis HD : Forall (driven npix) ds.
  Hypothesis HT : forall k v, length v = npix -> length (fit k v) = npx.
  Hypothesis HR : length ctrl = total_acts (nvalids ds).
  Let total := total_acts (nvalids ds).
  Notation good := (driven npix).
  Notation surfaces := (surfaces fit npix npx).
  Notation sframe := (sframe fit npix).
  Notation zero_where := (zero_where npx).

  Lemma nv_good d : good d -> nv d = length (shapes d).
  Proof. intros (_ & E & _). unfold nv. rewrite E. reflexivity. Qed.
  Lemma dm_frame_good k d c : good d -> length c = length (shapes d) -> dm_frame fit k d c = Ok (sframe k d c).
  Proof.
    intros (H1 & H2 & H3) HL. unfold dm_frame, sframe, make_dm_frame. unfold dm_shaped in H1.
    destruct (shapes d) as [|s0 sh] eqn:E; [congruence|]. rewrite HL, Nat.eqb_refl. simpl. inversion H1; subst. reflexivity.
  Qed.
  Lemma surfaces_length sel l : forall k o c, length (surfaces sel k o l c) = length l.
  Proof. induction l; intros; simpl; auto. Qed.
  Lemma surfaces_nth sel l : forall k o c i d, nth_error l i = Some d ->
    nth_error (surfaces sel k o l c) i
    = Some (if sel d then sframe (k + i) d (seg (o + fold_left Nat.add (firstn i (nvalids l)) 0%nat) (nv d) c) else vzero npx).
  Proof.
    induction l as [|d0 l IH]; intros k o c [|i] d Hd; simpl in Hd; try discriminate.
    - inversion Hd; subst. simpl. rewrite !Nat.add_0_r. reflexivity.
    - cbn [surfaces nth_error]. rewrite (IH _ _ _ _ _ Hd). cbn [nvalids map firstn fold_left].
      fold (nv d0). rewrite (fold_add_shift _ (0 + nv d0)). fold (nvalids l). replace (S k + i)%nat with (k + S i)%nat by lia.
      rewrite Nat.add_0_l, Nat.add_assoc. reflexivity.
  Qed.
  Lemma run_dms_surfaces l : forall k o c, Forall good l -> (o + total_acts (nvalids l) <= length c)%nat ->
    run_dms_from fit k l (dm_offsets o (nvalids l)) c = Ok (surfaces (fun _ => true) k o l c).
  Proof.
    induction l as [|d l IH]; intros k o c HG HL; auto.
    inversion HG; subst. pose proof (nv_good d H1) as Hnv. destruct H1 as (G1 & G2 & G3).
    cbn [nvalids map]. fold (nvalids l). rewrite G2. cbn [dm_offsets run_dms_from]. rewrite G2.
    cbn [nvalids map] in HL. rewrite G2, total_acts_cons in HL. fold (nvalids l) in HL.
    rewrite seg_pyslice by lia. rewrite dm_frame_good by (repeat split; auto; rewrite seg_length; lia).
    cbn [bind]. rewrite IH by (auto; lia). cbn [bind surfaces]. rewrite Hnv. reflexivity.
  Qed.
  Lemma stack_lincomb_ok d c : good d -> length (lincomb npix c (shapes d)) = npix.
  Proof. intros (H & _). apply lincomb_length. exact H. Qed.
  Lemma surfaces_stack sel l k o c : Forall good l -> stack_ok (length l) npx (surfaces sel k o l c).
  Proof.
    intros HG. split; [apply surfaces_length|].
    revert k o. induction HG; intros k o; simpl; constructor; auto.
    destruct (sel x); [|apply vzero_length]. unfold sframe. apply HT. apply stack_lincomb_ok; auto.
  Qed.
  Lemma surfaces_ext sel1 sel2 l : (forall d, sel1 d = sel2 d) -> forall k o c, surfaces sel1 k o l c = surfaces sel2 k o l c.
  Proof. intros H. induction l; intros; simpl; auto. rewrite H, IHl. reflexivity. Qed.
  Lemma group_ok cl surf c : forall l k o buf,
    (forall j d, nth_error l j = Some d -> surf (k + j)%nat = Ok (nth j (surfaces (fun _ => true) k o l c) [])) ->
    zero_where (fun d => Bool.eqb (closed d) cl) l buf ->
    run_group_from k cl (map closed l) surf buf = Ok (surfaces (fun d => Bool.eqb (closed d) cl) k o l c).
  Proof.
    induction l as [|d l IH]; intros k o [|b buf] Hs [HZ1 HZ2]; simpl in HZ1; try discriminate; auto.
    cbn [map run_group_from surfaces].
    assert (E0 : (if Bool.eqb (closed d) cl then surf k else Ok b)
                 = Ok (if Bool.eqb (closed d) cl then sframe k d (seg o (nv d) c) else vzero npx)).
    { destruct (Bool.eqb (closed d) cl) eqn:Ec.
      - specialize (Hs 0%nat d eq_refl). rewrite Nat.add_0_r in Hs. exact Hs.
      - specialize (HZ2 0%nat d eq_refl Ec). simpl in HZ2. congruence. }
    rewrite E0. cbn [bind]. rewrite (IH (S k) (o + nv d)%nat buf).
    - reflexivity.
    - intros j d' Hj. specialize (Hs (S j) d' Hj). replace (k + S j)%nat with (S k + j)%nat in Hs by lia. exact Hs.
    - split; [lia|]. intros i d' Hi Hd'. apply (HZ2 (S i) d' Hi Hd').
  Qed.
  Lemma belongs_unique x d i o n : belongs ds x d -> nth_error ds i <> None ->
    nth_error (dm_offsets 0 (nvalids ds)) i = Some o -> nth_error (nvalids ds) i = Some n -> (o <= x < o + n)%nat ->
    nth_error ds i = Some d.
  Proof.
    intros (i' & o' & n' & H1 & H2 & H3 & H4) Hi Ho Hn Hx.
    assert (Hn' : nth_error (nvalids ds) i' = Some n') by (unfold nvalids; rewrite nth_error_map, H1; simpl; rewrite H2; reflexivity).
    assert (Ht : (x < total_acts (nvalids ds))%nat).
    { rewrite (dm_offsets_nth _ 0 i n Hn) in Ho. inversion Ho; subst o. pose proof (fold_prefix_le _ i n Hn). unfold total_acts. lia. }
    destruct (split_covers (nvalids ds) x Ht) as (j & _ & HU).
    assert (i = j) by (symmetry; apply HU; exists o, n; repeat split; auto; lia).
    assert (i' = j) by (symmetry; apply HU; exists o', n'; repeat split; auto; lia). congruence.
  Qed.
  Lemma belongs_lt x d : belongs ds x d -> (x < total)%nat.
  Proof.
    intros (i & o & n & H1 & H2 & H3 & H4).
    assert (Hn : nth_error (nvalids ds) i = Some n) by (unfold nvalids; rewrite nth_error_map, H1; simpl; rewrite H2; reflexivity).
    rewrite (dm_offsets_nth _ 0 i n Hn) in H3. inversion H3. pose proof (fold_prefix_le _ i n Hn). unfold total, total_acts. lia.
  Qed.
  Lemma dm_surface_ok c k d : length c = total -> nth_error ds k = Some d ->
    dm_surface fit ds c k = Ok (nth k (surfaces (fun _ => true) 0 0 ds c) []).
  Proof.
    intros Hc Hd. pose proof HD as HG. rewrite Forall_forall in HG. pose proof (HG d (nth_error_In _ _ Hd)) as Gd.
    pose proof (surfaces_nth (fun _ => true) ds 0 0 c k d Hd) as E. etransitivity; [|apply f_equal; symmetry; apply (nth_error_nth _ _ [] E)].
    assert (Hnn : nth_error (nvalids ds) k = Some (nv d)) by (unfold nvalids; rewrite nth_error_map, Hd; reflexivity).
    unfold dm_surface. rewrite Hd, (dm_offsets_nth _ 0 k _ Hnn). pose proof (nv_good d Gd) as En. destruct Gd as (G1 & G2 & G3). rewrite G2.
    pose proof (fold_prefix_le _ k _ Hnn) as HP. fold (total_acts (nvalids ds)) in HP.
    rewrite seg_pyslice by (rewrite Hc; unfold total; rewrite <- En; lia).
    rewrite En. apply dm_frame_good; [repeat split; auto|]. apply seg_length. rewrite Hc. unfold total. rewrite <- En. lia.
  Qed.
  Lemma surfaces_zero_where sel c : zero_where sel ds (surfaces sel 0 0 ds c).
  Proof.
    split; [apply surfaces_length|]. intros i d Hd Hs. rewrite (surfaces_nth _ _ _ _ _ _ _ Hd), Hs. reflexivity.
  Qed.
  Lemma surfaces_sum l c : forall k o, Forall good l ->
    map (fun p => vadd (fst p) (snd p))
      (combine (surfaces (fun d => Bool.eqb (closed d) false) k o l c) (surfaces (fun d => Bool.eqb (closed d) true) k o l c))
    = surfaces (fun _ => true) k o l c.
  Proof.
    intros k o HG. revert k o.
    induction HG as [|d l Hd HG IH]; intros k o; auto. cbn [surfaces combine map fst snd]. rewrite IH. f_equal.
    assert (L : length (sframe k d (seg o (nv d) c)) = npx) by (unfold sframe; apply HT, stack_lincomb_ok; auto).
    destruct (closed d); cbn [Bool.eqb]; [apply vadd_0_l|apply vadd_0_r]; exact L.
  Qed.
  Definition corr_inv (cc : corr) : Prop :=
    zero_where (fun d => Bool.eqb (closed d) true) ds (cl cc) /\ zero_where (fun d => Bool.eqb (closed d) false) ds (op cc).
  Lemma loop_corr_ok c cc : length c = total -> corr_inv cc ->
    exists cc', corr_inv cc' /\
    loop_corr (map closed ds) (dm_surface fit ds c) cc
    = Ok (cc', surfaces closed 0 0 ds c, surfaces (fun _ => true) 0 0 ds c).
  Proof.
    intros Hc [Z1 Z2]. pose proof HD as HG.
    assert (Hsurf : forall j d, nth_error ds j = Some d -> dm_surface fit ds c (0 + j)%nat = Ok (nth j (surfaces (fun _ => true) 0 0 ds c) [])).
    { intros j d Hj. apply dm_surface_ok with (d := d); auto. }
    exists (mkCorr (surfaces (fun d => Bool.eqb (closed d) true) 0 0 ds c) (surfaces (fun d => Bool.eqb (closed d) false) 0 0 ds c)).
    split; [split; apply surfaces_zero_where|].
    unfold loop_corr, run_group. rewrite (group_ok true _ c ds 0 0 _ Hsurf Z1). cbn [bind].
    rewrite (group_ok false _ c ds 0 0 _ Hsurf Z2). cbn [bind].
    rewrite surfaces_sum by auto.
    rewrite (surfaces_ext (fun d => Bool.eqb (closed d) true) closed ds (fun d => match closed d as b return Bool.eqb b true = b with true => eq_refl | false => eq_refl end)).
    reflexivity.
  Qed.
  Lemma delay_const_step (b : list vec) v dl : (length b <= dl)%nat ->
    exists b' c, delay zero_like_vec b v (Z.of_nat dl) = (b', Ok c) /\ (length b' <= dl)%nat /\
      (forall P : vec -> Prop, Forall P b -> P v -> P (zero_like_vec v) -> Forall P b' /\ P c).
  Proof.
    intros Hb. unfold delay. rewrite app_length. cbn [length].
    destruct (Z.of_nat (length b + 1) <=? Z.of_nat dl) eqn:E.
    - exists (b ++ [v]), (zero_like_vec v). split; auto. rewrite app_length. apply Z.leb_le in E. cbn [length]. split; [lia|].
      intros P H1 H2 H3. split; auto. apply Forall_app. split; auto.
    - apply Z.leb_gt in E. replace (Z.to_nat (Z.of_nat (length b + 1) - Z.of_nat dl)) with 1%nat by lia.
      destruct b as [|x b].
      + cbn [app pops pop0]. exists [], v. split; [reflexivity|]. split; [simpl; lia|]. intros P H1 H2 H3. auto.
      + cbn [app pops pop0]. exists (b ++ [v]), x. split; auto. rewrite app_length. cbn [length] in *. split; [lia|].
        intros P H1 H2 H3. inversion H1; subst. split; auto. apply Forall_app. auto.
  Qed.
  Definition loop_inv (dl : nat) (L : loop_state) : Prop :=
    length (commands total (l_recon L)) = total /\ length (l_slopes L) = nmeas /\ (length (l_buf L) <= dl)%nat /\
    Forall (fun v => length v = total) (l_buf L) /\ corr_inv (l_corr L).

  Definition next_commands (L : loop_state) : vec := gains ds (commands total (l_recon L)) (mvm ctrl (l_slopes L)).

  Lemma loop_frame_ok dl L sense : loop_inv dl L -> (forall s, stack_ok (length ds) npx s -> length (sense s) = nmeas) ->
    exists b' c cc', delay zero_like_vec (l_buf L) (next_commands L) (Z.of_nat dl) = (b', Ok c) /\ length c = total /\
      loop_frame fit ds nmeas total ctrl (Z.of_nat dl) L sense
      = Ok (mkLoop (Some (next_commands L)) b' (sense (surfaces closed 0 0 ds c)) cc',
            mkOut c (sense (surfaces closed 0 0 ds c)) (surfaces (fun _ => true) 0 0 ds c)) /\
      loop_inv dl (mkLoop (Some (next_commands L)) b' (sense (surfaces closed 0 0 ds c)) cc').
  Proof.
    intros (I1 & I2 & I3 & I4 & I5) Hsense. pose proof HD as HG.
    assert (LN : length (next_commands L) = total).
    { unfold next_commands. rewrite gains_length; auto. rewrite mvm_length, HR; auto. }
    destruct (delay_const_step (l_buf L) (next_commands L) dl I3) as (b' & c & E1 & E2 & E3).
    destruct (E3 (fun v => length v = total) I4 LN) as [E4 E5]. { unfold zero_like_vec. rewrite vzero_length. exact LN. }
    destruct (loop_corr_ok c (l_corr L) E5 I5) as (cc' & C1 & C2).
    exists b', c, cc'. split; auto. split; auto. split.
    - unfold loop_frame, reconstruct. rewrite I2, Nat.eqb_refl.
      fold (commands total (l_recon L)). rewrite apply_gain_eq; auto.
      + cbn [bind]. fold (next_commands L). rewrite E1. cbn [bind]. rewrite C2. cbn [bind fst snd]. reflexivity.
      + apply Forall_forall. intros d Hd. rewrite Forall_forall in HG. destruct (HG d Hd) as (_ & G & _). unfold has_valid. congruence.
      + rewrite mvm_length, HR; auto.
    - repeat split; simpl; auto; try apply C1. apply Hsense. apply surfaces_stack; auto.
  Qed.
  Lemma loop_run_ok dl senses : forall L, loop_inv dl L ->
    Forall (fun f : list vec -> vec => forall s, stack_ok (length ds) npx s -> length (f s) = nmeas) senses ->
    exists L' outs As, loop_run fit ds nmeas total ctrl (Z.of_nat dl) L senses = Ok (L', outs) /\
      length outs = length senses /\ length As = S (length senses) /\
      run_delay zero_like_vec (l_buf L) (map (fun v => (v, Z.of_nat dl)) (firstn (length senses) As)) = map (fun o => Ok (applied o)) outs /\
      nth_error As 0 = Some (next_commands L) /\
      Forall (fun v => length v = total) As /\
      Forall (fun o => length (applied o) = total /\ science o = surfaces (fun _ => true) 0 0 ds (applied o)) outs /\
      forall n f A o, nth_error senses n = Some f -> nth_error As n = Some A -> nth_error outs n = Some o ->
        measured o = f (surfaces closed 0 0 ds (applied o)) /\
        nth_error As (S n) = Some (gains ds A (mvm ctrl (measured o))).
  Proof.
    induction senses as [|f senses IH]; intros L HI HF.
    - exists L, [], [next_commands L]. repeat split; auto.
      + constructor; auto. destruct HI as (I1 & I2 & _). unfold next_commands. rewrite gains_length; auto.
        rewrite mvm_length, HR; auto.
      + destruct n; discriminate.
      + destruct n; discriminate.
    - inversion HF as [|? ? Hf HF']; subst.
      destruct (loop_frame_ok dl L f HI Hf) as (b' & c & cc' & E1 & E2 & E3 & E4).
      remember (mkLoop (Some (next_commands L)) b' (f (surfaces closed 0 0 ds c)) cc') as L1 eqn:EL1.
      destruct (IH L1 E4 HF') as (L' & outs & As & R1 & R2 & R3 & R4 & R5 & R6 & R7 & R8).
      exists L', (mkOut c (f (surfaces closed 0 0 ds c)) (surfaces (fun _ => true) 0 0 ds c) :: outs), (next_commands L :: As).
      split; [cbn [loop_run]; rewrite E3; cbn [bind fst snd]; rewrite R1; reflexivity|].
      split; [simpl; lia|]. split; [simpl; lia|]. split; [|split; [|split; [|split]]].
      + cbn [length firstn map run_delay]. rewrite E1. cbn [applied]. f_equal. rewrite <- R4, EL1. reflexivity.
      + reflexivity.
      + constructor; auto. destruct HI as (I1 & I2 & _). unfold next_commands. rewrite gains_length; auto.
        rewrite mvm_length, HR; auto.
      + constructor; auto.
      + intros [|n] f0 A o H1 H2 H3; cbn [nth_error] in H1, H2, H3.
        * inversion H1; inversion H2; inversion H3; subst. cbn [measured applied]. split; [reflexivity|].
          etransitivity; [exact R5|]. reflexivity.
        * apply (R8 n f0 A o H1 H2 H3).
  Qed.
  Lemma init_inv dl : loop_inv dl (loop_init (length ds) npx nmeas).
  Proof.
    unfold loop_inv, loop_init. simpl. rewrite !vzero_length. repeat split; auto; try lia; try apply repeat_length.
    - intros i d Hd _. apply nth_error_repeat. apply nth_error_Some. congruence.
    - intros i d Hd _. apply nth_error_repeat. apply nth_error_Some. congruence.
  Qed.

  Lemma belongs_any x : (x < total)%nat -> exists d, belongs ds x d /\ In d ds.
  Proof.
    intros Hx. destruct (split_covers (nvalids ds) x Hx) as (i & (o & n & H1 & H2 & H3) & _).
    unfold nvalids in H2. rewrite nth_error_map in H2. destruct (nth_error ds i) as [d|] eqn:Ed; simpl in H2; [|discriminate].
    exists d. split; [|eapply nth_error_In; eauto]. exists i, o, n. split; auto. split; auto.
    pose proof HD as HG. rewrite Forall_forall in HG. destruct (HG d (nth_error_In _ _ Ed)) as (_ & G & _).
    rewrite G in *. congruence.
  Qed.
  (** all mirrors in the loop: the sensors see all of them *)
  Lemma all_closed : Forall (fun d => closed d = true) ds -> forall k o c, surfaces closed k o ds c = surfaces (fun _ => true) k o ds c.
  Proof.
    intros H. clear - H. induction H as [|d l Hd _ IH]; intros k o c; cbn [LoopProofs.surfaces]; [reflexivity|]. rewrite Hd, IH. reflexivity.
  Qed.
  Lemma abs_both x b : (qc_abs x <= b)%Qc -> (- b <= x)%Qc /\ (x <= b)%Qc.
  Proof. intros H. destruct (qc_abs_ge x). split; qclra. Qed.
  Lemma abs_step e m E g gx delta eta : (0 < g)%Qc -> (g <= gx)%Qc -> (gx <= 1)%Qc -> (0 <= delta)%Qc -> (delta < 1)%Qc -> (0 <= eta)%Qc ->
    (qc_abs e <= E)%Qc -> (qc_abs (m - e) <= delta * E + eta)%Qc -> (qc_abs (e - gx * m) <= (1 - g * (1 - delta)) * E + eta)%Qc.
  Proof.
    intros Hg H1 H2 D1 D2 N He Hm.
    destruct (abs_both _ _ He) as [A1 A2], (abs_both _ _ Hm) as [B1 B2].
    assert (E0 : (0 <= E)%Qc) by qclra.
    assert (X : (0 <= 1 - gx)%Qc) by qclra. assert (Y : (0 <= gx)%Qc) by qclra.
    replace (e - gx * m)%Qc with ((1 - gx) * e - gx * (m - e))%Qc by ring.
    set (r := (m - e)%Qc) in *. clearbody r.
    assert (Q1 : (e * (1 - gx) <= E * (1 - gx))%Qc) by (apply Qcmult_le_compat_r; auto).
    assert (Q2 : (- E * (1 - gx) <= e * (1 - gx))%Qc) by (apply Qcmult_le_compat_r; auto).
    assert (Q3 : (r * gx <= (delta * E + eta) * gx)%Qc) by (apply Qcmult_le_compat_r; auto).
    assert (Q4 : (- (delta * E + eta) * gx <= r * gx)%Qc) by (apply Qcmult_le_compat_r; auto).
    assert (Q5 : (gx * eta <= 1 * eta)%Qc) by (apply Qcmult_le_compat_r; auto).
    assert (Q6 : (g * ((1 - delta) * E) <= gx * ((1 - delta) * E))%Qc).
    { apply Qcmult_le_compat_r; auto. replace 0%Qc with (0 * E)%Qc by ring. apply Qcmult_le_compat_r; [qclra|auto]. }
    apply qc_abs_le; qclra.
  Qed.
  (** the command after a step, seen from the next wanted command *)
  Lemma abs_next t t' c m E g gx delta eta v : (0 < g)%Qc -> (g <= gx)%Qc -> (gx <= 1)%Qc -> (0 <= delta)%Qc -> (delta < 1)%Qc -> (0 <= eta)%Qc ->
    (qc_abs (t - c) <= E)%Qc -> (qc_abs (m - (t - c)) <= delta * E + eta)%Qc -> (qc_abs (t' - t) <= v)%Qc ->
    (qc_abs (t' - (c + gx * m)) <= (1 - g * (1 - delta)) * E + (eta + v))%Qc.
  Proof.
    intros Hg H1 H2 D1 D2 N He Hm Hv. pose proof (abs_step _ _ _ _ _ _ _ Hg H1 H2 D1 D2 N He Hm) as S.
    destruct (abs_both _ _ S) as [S1 S2], (abs_both _ _ Hv) as [V1 V2]. apply qc_abs_le; qclra.
  Qed.

  Theorem robust_run (g range delta eta v M : Qc) (wanted : nat -> vec) (senses : list (list vec -> vec)) :
    Forall (fun d => closed d = true /\ (g <= gain d)%Qc /\ (gain d <= 1)%Qc) ds ->
    (0 < g)%Qc -> (g <= 1)%Qc -> (0 <= delta)%Qc -> (delta < 1)%Qc -> (0 <= eta)%Qc -> (0 <= v)%Qc -> (0 <= M)%Qc ->
    (M + (eta + v) / (g * (1 - delta)) <= range)%Qc ->
    (forall n f, nth_error senses n = Some f -> (forall s, stack_ok (length ds) npx s -> length (f s) = nmeas) /\ accurate fit ds ctrl range delta eta (wanted n) f) ->
    (forall n x, (x < actuators ds)%nat -> (qc_abs (elem (wanted (S n)) x - elem (wanted n) x) <= v)%Qc) ->
    within ds (wanted 0%nat) (vzero (actuators ds)) M ->
    exists L outs, loop_run fit ds nmeas (actuators ds) ctrl 0 (loop_init (length ds) npx nmeas) senses = Ok (L, outs) /\ length outs = length senses /\
      forall n o, nth_error outs n = Some o ->
        within ds (wanted n) (applied o) ((1 - g * (1 - delta)) ^ n * M + (eta + v) / (g * (1 - delta)))%Qc.
  Proof.
    intros HC Hg Hg1 D1 D2 N V HM HRa HA Hv H0.
    assert (HF : Forall (fun f : list vec -> vec => forall s, stack_ok (length ds) npx s -> length (f s) = nmeas) senses).
    { apply Forall_forall. intros f Hf. destruct (In_nth_error _ _ Hf) as [n Hn]. apply (HA n f Hn). }
    destruct (loop_run_ok 0 senses _ (init_inv 0) HF) as (L & outs & As & R1 & R2 & R3 & R4 & R5 & R6 & R7 & R8).
    exists L, outs. split; [exact R1|]. split; [exact R2|].
    assert (P : (0 < g * (1 - delta))%Qc).
    { replace 0%Qc with (0 * (1 - delta))%Qc by ring. apply Qcmult_lt_compat_r; [qclra|auto]. }
    assert (P1 : (g * (1 - delta) <= 1)%Qc).
    { assert (Q : (g * (1 - delta) <= 1 * (1 - delta))%Qc) by (apply Qcmult_le_compat_r; [auto|qclra]). qclra. }
    set (rho := (1 - g * (1 - delta))%Qc) in *. set (R := ((eta + v) / (g * (1 - delta)))%Qc) in *.
    assert (ER : (R * (g * (1 - delta)) = eta + v)%Qc).
    { assert (G1 : g <> 0%Qc) by (intros Z; rewrite Z in Hg; revert Hg; qclra).
      assert (G2 : (1 - delta)%Qc <> 0%Qc) by (intros Z; assert (H : (0 < 1 - delta)%Qc) by qclra; rewrite Z in H; revert H; qclra).
      unfold R. field. split; assumption. }
    assert (R0 : (0 <= R)%Qc).
    { destruct (Qclt_le_dec R 0) as [H|H]; [|exact H]. exfalso. assert (Q : (R * (g * (1 - delta)) < 0 * (g * (1 - delta)))%Qc) by (apply Qcmult_lt_compat_r; auto).
      rewrite ER in Q. revert Q. qclra. }
    assert (Rh : (0 <= rho)%Qc) by (unfold rho; qclra).
    assert (Rh1 : (rho <= 1)%Qc) by (unfold rho; qclra).
    assert (Pw : forall n, (0 <= rho ^ n)%Qc /\ (rho ^ n <= 1)%Qc).
    { intros n. induction n as [|n [I1 I2]]; cbn [Qcpower]; [split; qclra|]. split.
      - replace 0%Qc with (0 * rho ^ n)%Qc by ring. apply Qcmult_le_compat_r; auto.
      - assert (Q : (rho * rho ^ n <= 1 * rho ^ n)%Qc) by (apply Qcmult_le_compat_r; auto). qclra. }
    (* commands applied are those reconstructed *)
    assert (AP : forall n o, nth_error outs n = Some o -> nth_error As n = Some (applied o)).
    { intros n o Ho. assert (Hn : (n < length senses)%nat) by (rewrite <- R2; apply nth_error_Some; congruence).
      destruct (nth_error As n) as [A|] eqn:EA; [|apply nth_error_None in EA; lia].
      cbn [l_buf loop_init] in R4. pose proof (@run_delay_const vec zero_like_vec 0 (firstn (length senses) As)) as [_ DL].
      rewrite R4 in DL. specialize (DL n A). rewrite nth_error_firstn_lt in DL by auto. specialize (DL EA).
      rewrite nth_error_map, Ho in DL. cbn [option_map Nat.ltb Nat.leb] in DL. rewrite Nat.sub_0_r, nth_error_firstn_lt, EA in DL by lia. cbn [option_map] in DL. congruence. }
    assert (ST : forall n A, nth_error As n = Some A -> (n <= length senses)%nat -> within ds (wanted n) A (rho ^ n * M + R)%Qc).
    { induction n as [|n IH]; intros A EA Hn.
      - rewrite R5 in EA. injection EA as <-. intros y Hy. specialize (H0 y Hy). unfold next_commands, loop_init. cbn [l_recon l_slopes commands].
        destruct (belongs_any y Hy) as (d & B & _). rewrite mvm_zero, HR. fold total.
        rewrite gains_elem with (d := d); rewrite ?vzero_length; auto.
        rewrite elem_vzero in *. destruct (closed d).
        + replace (elem (wanted 0%nat) y - (0 + gain d * 0))%Qc with (elem (wanted 0%nat) y - 0)%Qc by ring. cbn [Qcpower]. qclra.
        + replace (elem (wanted 0%nat) y - (gain d * 0 + (1 - gain d) * 0))%Qc with (elem (wanted 0%nat) y - 0)%Qc by ring. cbn [Qcpower]. qclra.
      - destruct (nth_error senses n) as [f|] eqn:Ef; [|apply nth_error_None in Ef; lia].
        destruct (nth_error outs n) as [o|] eqn:Eo; [|apply nth_error_None in Eo; lia].
        pose proof (AP n o Eo) as EA'. specialize (IH _ EA' ltac:(lia)).
        destruct (R8 n f _ o Ef EA' Eo) as [M1 M2]. rewrite M2 in EA. injection EA as <-.
        assert (La : length (applied o) = total) by (rewrite Forall_forall in R7; apply (R7 o); eapply nth_error_In; eauto).
        intros y Hy. destruct (belongs_any y Hy) as (d & B & Id). rewrite gains_elem with (d := d); auto; [|rewrite mvm_length; exact HR].
        rewrite Forall_forall in HC. destruct (HC d Id) as (C1 & C2 & C3). rewrite C1.
        destruct (HA n f Ef) as [_ Acc].
        assert (RD : run_dms fit ds (applied o) = Ok (surfaces (fun _ => true) 0 0 ds (applied o))).
        { unfold run_dms. apply run_dms_surfaces; auto. rewrite La. unfold total. lia. }
        destruct (Pw n) as [W1 W2].
        assert (Bd : (rho ^ n * M <= M)%Qc) by (replace M with (1 * M)%Qc at 2 by ring; apply Qcmult_le_compat_r; auto).
        specialize (Acc (applied o) _ (rho ^ n * M + R)%Qc La RD IH ltac:(qclra) y Hy).
        rewrite M1, all_closed by (apply Forall_forall; intros d' Hd'; apply HC; auto).
        pose proof (abs_next _ (elem (wanted (S n)) y) _ _ _ g (gain d) delta eta v Hg C2 C3 D1 D2 N (IH y Hy) Acc (Hv n y Hy)) as Z.
        fold rho in Z. replace (rho ^ S n * M + R)%Qc with (rho * (rho ^ n * M + R) + (eta + v))%Qc; [exact Z|].
        rewrite <- ER. unfold rho. cbn [Qcpower]. ring. }
    intros n o Ho. apply ST; [apply AP, Ho|]. rewrite <- R2. apply Nat.lt_le_incl, nth_error_Some. congruence.
  Qed.
End Driven.

Lemma within_nonneg ds t c E : (0 < actuators ds)%nat -> within ds t c E -> (0 <= E)%Qc.
Proof. intros H W. specialize (W 0%nat H). eapply Qcle_trans; [apply qc_abs_nonneg|exact W]. Qed.
Lemma scaled_run (fit : nat -> vec -> vec) (npix npx nmeas : nat) (wfss : list (list vec -> vec)) (ds0 ds : list dm) (imat ctrl : mat)
    (g a first : Qc) (base : vec) (N : nat) :
  calibrated_system fit npix npx nmeas wfss ds0 ds imat ctrl -> length base = nmeas ->
  Forall (fun d => closed d = true /\ (g <= gain d)%Qc /\ (gain d <= 1)%Qc) ds -> (0 < g)%Qc -> (g <= 1)%Qc -> (0 < a)%Qc -> (a < 1 + 1)%Qc ->
  (forall x, (x < actuators ds)%nat -> (qc_abs (elem (mvm ctrl base) x) <= first)%Qc) ->
  exists L outs, loop_run fit ds nmeas (actuators ds) ctrl 0 (loop_init (length ds) npx nmeas)
      (repeat (fun s => vscale a (with_turbulence wfss base s)) N) = Ok (L, outs) /\ length outs = N /\
    forall n o, nth_error outs n = Some o -> within ds (mvm ctrl base) (applied o) ((1 - g * (1 - qc_abs (a - 1))) ^ n * first)%Qc.
Proof.
  intros HS Lb HC Hg Hg1 Ha Ha2 HF. destruct (sys_facts _ _ _ _ _ _ _ _ _ HS) as (Hl & Hi & HG).
  pose proof HS as [_ _ _ HT _ HN HR _].
  assert (D : (qc_abs (a - 1) < 1)%Qc) by (unfold qc_abs; destruct (Qclt_le_dec (a - 1) 0); qclra).
  assert (D0 : (0 <= qc_abs (a - 1))%Qc) by apply qc_abs_nonneg.
  set (F := qc_max 0 first). assert (F0 : (0 <= F)%Qc) by (unfold F, qc_max; destruct (Qclt_le_dec 0 first); qclra).
  assert (HC' : Forall (fun d => closed d = true) ds) by (eapply Forall_impl; [|exact HC]; cbn; tauto).
  assert (Sc : forall n f, nth_error (repeat (fun s => vscale a (with_turbulence wfss base s)) N) n = Some f -> f = (fun s => vscale a (with_turbulence wfss base s))).
  { intros n f H. apply nth_error_In in H. apply repeat_spec in H. exact H. }
  assert (Ls : forall s, stack_ok (length ds) npx s -> length (with_turbulence wfss base s) = nmeas).
  { intros s Hs. unfold with_turbulence. rewrite vadd_length; [exact Lb|]. rewrite HN by (rewrite <- Hl; exact Hs). exact Lb. }
  destruct (robust_run fit npix npx nmeas ds ctrl HG (fun k w H => proj1 (HT k) w H) ltac:(rewrite HR, Hi; reflexivity)
    g F (qc_abs (a - 1)) 0 0 F (fun _ => mvm ctrl base) (repeat (fun s => vscale a (with_turbulence wfss base s)) N)) as (L & outs & R1 & R2 & R3); auto.
  - qclra.
  - qclra.
  - replace ((0 + 0) / (g * (1 - qc_abs (a - 1))))%Qc with 0%Qc by (unfold Qcdiv; ring). qclra.
  - intros n f H. rewrite (Sc n f H). split.
    + intros s Hs. rewrite vscale_length. apply Ls, Hs.
    + intros c frames E Lc RD W _ x Hx.
      assert (Ef : frames = surfaces fit npix npx closed 0 0 ds c).
      { rewrite all_closed by exact HC'. unfold run_dms in RD. rewrite (LoopProofs.run_dms_surfaces fit npix npx nmeas wfss ds0 ds imat ctrl HS) in RD by (auto; rewrite Lc; unfold actuators; lia). congruence. }
      destruct (belongs_any npix ds HG x Hx) as (d & B & Id). subst frames.
      rewrite mvm_scale, elem_vscale. unfold with_turbulence.
      assert (St : stack_ok (length ds) npx (surfaces fit npix npx closed 0 0 ds c)).
      { eapply surfaces_stack; [intros k w; apply (proj1 (HT k))|exact HG]. }
      rewrite mvm_add by (rewrite HN by (rewrite <- ?Hl; exact St); exact Lb).
      rewrite elem_vadd by (rewrite !mvm_length; reflexivity).
      rewrite (recon_closed fit npix npx nmeas wfss ds0 ds imat ctrl HS c x d Lc B).
      rewrite Forall_forall in HC'. rewrite (HC' d Id).
      set (t := elem (mvm ctrl base) x). specialize (W x Hx). fold t in W.
      replace (a * (t + - elem c x) - (t - elem c x))%Qc with ((a - 1) * (t - elem c x))%Qc by ring.
      rewrite qc_abs_mul, Qcplus_0_r, (Qcmult_comm (qc_abs (a - 1))), (Qcmult_comm (qc_abs (a - 1))). apply Qcmult_le_compat_r; auto.
  - intros n x Hx. replace (elem (mvm ctrl base) x - elem (mvm ctrl base) x)%Qc with 0%Qc by ring. rewrite qc_abs_0. qclra.
  - intros y Hy. rewrite elem_vzero. replace (elem (mvm ctrl base) y - 0)%Qc with (elem (mvm ctrl base) y) by ring.
    eapply Qcle_trans; [apply HF, Hy|]. unfold F, qc_max. destruct (Qclt_le_dec 0 first); qclra.
  - exists L, outs. split; [exact R1|]. split; [rewrite R2; apply repeat_length|]. intros n o Ho. specialize (R3 n o Ho).
    intros y Hy. specialize (R3 y Hy).
    assert (F1 : (0 <= first)%Qc) by (eapply Qcle_trans; [apply qc_abs_nonneg|apply (HF y Hy)]).
    replace ((1 - g * (1 - qc_abs (a - 1))) ^ n * first)%Qc with ((1 - g * (1 - qc_abs (a - 1))) ^ n * F + (0 + 0) / (g * (1 - qc_abs (a - 1))))%Qc; [exact R3|].
    replace F with first; [unfold Qcdiv; ring|]. unfold F, qc_max. destruct (Qclt_le_dec 0 first); [reflexivity|]. apply Qcle_antisym; auto.
Qed.

From Coq Require Import List Arith Bool Relations Lia.
Import ListNotations.
From Verif Require Import Model.Gui Spec.GuiSpec.

(** ** Lists. *)
Lemma set_nth_length {A} (l : list A) i x : length (set_nth l i x) = length l.
Proof.
  unfold set_nth. revert i; induction l as [|y l IH]; intros [|i]; cbn; auto.
Qed.
Lemma set_nth_same {A} (l : list A) i x y : nth_error l i = Some y -> nth_error (set_nth l i x) i = Some x.
Proof.
  unfold set_nth. revert i; induction l as [|z l IH]; intros [|i] H; cbn in *; try discriminate; auto.
Qed.
Lemma set_nth_other {A} (l : list A) i j x : i <> j -> nth_error (set_nth l i x) j = nth_error l j.
Proof.
  unfold set_nth. revert i j; induction l as [|z l IH]; intros [|i] [|j] H; cbn; auto; try congruence.
Qed.
Lemma set_nth_get {A} (l : list A) i j x y : nth_error (set_nth l i x) j = Some y -> (i = j /\ y = x) \/ (i <> j /\ nth_error l j = Some y).
Proof.
  intro H. destruct (Nat.eq_dec i j) as [->|N].
  - left. split; auto. assert (L : j < length (set_nth l j x)) by (apply nth_error_Some; congruence).
    rewrite set_nth_length in L. destruct (nth_error l j) eqn:E; [|apply nth_error_None in E; lia].
    rewrite (set_nth_same _ _ _ _ E) in H. congruence.
  - right. rewrite set_nth_other in H; auto.
Qed.
Lemma in_set_nth {A} (l : list A) i x y : In y (set_nth l i x) -> y = x \/ In y l.
Proof. intro H. apply In_nth_error in H as [j H]. apply set_nth_get in H as [[_ H]|[_ H]]; auto. right. eapply nth_error_In; eauto. Qed.

Definition cnt (i : nat) (q : list (nat * nat)) : nat := length (filter (fun x => fst x =? i) q).
Lemma cnt_app i q r : cnt i (q ++ r) = cnt i q + cnt i r.
Proof. unfold cnt. rewrite filter_app, app_length. auto. Qed.
Lemma cnt_cons i j f q : cnt i ((j, f) :: q) = (if j =? i then 1 else 0) + cnt i q.
Proof. unfold cnt. cbn. destruct (j =? i); auto. Qed.
Arguments cnt : simpl never.
Lemma cnt_nil i : cnt i [] = 0.
Proof. reflexivity. Qed.
Fixpoint total (b : nat -> nat) (n : nat) : nat := match n with 0 => 0 | S n => total b n + b n end.
Lemma total_le b c n : (forall i, i < n -> b i <= c i) -> total b n <= total c n.
Proof. induction n; cbn; intro H; auto. pose proof (H n ltac:(lia)). assert (total b n <= total c n) by (apply IHn; intros; apply H; lia). lia. Qed.
Lemma total_const k n : total (fun _ => k) n = k * n.
Proof. induction n; cbn; lia. Qed.
Lemma total_plus b c n : total (fun i => b i + c i) n = total b n + total c n.
Proof. induction n; cbn; lia. Qed.
Lemma total_ind j n : total (fun i => if j =? i then 1 else 0) n = if j <? n then 1 else 0.
Proof.
  induction n; cbn [total]; auto. rewrite IHn.
  destruct (Nat.ltb_spec j n), (Nat.ltb_spec j (S n)), (Nat.eqb_spec j n); lia.
Qed.
Lemma total_cnt q n : (forall i f, In (i, f) q -> i < n) -> total (fun i => cnt i q) n = length q.
Proof.
  induction q as [|[j f] q IH]; intro H.
  - change (total (fun _ => 0) n = 0). rewrite total_const. lia.
  - transitivity (total (fun i => (if j =? i then 1 else 0) + cnt i q) n).
    + clear. induction n; cbn [total]; auto. rewrite IHn, cnt_cons. lia.
    + rewrite total_plus, total_ind, IH by (intros; eapply H; right; eauto).
      pose proof (H j f (or_introl eq_refl)). destruct (Nat.ltb_spec j n); cbn; lia.
Qed.
Lemma queue_bound q n b : (forall i f, In (i, f) q -> i < n) -> (forall i, i < n -> cnt i q <= b i) -> length q <= total b n.
Proof. intros H1 H2. rewrite <- (total_cnt q n H1). apply total_le; auto. Qed.

(** ** The invariant. *)
Definition pend (p : simpc) : nat := match p with SChecked _ | SLocked _ => 1 | _ => 0 end.
Definition asked (g : guipc) : bool := match g with GAsked | GTaking _ => true | _ => false end.
Definition sim_ok (s : gst) (i : nat) (p : simpc) : Prop :=
  p <> SFull1 /\ p <> SFull2 /\
  if asked (g_gui s)
  then cnt i (g_queue s) + pend p <= 2 /\ (cnt i (g_queue s) + pend p = 2 -> p <> SOut \/ g_waiting s = false)
  else cnt i (g_queue s) + pend p <= 1 /\ (cnt i (g_queue s) = 1 -> p = SPut \/ p = SReleased \/ g_waiting s = false).
Definition lockpc (p : simpc) : bool := match p with SLocked _ | SPut => true | _ => false end.
Definition lockgui (g : guipc) : bool := match g with GTaking _ | GTaken _ => true | _ => false end.
Record inv (n : nat) (s : gst) : Prop := mkInv {
  iv_bad : g_bad s = false;
  iv_gui : lockgui (g_gui s) = true <-> g_lock s = Some ByGui;
  iv_lock : forall i, (exists p, nth_error (g_sims s) i = Some p /\ lockpc p = true) <-> g_lock s = Some (BySim i);
  iv_n : length (g_sims s) = n;
  iv_q : forall i f, In (i, f) (g_queue s) -> i < n;
  iv_sim : forall i p, nth_error (g_sims s) i = Some p -> sim_ok s i p }.
Lemma nth_repeat_some {A} (x y : A) n i : nth_error (repeat x n) i = Some y -> y = x.
Proof. intro H. apply nth_error_In in H. eapply repeat_spec; eauto. Qed.
Lemma inv_init n : inv n (g_init n).
Proof.
  constructor; cbn; auto.
  - split; discriminate.
  - intro i. split; [|discriminate]. intros (p & H & L). apply nth_repeat_some in H. subst. discriminate.
  - apply repeat_length.
  - intros i f [].
  - intros i p H. apply nth_repeat_some in H. subst. unfold sim_ok; cbn. rewrite cnt_nil. repeat split; try congruence; lia.
Qed.
Lemma nth_lt {A} (l : list A) i x : nth_error l i = Some x -> i < length l.
Proof. intro H. apply nth_error_Some. congruence. Qed.
Ltac others := match goal with H : nth_error (set_nth _ _ _) _ = Some _ |- _ => apply set_nth_get in H as [[<- ->]|[?N H]] end.

(** Locks: what a step does to them. *)
Lemma lock_same (sims : list simpc) i p q : nth_error sims i = Some p -> lockpc p = lockpc q ->
  forall j, (exists r, nth_error (set_nth sims i q) j = Some r /\ lockpc r = true) <-> (exists r, nth_error sims j = Some r /\ lockpc r = true).
Proof.
  intros H L j. split; intros (r & E & T).
  - others; [exists p; split; auto; congruence|exists r; auto].
  - destruct (Nat.eq_dec i j) as [->|N].
    + exists q. split; [eapply set_nth_same; eauto|]. congruence.
    + exists r. rewrite set_nth_other; auto.
Qed.
Ltac simok Hs := let X := fresh in pose proof Hs as X; unfold sim_ok in *; cbn [g_gui g_queue g_waiting] in *.

Lemma inv_step n s s' : n <= 5 -> inv n s -> gstep s s' -> inv n s'.
Proof.
  intros Hn I St. destruct I as [Ib Ig Il In_ Iq Is]. destruct St; cbn in *; unfold with_sim in *.
  - (* pass *) constructor; cbn; auto.
  - (* check *) pose proof (Is _ _ H) as K. constructor; cbn; auto.
    + intro j. rewrite <- Il. apply (lock_same _ _ _ _ H). reflexivity.
    + rewrite set_nth_length; auto.
    + intros j p E. others.
      * unfold sim_ok in *; cbn in *. destruct K as (_ & _ & K). repeat split; try discriminate. destruct (asked (g_gui s)); destruct K as [K1 K2].
        -- split; [|intros _; left; discriminate]. destruct (Nat.eq_dec (cnt i (g_queue s)) 2); [|lia]. destruct K2 as [K2|K2]; [lia|congruence|congruence].
        -- assert (cnt i (g_queue s) = 0). { destruct (Nat.eq_dec (cnt i (g_queue s)) 0); auto. destruct K2 as [K2|[K2|K2]]; [lia|congruence|congruence|congruence]. }
           split; lia.
      * apply (Is _ _ E).
  - (* lock *) pose proof (Is _ _ H) as K. constructor; cbn; auto.
    + split; [intro T; apply Ig in T; congruence|discriminate].
    + intro j. split.
      * intros (r & E & T). others; auto. assert (g_lock s = Some (BySim j)) by (apply Il; eauto). congruence.
      * intro E. injection E as <-. exists (SLocked f). split; [eapply set_nth_same; eauto|reflexivity].
    + rewrite set_nth_length; auto.
    + intros j p E. others; [|apply (Is _ _ E)].
      unfold sim_ok in *; cbn in *. destruct K as (_ & _ & K). repeat split; try discriminate.
      destruct (asked (g_gui s)); destruct K as [K1 K2]; split; auto; intros; try (left; discriminate). lia.
  - (* put *) pose proof (Is _ _ H) as K. constructor; cbn; auto.
    + intro j. rewrite <- Il. apply (lock_same _ _ _ _ H). reflexivity.
    + rewrite set_nth_length; auto.
    + intros j g X. apply in_app_or in X as [X|[X|[]]]; eauto. injection X as <- <-. rewrite <- In_. eapply nth_lt; eauto.
    + intros j p E. others.
      * unfold sim_ok in *; cbn in *. rewrite cnt_app, cnt_cons. rewrite Nat.eqb_refl, cnt_nil.
        destruct K as (_ & _ & K). repeat split; try discriminate.
        destruct (asked (g_gui s)); destruct K as [K1 K2]; (split; [cbn in *; lia|]); intros; left; try discriminate; auto.
      * specialize (Is _ _ E). unfold sim_ok in *; cbn in *. rewrite cnt_app, cnt_cons. destruct (Nat.eqb_spec i j); [congruence|].
        replace (cnt j (g_queue s) + (0 + cnt j [])) with (cnt j (g_queue s)) by (rewrite cnt_nil; lia). auto.
  - (* full: impossible *) exfalso. pose proof (Is _ _ H) as (_ & _ & K).
    assert (L : length (g_queue s) <= total (fun j => if i =? j then 1 else 2) n).
    { apply queue_bound; auto. intros j Hj. destruct (Nat.eqb_spec i j) as [<-|N].
      - destruct (asked (g_gui s)); cbn in K; lia.
      - destruct (nth_error (g_sims s) j) as [p|] eqn:E; [|apply nth_error_None in E; lia].
        destruct (Is _ _ E) as (_ & _ & B). destruct (asked (g_gui s)); lia. }
    assert (T : total (fun j => if i =? j then 1 else 2) n + (if i <? n then 1 else 0) = 2 * n).
    { rewrite <- (total_ind i n), <- total_plus, <- total_const.
      clear. induction n; cbn [total]; auto. rewrite IHn. destruct (i =? n); lia. }
    assert (i < n) by (rewrite <- In_; eapply nth_lt; eauto).
    destruct (Nat.ltb_spec i n); unfold capacity in *; lia.
  - exfalso. destruct (Is _ _ H) as (K & _). congruence.
  - exfalso. destruct (Is _ _ H) as (_ & K & _). congruence.
  - (* release *) pose proof (Is _ _ H) as K. assert (L : g_lock s = Some (BySim i)) by (apply Il; eauto). constructor; cbn; auto.
    + unfold foreign. rewrite Ib, L. cbn. rewrite Nat.eqb_refl. reflexivity.
    + split; [intro T; apply Ig in T; congruence|discriminate].
    + intro j. split; [|discriminate]. intros (r & E & T). others; [discriminate|].
      assert (g_lock s = Some (BySim j)) by (apply Il; eauto). congruence.
    + rewrite set_nth_length; auto.
    + intros j p E. others; [|apply (Is _ _ E)].
      unfold sim_ok in *; cbn in *. destruct K as (_ & _ & K). repeat split; try discriminate.
      destruct (asked (g_gui s)); destruct K as [K1 K2]; split; auto; intros; left; discriminate.
  - (* clear *) constructor; cbn; auto.
    + intro j. rewrite <- Il. apply (lock_same _ _ _ _ H). reflexivity.
    + rewrite set_nth_length; auto.
    + intros j p E. assert (C : exists p', nth_error (g_sims s) j = Some p' /\ pend p' = pend p /\ p <> SFull1 /\ p <> SFull2).
      { others; [exists SReleased; repeat split; auto; discriminate|]. exists p. destruct (Is _ _ E) as (? & ? & _). auto. }
      destruct C as (p' & E' & P & F1 & F2). destruct (Is _ _ E') as (_ & _ & K). unfold sim_ok; cbn. rewrite P in K. repeat split; auto.
      destruct (asked (g_gui s)); destruct K; split; auto.
  - (* ask *) rewrite H in *. constructor; cbn; auto.
    intros i p E. destruct (Is _ _ E) as (F1 & F2 & K). rewrite H in K. cbn in K. unfold sim_ok; cbn. repeat split; auto; lia.
  - (* gui lock *) rewrite H in *. constructor; cbn; auto.
    + tauto.
    + intro j. rewrite Il. rewrite H0. split; discriminate.
    + intros i p E. destruct (Is _ _ E) as (F1 & F2 & K). rewrite H in K. unfold sim_ok; cbn in *. auto.
  - (* take *) rewrite H in *. constructor; cbn; auto.
    + intros j g X. apply (Iq j g). rewrite H0. right. auto.
    + intros j p E. destruct (Is _ _ E) as (F1 & F2 & K). rewrite H, H0, cnt_cons in K. unfold sim_ok; cbn in *. repeat split; auto.
      * lia.
      * intro X. apply K. destruct K as [K _]. lia.
  - (* empty *) rewrite H in *. constructor; cbn; auto.
    intros j p E. destruct (Is _ _ E) as (F1 & F2 & K). rewrite H0. unfold sim_ok; cbn. rewrite cnt_nil. repeat split; auto; try (destruct p; cbn; lia).
  - (* gui release *) rewrite H in *. assert (L : g_lock s = Some ByGui) by (apply Ig; reflexivity). constructor; cbn; auto.
    + unfold foreign. rewrite Ib, L. reflexivity.
    + split; discriminate.
    + intro j. rewrite Il, L. split; discriminate.
    + intros j p E. specialize (Is _ _ E). unfold sim_ok in *. rewrite H in Is. cbn in *. auto.
  - (* draw *) rewrite H in *. constructor; cbn; auto.
    intros j p E. specialize (Is _ _ E). unfold sim_ok in *. rewrite H in Is. cbn in *. auto.
Qed.
Lemma inv_any n s s' : n <= 5 -> inv n s -> gany s s' -> inv n s'.
Proof.
  intros Hn I [St|St]; [eapply inv_step; eauto|]. destruct I as [Ib Ig Il In_ Iq Is]. destruct St. constructor; cbn; auto.
  - rewrite H in Ig. auto.
  - intros i p E. destruct (Is _ _ E) as (F1 & F2 & K). rewrite H in K. unfold sim_ok; cbn in *. repeat split; auto; lia.
Qed.
Lemma inv_reach n s : n <= 5 -> greach n s -> inv n s.
Proof.
  intros Hn R. unfold greach in R. pose proof (inv_init n) as I. revert I. induction R; auto.
  intro I. apply IHR. eapply inv_any; eauto.
Qed.
Lemma never_full n s : n <= 5 -> greach n s -> length (g_queue s) <= 2 * n /\ ~ overflowed s /\ g_bad s = false.
Proof.
  intros Hn R. pose proof (inv_reach n s Hn R) as [Ib Ig Il In_ Iq Is]. repeat split; auto.
  - rewrite <- total_const. apply queue_bound; auto. intros j Hj.
    destruct (nth_error (g_sims s) j) as [p|] eqn:E; [|apply nth_error_None in E; lia].
    destruct (Is _ _ E) as (_ & _ & B). destruct (asked (g_gui s)); lia.
  - intros [F|F]; apply In_nth_error in F as [j F]; destruct (Is _ _ F) as (A & B & _); congruence.
Qed.
Lemma lock_is n s who : n <= 5 -> greach n s -> inside who s <-> g_lock s = Some who.
Proof.
  intros Hn R. pose proof (inv_reach n s Hn R) as [Ib Ig Il In_ Iq Is]. destruct who as [|i]; cbn.
  - rewrite <- Ig. destruct (g_gui s); cbn; split; try discriminate; eauto; intros (x & [X|X]); discriminate.
  - rewrite <- Il. split.
    + intros [(f & E)|E]; [exists (SLocked f)|exists SPut]; auto.
    + intros (p & E & L). destruct p; try discriminate; eauto.
Qed.

(** ** Histories by computation. *)
Inductive act := ASim (i : nat) | AGui.
Definition gdo (a : act) (s : gst) : option gst :=
  match a with
  | ASim i =>
    match nth_error (g_sims s) i with
    | Some SOut => if g_waiting s
        then Some (mkG (g_waiting s) (g_queue s) (g_lock s) (with_sim s i (SChecked (g_frames s))) (g_gui s) (S (g_frames s)) (g_drawn s) (g_bad s))
        else Some (mkG (g_waiting s) (g_queue s) (g_lock s) (g_sims s) (g_gui s) (S (g_frames s)) (g_drawn s) (g_bad s))
    | Some (SChecked f) => match g_lock s with
        | None => Some (mkG (g_waiting s) (g_queue s) (Some (BySim i)) (with_sim s i (SLocked f)) (g_gui s) (g_frames s) (g_drawn s) (g_bad s))
        | Some _ => None end
    | Some (SLocked f) => if length (g_queue s) <? capacity
        then Some (mkG (g_waiting s) (g_queue s ++ [(i, f)]) (g_lock s) (with_sim s i SPut) (g_gui s) (g_frames s) (g_drawn s) (g_bad s))
        else Some (mkG (g_waiting s) (g_queue s) (g_lock s) (with_sim s i SFull1) (g_gui s) (g_frames s) (g_drawn s) (g_bad s))
    | Some SFull1 => Some (mkG (g_waiting s) (g_queue s) None (with_sim s i SFull2) (g_gui s) (g_frames s) (g_drawn s) (g_bad s || foreign s (BySim i)))
    | Some SFull2 => Some (mkG (g_waiting s) (g_queue s) None (with_sim s i SReleased) (g_gui s) (g_frames s) (g_drawn s) (g_bad s || foreign s (BySim i)))
    | Some SPut => Some (mkG (g_waiting s) (g_queue s) None (with_sim s i SReleased) (g_gui s) (g_frames s) (g_drawn s) (g_bad s || foreign s (BySim i)))
    | Some SReleased => Some (mkG false (g_queue s) (g_lock s) (with_sim s i SOut) (g_gui s) (g_frames s) (g_drawn s) (g_bad s))
    | None => None
    end
  | AGui =>
    match g_gui s with
    | GOut => Some (mkG true (g_queue s) (g_lock s) (g_sims s) GAsked (g_frames s) (g_drawn s) (g_bad s))
    | GAsked => match g_lock s with
        | None => Some (mkG (g_waiting s) (g_queue s) (Some ByGui) (g_sims s) (GTaking None) (g_frames s) (g_drawn s) (g_bad s))
        | Some _ => None end
    | GTaking d => match g_queue s with
        | (i, f) :: r => Some (mkG (g_waiting s) r (g_lock s) (g_sims s) (GTaking (Some f)) (g_frames s) (g_drawn s) (g_bad s))
        | [] => Some (mkG (g_waiting s) (g_queue s) (g_lock s) (g_sims s) (GTaken d) (g_frames s) (g_drawn s) (g_bad s)) end
    | GTaken d => Some (mkG (g_waiting s) (g_queue s) None (g_sims s) (GDraw d) (g_frames s) (g_drawn s) (g_bad s || foreign s ByGui))
    | GDraw d => Some (mkG (g_waiting s) (g_queue s) (g_lock s) (g_sims s) GOut (g_frames s) (match d with Some f => f :: g_drawn s | None => g_drawn s end) (g_bad s))
    end
  end.
Fixpoint grun (l : list act) (s : gst) : option gst := match l with [] => Some s | a :: l => match gdo a s with Some s' => grun l s' | None => None end end.
Lemma gdo_step a s s' : gdo a s = Some s' -> gstep s s'.
Proof.
  destruct a as [i|]; cbn [gdo].
  - destruct (nth_error (g_sims s) i) as [[]|] eqn:E; try discriminate.
    + destruct (g_waiting s) eqn:W; intro X; injection X as <-; [pose proof (sim_check s i E W) as T|pose proof (sim_pass s i E W) as T]; rewrite W in T; exact T.
    + destruct (g_lock s) eqn:L; [discriminate|]. intro X; injection X as <-. apply sim_lock; auto.
    + destruct (Nat.ltb_spec (length (g_queue s)) capacity); intro X; injection X as <-; [apply sim_put|eapply sim_full]; eauto.
    + intro X; injection X as <-. apply sim_release; auto.
    + intro X; injection X as <-. apply sim_clear; auto.
    + intro X; injection X as <-. apply sim_full_release; auto.
    + intro X; injection X as <-. apply sim_full_again; auto.
  - destruct (g_gui s) eqn:E.
    + intro X; injection X as <-. apply gui_ask; auto.
    + destruct (g_lock s) eqn:L; [discriminate|]. intro X; injection X as <-. apply gui_lock; auto.
    + destruct (g_queue s) as [|[i f] r] eqn:Q; intro X; injection X as <-; [|eapply gui_take; eauto].
      pose proof (gui_empty s d E Q) as T. rewrite Q in T. exact T.
    + intro X; injection X as <-. eapply gui_release; eauto.
    + intro X; injection X as <-. apply (gui_draw s d); auto.
Qed.
Lemma grun_steps l : forall s s', grun l s = Some s' -> gsteps s s'.
Proof.
  induction l as [|a l IH]; cbn; intros s s' H; [injection H as <-; constructor|].
  destruct (gdo a s) as [s1|] eqn:E; [|discriminate]. econstructor; [eapply gdo_step; eauto|]. apply IH; auto.
Qed.
Lemma steps_any s s' : gsteps s s' -> clos_refl_trans_1n gst gany s s'.
Proof. induction 1; [constructor|]. econstructor; [left; eauto|auto]. Qed.
Lemma grun_reach n l s : grun l (g_init n) = Some s -> greach n s.
Proof. intro H. apply steps_any. eapply grun_steps; eauto. Qed.
Lemma reach_steps n s s' : greach n s -> gsteps s s' -> greach n s'.
Proof.
  intros R T. apply steps_any in T. unfold greach in *. revert T. induction R; auto. intro T. econstructor; eauto.
Qed.

(** ** More threads than the queue has room for. *)
Definition burst (n : nat) : list act :=
  [AGui] ++ map ASim (seq 0 n) ++ repeat AGui 4 ++ flat_map (fun i => repeat (ASim i) 4) (seq 0 n)
  ++ [AGui] ++ map ASim (seq 0 n) ++ flat_map (fun i => repeat (ASim i) 4) (seq 0 n).
Lemma six_overflow : exists s, greach 6 s /\ g_bad s = true.
Proof.
  destruct (grun (burst 6) (g_init 6)) as [s|] eqn:E; [|vm_compute in E; discriminate].
  exists s. split; [eapply grun_reach; eauto|]. vm_compute in E. injection E as <-. reflexivity.
Qed.
Lemma five_full : exists s, greach 5 s /\ length (g_queue s) = 10.
Proof.
  destruct (grun (burst 5) (g_init 5)) as [s|] eqn:E; [|vm_compute in E; discriminate].
  exists s. split; [eapply grun_reach; eauto|]. vm_compute in E. injection E as <-. reflexivity.
Qed.

(** ** The GUI can always finish. *)
Lemma steps_trans s s1 s2 : gsteps s s1 -> gsteps s1 s2 -> gsteps s s2.
Proof. unfold gsteps. induction 1; auto. intro T. econstructor; eauto. Qed.
Lemma one_step s s' : gstep s s' -> gsteps s s'.
Proof. intro. econstructor; eauto. constructor. Qed.
Lemma taken_finish s d : g_gui s = GTaken d -> exists s', gsteps s s' /\ g_gui s' = GOut.
Proof.
  intro H. eexists. split; [|shelve]. eapply steps_trans; [apply one_step; eapply gui_release; eauto|].
  apply one_step. eapply gui_draw. reflexivity. Unshelve. reflexivity.
Qed.
Lemma take_finish q : forall s d, g_queue s = q -> g_gui s = GTaking d -> exists s', gsteps s s' /\ g_gui s' = GOut.
Proof.
  induction q as [|[i f] q IH]; intros s d Q G.
  - destruct (taken_finish (mkG (g_waiting s) (g_queue s) (g_lock s) (g_sims s) (GTaken d) (g_frames s) (g_drawn s) (g_bad s)) d eq_refl) as (s' & T & E).
    exists s'. split; auto. eapply steps_trans; [apply one_step; eapply gui_empty; eauto|exact T].
  - destruct (IH (mkG (g_waiting s) q (g_lock s) (g_sims s) (GTaking (Some f)) (g_frames s) (g_drawn s) (g_bad s)) (Some f) eq_refl eq_refl) as (s' & T & E).
    exists s'. split; auto. eapply steps_trans; [apply one_step; eapply gui_take; eauto|exact T].
Qed.
Lemma asked_finish s : g_gui s = GAsked -> g_lock s = None -> exists s', gsteps s s' /\ g_gui s' = GOut.
Proof.
  intros G L. destruct (take_finish (g_queue s) (mkG (g_waiting s) (g_queue s) (Some ByGui) (g_sims s) (GTaking None) (g_frames s) (g_drawn s) (g_bad s)) None eq_refl eq_refl)
    as (s' & T & E). exists s'. split; auto. eapply steps_trans; [apply one_step; apply gui_lock; auto|exact T].
Qed.
Lemma put_release s i : nth_error (g_sims s) i = Some SPut -> exists s', gsteps s s' /\ g_gui s' = g_gui s /\ g_lock s' = None.
Proof. intro H. eexists. split; [apply one_step; apply (sim_release s i H)|]. split; reflexivity. Qed.
Lemma can_finish n s : n <= 5 -> greach n s -> exists s', gsteps s s' /\ g_gui s' = GOut.
Proof.
  intros Hn R. destruct (g_gui s) eqn:G.
  - exists s. split; [constructor|auto].
  - assert (F : exists s1, gsteps s s1 /\ g_gui s1 = GAsked /\ g_lock s1 = None).
    { destruct (g_lock s) as [[|i]|] eqn:L.
      - apply (proj2 (lock_is n s ByGui Hn R)) in L. destruct L as (d & [L|L]); congruence.
      - apply (proj2 (lock_is n s (BySim i) Hn R)) in L. cbn in L. destruct L as [(f & L)|L].
        + destruct (le_lt_dec capacity (length (g_queue s))) as [F|F].
          * exfalso. pose proof (reach_steps _ _ _ R (one_step _ _ (sim_full s i f L F))) as R'.
            destruct (never_full n _ Hn R') as (_ & N & _). apply N. left. cbn. unfold with_sim. eapply nth_error_In, set_nth_same; eauto.
          * pose proof (sim_put s i f L F) as P. match type of P with gstep _ ?x => assert (Pi : nth_error (g_sims x) i = Some SPut) by (cbn; unfold with_sim; eapply set_nth_same; eauto); destruct (put_release x i Pi) as (s1 & T & E1 & E2) end.
            exists s1. split; [eapply steps_trans; [apply one_step; exact P|exact T]|]. rewrite E1. auto.
        + destruct (put_release s i L) as (s1 & T & E1 & E2). exists s1. rewrite E1. auto.
      - exists s. repeat split; auto. constructor. }
    destruct F as (s1 & T & G1 & L1). destruct (asked_finish s1 G1 L1) as (s2 & T2 & G2). exists s2. split; auto. eapply steps_trans; eauto.
  - eapply take_finish; eauto.
  - eapply taken_finish; eauto.
  - eexists. split; [apply one_step; eapply gui_draw; eauto|reflexivity].
Qed.

(** ** Order of the frames, one thread. *)
Definition later : list nat -> Prop := fix go l := match l with [] => True | x :: r => (forall y, In y r -> y < x) /\ go r end.
Lemma later_app a b : later (a ++ b) <-> later a /\ later b /\ (forall x y, In x a -> In y b -> y < x).
Proof.
  induction a as [|x a IH]; cbn; [intuition|]. rewrite IH. setoid_rewrite in_app_iff. firstorder (subst; auto).
Qed.
Lemma later_decreasing l : later l -> decreasing l.
Proof.
  unfold decreasing. induction l as [|x l IH]; cbn; intros H [|i] [|j] a b L A B; cbn in *; try discriminate; try lia.
  - injection A as <-. apply (proj1 H). eapply nth_error_In; eauto.
  - eapply (IH (proj2 H) i j); eauto. lia.
Qed.
Definition pendl (p : simpc) : list nat := match p with SChecked f | SLocked f => [f] | _ => [] end.
Definition hand (g : guipc) : list nat := match g with GTaking (Some f) | GTaken (Some f) | GDraw (Some f) => [f] | _ => [] end.
Definition course (p : simpc) (s : gst) : list nat := pendl p ++ rev (map snd (g_queue s)) ++ hand (g_gui s) ++ g_drawn s.
Definition ord (s : gst) : Prop := exists p, g_sims s = [p] /\ later (course p s) /\ (forall f, In f (course p s) -> f < g_frames s).
Lemma one_sim (p p' : simpc) i : nth_error [p] i = Some p' -> i = 0 /\ p' = p.
Proof. destruct i as [|[|i]]; cbn; intro H; try discriminate. injection H as <-. auto. Qed.
Lemma ord_step s s' : ord s -> gany s s' -> ord s'.
Proof.
  intros (p & Hp & L & B) [St|St]; destruct St; unfold ord, with_sim in *; cbn;
    try (match goal with H : nth_error (g_sims _) _ = Some _ |- _ => rewrite Hp in H; apply one_sim in H as [-> <-] end); rewrite ?Hp; cbn;
    unfold course in *; cbn in *.
  - exists SOut. repeat split; auto. intros f F. apply B in F. lia.
  - eexists. split; [reflexivity|]. cbn. split; [split; auto|]. intros f [<-|F]; [lia|]. apply B in F. lia.
  - eexists. split; [reflexivity|]. auto.
  - eexists. split; [reflexivity|]. cbn. rewrite map_app, rev_app_distr. cbn. auto.
  - eexists. split; [reflexivity|]. cbn. split; [apply L|]. intros g F. apply B. auto.
  - eexists. split; [reflexivity|]. auto.
  - eexists. split; [reflexivity|]. auto.
  - eexists. split; [reflexivity|]. auto.
  - eexists. split; [reflexivity|]. auto.
  - exists p. rewrite H in *. auto.
  - exists p. rewrite H in *. auto.
  - exists p. rewrite H, H0 in *. split; auto. cbn in L, B. 
    assert (Sub : forall x, In x (pendl p ++ rev (map snd r) ++ f :: g_drawn s) -> In x (pendl p ++ (rev (map snd r) ++ [f]) ++ hand (GTaking d) ++ g_drawn s)).
    { intros x. rewrite !in_app_iff. cbn. tauto. }
    split; [|intros x X; apply B, Sub, X].
    rewrite !later_app in *. destruct L as (L1 & ((L2 & L3 & L4) & (L5 & L6 & L7) & L8) & L9). cbn.
    repeat split; auto.
    + intros y Y. apply L8; auto. rewrite in_app_iff. cbn. auto. rewrite in_app_iff. auto.
    + intros x y X [<-|Y]; [apply L4; cbn; auto|]. apply L8; rewrite in_app_iff; auto.
    + intros x y X Y. apply L9; auto. rewrite !in_app_iff in *. cbn in *. tauto.
  - exists p. rewrite H in *. auto.
  - exists p. rewrite H in *. auto.
  - exists p. rewrite H in *. split; auto. destruct d; cbn in *; auto.
  - exists p. rewrite H in *. auto.
Qed.
Lemma ord_init : ord (g_init 1).
Proof. exists SOut. repeat split; cbn; auto. intros f []. Qed.
Lemma ord_reach s : greach 1 s -> ord s.
Proof. intro R. unfold greach in R. pose proof ord_init as I. revert I. induction R; auto. intro I. apply IHR. eapply ord_step; eauto. Qed.
Lemma drawn_in_order s : greach 1 s -> decreasing (g_drawn s) /\ (forall f, In f (g_drawn s) -> f < g_frames s).
Proof.
  intro R. destruct (ord_reach s R) as (p & _ & L & B). unfold course in *. rewrite !later_app in L. split.
  - apply later_decreasing. tauto.
  - intros f F. apply B. rewrite !in_app_iff. auto.
Qed.
Definition old_last : list act := [AGui; ASim 0; ASim 1; ASim 1; ASim 1; ASim 1; ASim 1; AGui; AGui; AGui; AGui; AGui; ASim 0; ASim 0; ASim 0; ASim 0; AGui; AGui; AGui; AGui; AGui; AGui].
Lemma two_out_of_order : exists s, greach 2 s /\ ~ decreasing (g_drawn s).
Proof.
  destruct (grun old_last (g_init 2)) as [s|] eqn:E; [|vm_compute in E; discriminate].
  exists s. split; [eapply grun_reach; eauto|]. vm_compute in E. injection E as <-. cbn. intro D.
  specialize (D 0 1 _ _ ltac:(lia) eq_refl eq_refl). lia.
Qed.

(** ** The next frame. *)
Lemma next_frame s s' : greach 1 s -> g_waiting s = true -> g_sims s = [SOut] -> gsteps s s' -> g_frames s < g_frames s' ->
  exists f, g_frames s <= f /\ coming f s'.
Proof.
  intros R W Hp T. set (k := g_frames s).
  assert (G : (g_frames s = k /\ g_waiting s = true /\ g_sims s = [SOut]) \/ (exists f, k <= f /\ coming f s)) by (left; auto).
  intro Lt. assert (Gn : (g_frames s' = k /\ g_waiting s' = true /\ g_sims s' = [SOut]) \/ (exists f, k <= f /\ coming f s')).
  { clear W Hp. clearbody k. clear Lt. revert R G. induction T as [|x y z St T IH]; auto. intros R G.
    assert (Ry : greach 1 y) by (eapply reach_steps; [exact R|]; apply one_step; auto). apply IH; auto. clear IH T z.
    pose proof (ord_reach x R) as (p & Hp & L & _). pose proof (never_full 1 y ltac:(lia) Ry) as (_ & NF & _).
    pose proof (never_full 1 x ltac:(lia) R) as (_ & NFx & _).
    destruct G as [(E1 & E2 & E3)|(f & Kf & C)].
    - destruct St; cbn; try (match goal with H : nth_error (g_sims _) _ = Some _ |- _ => rewrite E3 in H; apply one_sim in H as [-> H]; try discriminate H end);
        try (left; auto; fail).
      + congruence.
      + right. exists k. split; auto. left. exists 0. left. cbn. unfold with_sim. rewrite E3, E1. reflexivity.
    - right. unfold coming in C. rewrite Hp in C.
      destruct C as [(i & C)|C].
      { assert (C' : i = 0 /\ (p = SChecked f \/ p = SLocked f)).
        { destruct C as [C|C]; apply one_sim in C as [-> <-]; auto. }
        clear C. destruct C' as [-> C]. destruct St; unfold with_sim in *;
          try (match goal with H : nth_error (g_sims _) _ = Some _ |- _ => rewrite Hp in H; apply one_sim in H as [-> H]; subst p; try (destruct C as [C|C]; congruence) end);
          try (exists f; split; auto; left; exists 0; cbn; rewrite Hp; cbn; destruct C as [C|C]; rewrite C; auto; fail).
        - destruct C as [C|C]; [|discriminate]. injection C as ->. exists f. split; auto. left. exists 0. cbn. rewrite Hp. cbn. auto.
        - destruct C as [C|C]; [discriminate|]. injection C as ->. exists f. split; auto. right. left. exists 0. cbn. rewrite in_app_iff. cbn. auto.
        - exfalso. apply NF. left. cbn. unfold with_sim. rewrite Hp. cbn. auto. }
      destruct C as [(i & C)|C].
      { destruct St; unfold with_sim in *; try (exists f; split; auto; right; left; exists i; cbn; auto; fail).
        - exists f. split; auto. right. left. exists i. cbn. rewrite in_app_iff. auto.
        - rewrite H0 in C. destruct C as [C|C].
          + injection C as -> ->. exists f. split; auto. right. right. left. reflexivity.
          + exists f. split; auto. right. left. exists i. cbn. auto. }
      assert (Late : forall d i g r, g_gui x = GTaking (Some d) -> g_queue x = (i, g) :: r -> d < g).
      { intros d i g r X Y. unfold course in L. rewrite X, Y in L. cbn in L. rewrite !later_app in L. cbn in L.
        destruct L as (_ & (_ & _ & L) & _). apply L; [rewrite in_app_iff; cbn; auto|auto]. }
      destruct St; unfold with_sim in *;
        try (exists f; split; auto; right; right; exact C; fail).
      + (* ask *) exists f. split; auto. right. right. cbn. rewrite H in C. destruct C as [C|[C|[C|C]]]; try discriminate. auto.
      + (* lock *) exists f. split; auto. right. right. cbn. rewrite H in C. destruct C as [C|[C|[C|C]]]; try discriminate. auto.
      + (* take *) rewrite H in C. destruct C as [C|[C|[C|C]]]; try discriminate.
        * injection C as ->. exists f0. pose proof (Late _ _ _ _ H H0). split; [lia|]. right. right. left. reflexivity.
        * exists f. split; auto. right. right. cbn. auto.
      + (* empty *) rewrite H in C. exists f. split; auto. right. right. cbn. destruct C as [C|[C|[C|C]]]; try discriminate; auto. injection C as ->. auto.
      + rewrite H in C. exists f. split; auto. right. right. cbn. destruct C as [C|[C|[C|C]]]; try discriminate; auto. injection C as ->. auto.
      + rewrite H in C. exists f. split; auto. right. right. cbn. destruct C as [C|[C|[C|C]]]; try discriminate; auto.
        * injection C as ->. cbn. auto.
        * destruct d; cbn; auto. }
  destruct Gn as [(E & _)|G']; auto. lia.
Qed.
Definition lost : list act := [AGui; ASim 0; ASim 0; ASim 0; ASim 0; AGui; AGui; AGui; AGui; AGui; AGui].
Lemma request_lost : exists s s', greach 1 s /\ g_gui s = GAsked /\ g_waiting s = true /\ gsteps s s' /\ g_frames s < g_frames s' /\
  g_sims s' = [SOut] /\ ~ (exists f, g_frames s <= f /\ coming f s').
Proof.
  destruct (grun lost (g_init 1)) as [s|] eqn:E; [|vm_compute in E; discriminate].
  destruct (grun [ASim 0; ASim 0] s) as [s'|] eqn:E'; [|vm_compute in E; injection E as <-; vm_compute in E'; discriminate].
  exists s, s'. split; [eapply grun_reach; eauto|]. assert (T : gsteps s s') by (eapply grun_steps; eauto).
  vm_compute in E. injection E as <-. vm_compute in E'. injection E' as <-. cbn in *. repeat split; auto.
  intros (f & F & C). destruct C as [(i & C)|[(i & [])|[C|[C|[C|[C|[]]]]]]]; try discriminate; try lia.
  destruct C as [C|C]; apply one_sim in C as [_ C]; discriminate.
Qed.

(** ** Buttons. *)
Definition count {A} (t : A -> bool) (l : list A) : nat := length (filter t l).
Lemma count_set {A} (t : A -> bool) l i x y : nth_error l i = Some y ->
  count t (set_nth l i x) + (if t y then 1 else 0) = count t l + (if t x then 1 else 0).
Proof.
  unfold count, set_nth. revert i; induction l as [|z l IH]; intros [|i] H; try discriminate.
  - injection H as ->. cbn. destruct (t x), (t y); cbn; lia.
  - cbn in *. specialize (IH i H). destruct (t z); cbn; lia.
Qed.
Lemma count_app {A} (t : A -> bool) l m : count t (l ++ m) = count t l + count t m.
Proof. unfold count. rewrite filter_app, app_length. auto. Qed.
Lemma count_zero {A} (t : A -> bool) l : (forall x, In x l -> t x = false) -> count t l = 0.
Proof. unfold count. induction l as [|x l IH]; cbn; intro H; auto. rewrite (H x); auto. Qed.
Lemma count_le {A} (t u : A -> bool) l : (forall x, t x = true -> u x = true) -> count t l <= count u l.
Proof. unfold count. intro H. induction l as [|x l IH]; cbn; auto. specialize (H x). destruct (t x); [rewrite H by auto; cbn; lia|]. destruct (u x); cbn; lia. Qed.
Arguments count : simpl never.
Definition is_frame (p : lpc) : bool := match p with LFrame => true | _ => false end.
Lemma stopped nI s s' : bpath nI only_loops s s' -> b_go s = false -> (forall p, In p (b_loops s) -> p <> LNew) ->
  b_iters s' + in_frame s' <= b_iters s + in_frame s.
Proof.
  change (in_frame s') with (count is_frame (b_loops s')). change (in_frame s) with (count is_frame (b_loops s)).
  induction 1 as [|s l s1 s2 St Ok P IH]; intros G N; auto.
  assert (K : b_go s1 = false /\ (forall p, In p (b_loops s1) -> p <> LNew) /\ b_iters s1 + count is_frame (b_loops s1) <= b_iters s + count is_frame (b_loops s)).
  { destruct St; cbn in *; try contradiction; auto;
      try (exfalso; match goal with H : nth_error _ _ = Some LNew |- _ => apply nth_error_In in H; apply N in H; congruence end); try congruence;
      match goal with H : nth_error _ _ = Some ?p |- context [set_nth _ _ ?x] => pose proof (count_set is_frame _ _ x _ H) as C; cbn in C end;
      (split; [auto|split; [intros p X; apply in_set_nth in X as [->|X]; [discriminate|auto]|lia]]). }
  destruct K as (K1 & K2 & K3). specialize (IH K1 K2). lia.
Qed.
Lemma stop_works nI s s1 s2 : (forall p, In p (b_loops s) -> p <> LNew) -> bstep nI BStop s s1 -> bpath nI only_loops s1 s2 ->
  b_iters s2 + in_frame s2 <= b_iters s + in_frame s.
Proof. intros N St P. inversion St; subst. exact (stopped nI _ _ P eq_refl N). Qed.
Lemma run_on nI k : forall it, it + k = nI -> bpath nI only_loops (mkB true it [LTest] []) (mkB true nI [LTest] []).
Proof.
  induction k as [|k IH]; intros it E.
  - replace it with nI by lia. constructor.
  - econstructor; [apply (l_frame nI (mkB true it [LTest] []) 0); cbn; auto; lia|exact I|].
    econstructor; [apply (l_framed nI (mkB true it [LFrame] []) 0); reflexivity|exact I|]. cbn. apply IH. lia.
Qed.
Lemma stop_lost nI : exists s s1 s2, bpath nI anything b_init0 s /\ bstep nI BStop s s1 /\ bpath nI only_loops s1 s2 /\ in_frame s = 0 /\ b_iters s = 0 /\ b_iters s2 = nI.
Proof.
  exists (mkB false 0 [LNew] []), (mkB false 0 [LNew] []), (mkB true nI [LTest] []). repeat split.
  - econstructor; [apply b_run|exact I|]. constructor.
  - apply (b_stop nI (mkB false 0 [LNew] [])).
  - econstructor; [apply (l_go nI (mkB false 0 [LNew] []) 0); reflexivity|exact I|]. cbn. apply (run_on nI nI). lia.
Qed.
Lemma two_loops nI : 0 < nI -> exists s, bpath nI anything b_init0 s /\ in_frame s = 2.
Proof.
  intro P. exists (mkB true 0 [LFrame; LFrame] []). split; auto.
  econstructor; [apply b_run|exact I|]. econstructor; [apply b_run|exact I|]. cbn.
  econstructor; [apply (l_go nI (mkB false 0 [LNew; LNew] []) 0); reflexivity|exact I|].
  econstructor; [apply (l_go nI (mkB true 0 [LTest; LNew] []) 1); reflexivity|exact I|].
  econstructor; [apply (l_frame nI (mkB true 0 [LTest; LTest] []) 0); auto|exact I|].
  econstructor; [apply (l_frame nI (mkB true 0 [LFrame; LTest] []) 1); auto|exact I|]. constructor.
Qed.
Lemma init_in_frame nI : 0 < nI -> exists s, bpath nI anything b_init0 s /\ in_frame s = 1 /\ building s = 1.
Proof.
  intro P. exists (mkB false 0 [LFrame] [IBuild]). split; auto.
  econstructor; [apply b_run|exact I|]. cbn.
  econstructor; [apply (l_go nI (mkB false 0 [LNew] []) 0); reflexivity|exact I|].
  econstructor; [apply (l_frame nI (mkB true 0 [LTest] []) 0); auto|exact I|].
  econstructor; [apply (b_init nI (mkB true 0 [LFrame] []))|exact I|].
  econstructor; [apply (i_build nI (mkB true 0 [LFrame] [INew]) 0); reflexivity|exact I|]. constructor.
Qed.
Definition alive (p : lpc) : bool := match p with LEnd => false | _ => true end.
Definition ialive (p : ipc) : bool := match p with IEnd => false | _ => true end.
Definition is_build (p : ipc) : bool := match p with IBuild => true | _ => false end.
Lemma patient_alone nI s : bpath nI patient b_init0 s -> in_frame s + building s <= 1.
Proof.
  intro P. assert (K : count alive (b_loops s) + count ialive (b_inits s) <= 1).
  { assert (K0 : count alive (b_loops b_init0) + count ialive (b_inits b_init0) <= 1) by (unfold count; cbn; lia). revert K0.
    induction P as [|s l s1 s2 St Ok P IH]; auto. intro K. apply IH. clear IH P s2. destruct St; cbn in *; auto;
      try (match goal with H : nth_error _ _ = Some ?p |- context [count alive (set_nth _ _ ?x)] => pose proof (count_set alive _ _ x _ H) as C; cbn in C; lia end);
      try (match goal with H : nth_error _ _ = Some ?p |- context [count ialive (set_nth _ _ ?x)] => pose proof (count_set ialive _ _ x _ H) as C; cbn in C; lia end).
    - destruct Ok as [O1 O2]. rewrite count_app, (count_zero alive), (count_zero ialive); [unfold count; cbn; lia| |].
      + intros x X. apply O2 in X. subst. reflexivity.
      + intros x X. apply O1 in X. subst. reflexivity.
    - destruct Ok as [O1 O2]. rewrite count_app, (count_zero alive), (count_zero ialive); [unfold count; cbn; lia| |].
      + intros x X. apply O2 in X. subst. reflexivity.
      + intros x X. apply O1 in X. subst. reflexivity. }
  pose proof (count_le is_frame alive (b_loops s) ltac:(intros []; auto; discriminate)).
  pose proof (count_le is_build ialive (b_inits s) ltac:(intros []; auto; discriminate)).
  change (in_frame s) with (count is_frame (b_loops s)). change (building s) with (count is_build (b_inits s)). lia.
Qed.

Lemma patient_count nI s : bpath nI patient b_init0 s -> b_iters s + in_frame s <= nI.
Proof.
  intro P. assert (K : count alive (b_loops s) + count ialive (b_inits s) <= 1 /\ b_iters s + count is_frame (b_loops s) <= nI).
  { assert (K0 : count alive (b_loops b_init0) + count ialive (b_inits b_init0) <= 1 /\ b_iters b_init0 + count is_frame (b_loops b_init0) <= nI) by (unfold count; cbn; lia). revert K0.
    induction P as [|s l s1 s2 St Ok P IH]; auto. intro K. apply IH. clear IH P s2. destruct K as [K1 K2].
    pose proof (count_le is_frame alive (b_loops s) ltac:(intros []; auto; discriminate)) as K3.
    destruct St; cbn in *; auto;
      try (match goal with H : nth_error (b_loops _) _ = Some ?p |- context [count alive (set_nth _ _ ?x)] =>
        pose proof (count_set alive _ _ x _ H) as C; pose proof (count_set is_frame _ _ x _ H) as D; cbn in C, D;
        pose proof (count_le is_frame alive (set_nth (b_loops s) i x) ltac:(intros []; auto; discriminate)); lia end);
      try (match goal with H : nth_error (b_inits _) _ = Some ?p |- context [count ialive (set_nth _ _ ?x)] => pose proof (count_set ialive _ _ x _ H) as C; cbn in C; lia end).
    - destruct Ok as [O1 O2]. rewrite !count_app, (count_zero alive), (count_zero ialive), (count_zero is_frame); [unfold count in *; cbn; lia| | |].
      + intros x X. apply O1 in X. subst. reflexivity.
      + intros x X. apply O2 in X. subst. reflexivity.
      + intros x X. apply O1 in X. subst. reflexivity.
    - destruct Ok as [O1 O2]. rewrite !count_app, (count_zero alive), (count_zero ialive); [unfold count in *; cbn; lia| |].
      + intros x X. apply O2 in X. subst. reflexivity.
      + intros x X. apply O1 in X. subst. reflexivity. }
  change (in_frame s) with (count is_frame (b_loops s)). lia.
Qed.
Lemma run_until nI : forall k it, it + k <= nI -> bpath nI anything (mkB true it [LTest; LTest] []) (mkB true (it + k) [LTest; LTest] []).
Proof.
  induction k as [|k IH]; intros it L; [rewrite Nat.add_0_r; constructor|].
  econstructor; [apply (l_frame nI (mkB true it [LTest; LTest] []) 0); cbn; auto; lia|exact I|].
  econstructor; [apply (l_framed nI (mkB true it [LFrame; LTest] []) 0); reflexivity|exact I|]. cbn. replace (it + S k) with (S it + k) by lia. apply IH. lia.
Qed.
Lemma bpath_app nI ok a b c : bpath nI ok a b -> bpath nI ok b c -> bpath nI ok a c.
Proof. induction 1; auto. intro X. econstructor; eauto. Qed.
Lemma too_many nI : 0 < nI -> exists s, bpath nI anything b_init0 s /\ b_iters s = S nI.
Proof.
  intro P. exists (mkB true (S nI) [LTest; LTest] []). split; auto.
  econstructor; [apply b_run|exact I|]. econstructor; [apply b_run|exact I|]. cbn.
  econstructor; [apply (l_go nI (mkB false 0 [LNew; LNew] []) 0); reflexivity|exact I|].
  econstructor; [apply (l_go nI (mkB true 0 [LTest; LNew] []) 1); reflexivity|exact I|].
  apply (bpath_app nI anything _ (mkB true (nI - 1) [LTest; LTest] [])); [apply (run_until nI (nI - 1) 0); lia|].
  econstructor; [apply (l_frame nI (mkB true (nI - 1) [LTest; LTest] []) 0); cbn; auto; lia|exact I|].
  econstructor; [apply (l_frame nI (mkB true (nI - 1) [LFrame; LTest] []) 1); cbn; auto; lia|exact I|].
  econstructor; [apply (l_framed nI (mkB true (nI - 1) [LFrame; LFrame] []) 0); reflexivity|exact I|].
  econstructor; [apply (l_framed nI (mkB true (S (nI - 1)) [LTest; LFrame] []) 1); reflexivity|exact I|]. cbn. replace (S (nI - 1)) with nI by lia. constructor.
Qed.

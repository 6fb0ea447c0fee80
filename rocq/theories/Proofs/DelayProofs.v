From Verif.Base Require Import Py PyFacts.
From Verif.Model Require Import Delay.
From Verif.Spec Require Import DelaySpec.

Section DelayProofs.
  Context {V : Type}.
  Variable zero_like : V -> V.

  Lemma pops_spec n (b : list V) r :
    (n <= length b)%nat ->
    pops n b r = (skipn n b, match n with O => r | S k => match nth_error b k with Some x => Ok x | None => r end end).
  Proof.
    revert b r; induction n as [|n IH]; intros b r H; simpl; auto.
    destruct b as [|x b]; simpl in *; [lia|].
    rewrite IH by lia. f_equal. destruct n as [|n]; auto.
    simpl. destruct (nth_error b n) eqn:E; [reflexivity|]. apply nth_error_None in E. lia.
  Qed.

  Lemma delay_short (b : list V) v c :
    Z.of_nat (length b) + 1 <= c -> delay zero_like b v c = (b ++ [v], Ok (zero_like v)).
  Proof.
    intros H. unfold delay. rewrite app_length; simpl.
    destruct (Z.leb_spec (Z.of_nat (length b + 1)) c); [auto|lia].
  Qed.

  Lemma delay_long (b : list V) v c x :
    0 <= c <= Z.of_nat (length b) ->
    nth_error (b ++ [v]) (length b - Z.to_nat c) = Some x ->
    delay zero_like b v c = (skipn (S (length b - Z.to_nat c)) (b ++ [v]), Ok x).
  Proof.
    intros H Hx. unfold delay. rewrite app_length. simpl (length [v]).
    destruct (Z.leb_spec (Z.of_nat (length b + 1)) c); [lia|].
    rewrite pops_spec by (rewrite app_length; simpl; lia).
    replace (Z.to_nat (Z.of_nat (length b + 1) - c)) with (S (length b - Z.to_nat c)) by lia.
    now rewrite Hx.
  Qed.

  (** m = index of the oldest item still held *)
  Definition held (pre : list (V * Z)) (i : nat) : Prop :=
    forall j vj cj, (i <= j < length pre)%nat -> nth_error pre j = Some (vj, cj) ->
      Z.of_nat (j - i) < cj.

  Definition Inv (pre : list (V * Z)) (b : list V) : Prop :=
    exists m, (m <= length pre)%nat /\ b = skipn m (map fst pre) /\
      forall i, (i <= length pre)%nat -> (held pre i <-> (m <= i)%nat).

  Lemma held_snoc pre v c i : (i <= length pre)%nat ->
    held (pre ++ [(v, c)]) i <-> held pre i /\ Z.of_nat (length pre - i) < c.
  Proof.
    intros Hi. unfold held. split.
    - intros H. split.
      + intros j vj cj Hj E. apply (H j vj cj).
        * rewrite app_length; simpl; lia.
        * rewrite nth_error_app1 by lia. exact E.
      + apply (H (length pre) v c).
        * rewrite app_length; simpl; lia.
        * rewrite nth_error_app2, Nat.sub_diag by lia. reflexivity.
    - intros [H1 H2] j vj cj Hj E. rewrite app_length in Hj; simpl in Hj.
      destruct (Nat.eq_dec j (length pre)) as [->|Hne].
      + rewrite nth_error_app2, Nat.sub_diag in E by lia. simpl in E. inversion E; subst. exact H2.
      + rewrite nth_error_app1 in E by lia. apply (H1 j vj cj); [lia|exact E].
  Qed.

  Lemma held_end pre : held pre (length pre).
  Proof. intros j vj cj H. lia. Qed.

  Lemma skipn_map_snoc (pre : list (V * Z)) (v : V) (c : Z) m : (m <= length pre)%nat ->
    skipn m (map fst pre) ++ [v] = skipn m (map fst (pre ++ [(v, c)])).
  Proof.
    intros Hm. rewrite map_app, skipn_app, map_length. simpl.
    replace (m - length pre)%nat with O by lia. reflexivity.
  Qed.

  Lemma skipn_skipn' (l : list V) a b : skipn a (skipn b l) = skipn (b + a) l.
  Proof. revert l; induction b as [|b IH]; intros [|x l]; simpl; auto. now rewrite skipn_nil. Qed.

  (** One call: the result agrees with the history specification and the invariant is kept. *)
  Lemma delay_step pre b v c :
    Inv pre b -> 0 <= c ->
    exists b' x, delay zero_like b v c = (b', Ok x) /\ Inv (pre ++ [(v, c)]) b' /\
      let n := length pre in
      ((Z.to_nat c <= n)%nat /\ held pre (n - Z.to_nat c) ->
          exists cv, nth_error (pre ++ [(v, c)]) (n - Z.to_nat c) = Some (x, cv)) /\
      (~ ((Z.to_nat c <= n)%nat /\ held pre (n - Z.to_nat c)) -> x = zero_like v).
  Proof.
    intros (m & Hm & Eb & Hh) Hc.
    assert (Lb : length b = (length pre - m)%nat) by (subst b; rewrite skipn_length, map_length; lia).
    destruct (Z_le_gt_dec (Z.of_nat (length b) + 1) c) as [Hs|Hl].
    - (* buffer not yet full *)
      rewrite delay_short by exact Hs. eexists _, _. split; [reflexivity|]. split.
      + exists m. rewrite app_length; simpl. split; [lia|]. split.
        * rewrite Eb. apply skipn_map_snoc. exact Hm.
        * intros i Hi. destruct (Nat.eq_dec i (length pre + 1)) as [->|Hne].
          { split; intros _; [lia|]. replace (length pre + 1)%nat with (length (pre ++ [(v, c)])) by (rewrite app_length; simpl; lia). apply held_end. }
          rewrite held_snoc by lia. rewrite (Hh i) by lia. split; [tauto|].
          intros Hmi. split; [exact Hmi|]. lia.
      + simpl. split.
        * intros [H1 H2]. exfalso. apply (Hh (length pre - Z.to_nat c)%nat) in H2; lia.
        * reflexivity.
    - (* pop *)
      assert (Hidx : (m + (length b - Z.to_nat c) = length pre - Z.to_nat c)%nat) by lia.
      destruct (nth_error (b ++ [v]) (length b - Z.to_nat c)) as [x|] eqn:Ex.
      2: { apply nth_error_None in Ex. rewrite app_length in Ex; simpl in Ex. lia. }
      rewrite (delay_long b v c x) by (auto; lia).
      eexists _, _. split; [reflexivity|]. split.
      + exists (S (m + (length b - Z.to_nat c))). rewrite app_length; cbn [length]. split; [lia|]. split.
        * replace (b ++ [v]) with (skipn m (map fst (pre ++ [(v, c)])))
            by (rewrite Eb; symmetry; apply skipn_map_snoc; exact Hm).
          rewrite skipn_skipn'. f_equal. lia.
        * intros i Hi. destruct (Nat.eq_dec i (length pre + 1)) as [->|Hne].
          { split; intros _; [lia|]. replace (length pre + 1)%nat with (length (pre ++ [(v, c)])) by (rewrite app_length; simpl; lia). apply held_end. }
          rewrite held_snoc by lia. rewrite (Hh i) by lia. split.
          { intros [H1 H2]. lia. }
          { intros H. split; lia. }
      + simpl. split.
        * intros _.
          replace (b ++ [v]) with (skipn m (map fst (pre ++ [(v, c)]))) in Ex
            by (rewrite Eb; symmetry; apply skipn_map_snoc; exact Hm).
          rewrite nth_error_skipn in Ex. rewrite Hidx in Ex.
          rewrite nth_error_map in Ex.
          destruct (nth_error (pre ++ [(v, c)]) (length pre - Z.to_nat c)) as [[w cw]|]; [|discriminate].
          simpl in Ex. inversion Ex; subst. eauto.
        * intros H. exfalso. apply H. split; [lia|]. apply Hh; lia.
  Qed.

  Lemma held_app_iff pre post n i :
    (i <= n)%nat -> (n = length pre)%nat ->
    (held pre i <->
     forall j vj cj, (i <= j < n)%nat -> nth_error (pre ++ post) j = Some (vj, cj) -> Z.of_nat (j - i) < cj).
  Proof.
    intros Hi ->. unfold held. split; intros H j vj cj Hj E.
    - apply (H j vj cj Hj). rewrite nth_error_app1 in E by lia. exact E.
    - apply (H j vj cj Hj). rewrite nth_error_app1 by lia. exact E.
  Qed.

  Lemma run_delay_gen post : forall pre b,
    Inv pre b -> Forall (fun p => 0 <= snd p) post ->
    length (run_delay zero_like b post) = length post /\
    forall k x c, nth_error post k = Some (x, c) ->
      let n := (length pre + k)%nat in
      (available (pre ++ post) n (Z.to_nat c) ->
         exists v cv, nth_error (pre ++ post) (n - Z.to_nat c) = Some (v, cv) /\
                      nth_error (run_delay zero_like b post) k = Some (Ok v)) /\
      (~ available (pre ++ post) n (Z.to_nat c) ->
         nth_error (run_delay zero_like b post) k = Some (Ok (zero_like x))).
  Proof.
    induction post as [|[v c] post IH]; intros pre b HI HF; simpl.
    { split; auto. intros [|k] x c H; discriminate. }
    inversion HF as [|p l Hc HF']; subst; simpl in Hc.
    destruct (delay_step pre b v c HI Hc) as (b' & y & Ed & HI' & Ha & Hna).
    rewrite Ed. specialize (IH (pre ++ [(v, c)]) b' HI' HF').
    rewrite <- app_assoc in IH; simpl in IH. destruct IH as [IL IP].
    split; [simpl; congruence|].
    intros [|k] x c' E; simpl in E.
    - inversion E; subst x c'. rewrite Nat.add_0_r. simpl nth_error.
      assert (AV : available (pre ++ (v, c) :: post) (length pre) (Z.to_nat c) <->
                   ((Z.to_nat c <= length pre)%nat /\ held pre (length pre - Z.to_nat c))).
      { unfold available. split; intros [H1 H2]; split; auto;
        eapply (held_app_iff pre ((v, c) :: post) (length pre)); eauto; lia. }
      split.
      + intros A. apply AV in A. destruct (Ha A) as [cv Hcv].
        exists y, cv. split; [|reflexivity].
        replace (pre ++ (v, c) :: post) with ((pre ++ [(v, c)]) ++ post) by (rewrite <- app_assoc; reflexivity).
        rewrite nth_error_app1; [exact Hcv|]. rewrite app_length; simpl; lia.
      + intros A. rewrite AV in A. rewrite (Hna A). reflexivity.
    - specialize (IP k x c' E). rewrite app_length in IP; simpl in IP.
      replace (length pre + 1 + k)%nat with (length pre + S k)%nat in IP by lia. exact IP.
  Qed.

  Lemma Inv_nil : Inv [] [].
  Proof.
    exists O. split; [auto|]. split; [reflexivity|]. intros i Hi. split; intros _; [lia|].
    intros j vj cj Hj. simpl in Hj. lia.
  Qed.

  Lemma run_delay_history calls :
    Forall (fun p => 0 <= snd p) calls ->
    delay_history zero_like calls (run_delay zero_like new_buffer calls).
  Proof.
    intros HF. destruct (run_delay_gen calls [] [] Inv_nil HF) as [HL HP].
    split; [exact HL|]. intros n x c E. exact (HP n x c E).
  Qed.

  Lemma run_delay_const d xs :
    delayed_by zero_like d xs (run_delay zero_like new_buffer (map (fun x => (x, Z.of_nat d)) xs)).
  Proof.
    set (calls := map (fun x => (x, Z.of_nat d)) xs).
    assert (HF : Forall (fun p : V * Z => 0 <= snd p) calls).
    { apply Forall_forall. intros [y c] Hy. unfold calls in Hy. apply in_map_iff in Hy.
      destruct Hy as (x & E & _). inversion E; subst; simpl; lia. }
    destruct (run_delay_history calls HF) as [HL HP].
    split. { rewrite HL. unfold calls. apply map_length. }
    intros n x E.
    assert (En : nth_error calls n = Some (x, Z.of_nat d)).
    { unfold calls. rewrite nth_error_map, E. reflexivity. }
    specialize (HP n x _ En). rewrite Nat2Z.id in HP. destruct HP as [HA HN].
    destruct (Nat.ltb_spec n d) as [Hlt|Hge].
    - apply HN. intros [H _]. lia.
    - destruct HA as (v & cv & E1 & E2).
      { split; [exact Hge|]. intros j vj cj Hj Ej. unfold calls in Ej.
        rewrite nth_error_map in Ej. destruct (nth_error xs j); [|discriminate]. simpl in Ej.
        inversion Ej; subst. lia. }
      rewrite E2. unfold calls in E1. rewrite nth_error_map in E1.
      destruct (nth_error xs (n - d)); [|discriminate]. simpl in E1. inversion E1; subst. reflexivity.
  Qed.

  (** Delivery is in order: a later call never delivers an item that is not newer. *)
  Lemma available_order (calls : list (V * Z)) n1 n2 v1 c1 v2 c2 :
    (n1 < n2)%nat ->
    nth_error calls n1 = Some (v1, c1) -> nth_error calls n2 = Some (v2, c2) ->
    0 <= c1 -> 0 <= c2 ->
    available calls n1 (Z.to_nat c1) -> available calls n2 (Z.to_nat c2) ->
    (n1 - Z.to_nat c1 < n2 - Z.to_nat c2)%nat.
  Proof.
    intros Hn E1 E2 P1 P2 [A1 _] [A2 H2].
    destruct (le_lt_dec (n2 - Z.to_nat c2) n1) as [Hle|]; [|lia].
    specialize (H2 n1 v1 c1 ltac:(lia) E1). lia.
  Qed.

  (** A negative setting empties the buffer and raises IndexError. *)
  Lemma delay_negative (b : list V) v c : c < 0 -> delay zero_like b v c = ([], Err IndexError).
  Proof.
    intros Hc. unfold delay. rewrite app_length; simpl (length [v]).
    destruct (Z.leb_spec (Z.of_nat (length b + 1)) c); [lia|].
    assert (G : forall n (l : list V) r, (length l < n)%nat -> pops n l r = ([], Err IndexError)).
    { induction n as [|n IH]; intros l r Hl; [lia|]. destruct l as [|x l]; simpl; auto.
      apply IH. simpl in Hl. lia. }
    apply G. rewrite app_length; simpl. lia.
  Qed.

  (** ** Heap refinement *)
  Variable dflt : V.

  (** The pure counterpart of a run: [cv] is the content of the current array. *)
  Fixpoint prun (cv : V) (b : list V) (ops : list (lop V)) : list (result V) :=
    match ops with
    | [] => []
    | LFrame v c :: rest =>
        match delay zero_like b v c with
        | (b', Ok x) => Ok x :: prun x b' rest
        | (_, Err e) => [Err e]
        end
    | LFrameNoDM c :: rest =>
        match delay zero_like b cv c with
        | (b', Ok x) => Ok x :: prun x b' rest
        | (_, Err e) => [Err e]
        end
    | LReset :: rest => prun (zero_like cv) b rest
    end.

  Definition LInv (s : lstate V) : Prop :=
    (cur s < length (hp s))%nat /\ Forall (fun l => (l < length (hp s))%nat) (buf s) /\
    NoDup (buf s) /\ ~ In (cur s) (buf s).

  Definition absb (s : lstate V) : list V := map (fun l => deref (hp s) l dflt) (buf s).

  Lemma map_deref_upd h b l v :
    ~ In l b -> map (fun k => deref (upd h l v) k dflt) b = map (fun k => deref h k dflt) b.
  Proof.
    intros H. apply map_ext_in. intros k Hk. unfold deref. apply upd_nth_other.
    intros ->. contradiction.
  Qed.

  Lemma pops_ref_spec n b r :
    (n <= length b)%nat ->
    pops_ref n b r = (skipn n b, match n with O => r | S k => match nth_error b k with Some x => Ok x | None => r end end).
  Proof.
    revert b r; induction n as [|n IH]; intros b r H; simpl; auto.
    destruct b as [|x b]; simpl in *; [lia|].
    rewrite IH by lia. f_equal. destruct n as [|n]; auto.
    simpl. destruct (nth_error b n) eqn:E; [reflexivity|]. apply nth_error_None in E. lia.
  Qed.

  Lemma pops_ref_over n b r : (length b < n)%nat -> pops_ref n b r = ([], Err IndexError).
  Proof.
    revert b r; induction n as [|n IH]; intros b r Hl; [lia|]. destruct b as [|x b]; simpl; auto.
    apply IH. simpl in Hl. lia.
  Qed.

  Lemma NoDup_app_r {A} (l1 l2 : list A) : NoDup (l1 ++ l2) -> NoDup l2.
  Proof. induction l1 as [|x l1 IH]; simpl; auto. intros H; inversion H; auto. Qed.

  (** The delay call on references agrees with the call on contents. *)
  Lemma delay_ref_refines h b l c :
    (l < length h)%nat -> Forall (fun k => (k < length h)%nat) b -> NoDup b -> ~ In l b ->
    let rd h k := deref h k dflt in
    match delay_ref zero_like dflt h b l c with
    | (h', b', Ok l') =>
        LInv (mkL h' l' b') /\
        delay zero_like (map (rd h) b) (rd h l) c = (map (rd h') b', Ok (rd h' l'))
    | (_, _, Err e) =>
        snd (delay zero_like (map (rd h) b) (rd h l) c) = Err e
    end.
  Proof.
    intros Hl Hb Hnd Hni rd. unfold delay_ref, delay. rewrite !app_length, map_length.
    simpl (length [_]).
    assert (Hnd1 : NoDup (b ++ [l])).
    { apply (NoDup_Add (a := l) (l := b)); [|split; auto].
      clear. induction b as [|x b IH]; simpl; constructor; auto. }
    assert (Hb1 : Forall (fun k => (k < length h)%nat) (b ++ [l])).
    { apply Forall_app; split; auto. }
    destruct (Z.leb_spec (Z.of_nat (length b + 1)) c) as [Hle|Hgt].
    - (* fresh zero array *)
      split.
      + unfold LInv; simpl. rewrite app_length; simpl. repeat split.
        * lia.
        * eapply Forall_impl; [|exact Hb1]. simpl. intros; lia.
        * exact Hnd1.
        * intros Hin. rewrite Forall_forall in Hb1. apply Hb1 in Hin. lia.
      + f_equal.
        * rewrite map_app; simpl. f_equal.
          { apply map_ext_in. intros k Hk. unfold rd, deref. rewrite app_nth1; auto.
            rewrite Forall_forall in Hb. apply Hb; auto. }
          { f_equal. unfold rd, deref. rewrite app_nth1; auto. }
        * f_equal. unfold rd, deref. rewrite app_nth2, Nat.sub_diag by lia. reflexivity.
    - destruct (Z_lt_le_dec c 0) as [Hneg|Hnn].
      + rewrite pops_ref_over by (rewrite app_length; simpl; lia).
        change (map (rd h) b ++ [rd h l]) with (map (rd h) b ++ map (rd h) [l]).
        rewrite <- map_app.
        assert (G : forall n (q : list V) r, (length q < n)%nat -> pops n q r = ([], Err IndexError)).
        { induction n as [|n IH]; intros q r Hq; [lia|]. destruct q as [|x q]; simpl; auto.
          apply IH. simpl in Hq. lia. }
        rewrite G; [reflexivity|]. rewrite map_length, app_length; simpl. lia.
      + set (n := Z.to_nat (Z.of_nat (length b + 1) - c)).
        assert (Hn : (1 <= n <= length (b ++ [l]))%nat) by (rewrite app_length; simpl; lia).
        rewrite pops_ref_spec by lia.
        destruct n as [|k] eqn:En; [lia|].
        destruct (nth_error (b ++ [l]) k) as [x|] eqn:Ex.
        2: { apply nth_error_None in Ex. lia. }
        assert (Hsplit : b ++ [l] = firstn k (b ++ [l]) ++ x :: skipn (S k) (b ++ [l])).
        { rewrite <- (firstn_skipn k (b ++ [l])) at 1. f_equal.
          clear - Ex. revert Ex. generalize (b ++ [l]) as q. induction k as [|k IH]; intros [|y q] E; simpl in *; try discriminate.
          - congruence. - apply IH; auto. }
        split.
        * unfold LInv; cbn [hp cur buf]. rewrite Forall_forall in Hb1. repeat split.
          { apply Hb1. rewrite Hsplit. apply in_or_app. right. left. reflexivity. }
          { apply Forall_forall. intros y Hy. apply Hb1. rewrite Hsplit. apply in_or_app. right. right. exact Hy. }
          { rewrite Hsplit in Hnd1. apply NoDup_app_r in Hnd1. inversion Hnd1; auto. }
          { rewrite Hsplit in Hnd1. apply NoDup_app_r in Hnd1. inversion Hnd1; auto. }
        * change (map (rd h) b ++ [rd h l]) with (map (rd h) b ++ map (rd h) [l]).
          rewrite <- map_app. rewrite pops_spec by (rewrite map_length; lia).
          rewrite nth_error_map, Ex. simpl option_map. cbv iota.
          f_equal. rewrite <- skipn_map. reflexivity.
  Qed.

  Lemma deref_upd_same h l v : (l < length h)%nat -> deref (upd h l v) l dflt = v.
  Proof. intros H. unfold deref. apply upd_nth_same. exact H. Qed.

  Lemma LInv_upd s v : LInv s -> LInv (mkL (upd (hp s) (cur s) v) (cur s) (buf s)).
  Proof.
    intros (H1 & H2 & H3 & H4). unfold LInv; simpl. rewrite upd_length. auto.
  Qed.

  Lemma lrun_refines ops : forall s, LInv s ->
    lrun zero_like dflt s ops = prun (deref (hp s) (cur s) dflt) (absb s) ops.
  Proof.
    induction ops as [|o ops IH]; intros s HI; simpl; auto.
    destruct o as [v c|c|]; simpl.
    - pose proof (LInv_upd s v HI) as (H1 & H2 & H3 & H4); simpl in *.
      pose proof (delay_ref_refines _ _ _ c H1 H2 H3 H4) as R. simpl in R.
      destruct HI as (G1 & G2 & G3 & G4).
      rewrite map_deref_upd in R by exact G4. rewrite deref_upd_same in R by exact G1.
      fold (absb s) in R.
      destruct (delay_ref zero_like dflt (upd (hp s) (cur s) v) (buf s) (cur s) c) as [[h' b'] [l'|e]].
      + destruct R as [R1 R2]. rewrite R2. f_equal. rewrite IH by exact R1. reflexivity.
      + destruct (delay zero_like (absb s) v c) as [b0 r0]. simpl in R. subst r0. reflexivity.
    - destruct HI as (H1 & H2 & H3 & H4).
      pose proof (delay_ref_refines _ _ _ c H1 H2 H3 H4) as R. simpl in R.
      fold (absb s) in R.
      destruct (delay_ref zero_like dflt (hp s) (buf s) (cur s) c) as [[h' b'] [l'|e]].
      + destruct R as [R1 R2]. rewrite R2. f_equal. rewrite IH by exact R1. reflexivity.
      + destruct (delay zero_like (absb s) (deref (hp s) (cur s) dflt) c) as [b0 r0]. simpl in R. subst r0. reflexivity.
    - rewrite IH by (apply LInv_upd; exact HI). simpl.
      destruct HI as (G1 & G2 & G3 & G4).
      rewrite deref_upd_same by exact G1. unfold absb; simpl.
      rewrite map_deref_upd by exact G4. reflexivity.
  Qed.

  Lemma LInv_init z : LInv (linit z).
  Proof. unfold LInv, linit; simpl. repeat split; auto. constructor. Qed.

  (** Frames only: the pure run is the delay line. *)
  Definition frames (calls : list (V * Z)) : list (lop V) := map (fun p => LFrame (fst p) (snd p)) calls.

  Lemma prun_frames calls : forall cv b, prun cv b (frames calls) = run_delay zero_like b calls.
  Proof.
    induction calls as [|[v c] calls IH]; intros cv b; simpl; auto.
    destruct (delay zero_like b v c) as [b' [x|e]]; auto. rewrite IH. reflexivity.
  Qed.

  Lemma lrun_frames z calls :
    lrun zero_like dflt (linit z) (frames calls) = run_delay zero_like new_buffer calls.
  Proof. rewrite lrun_refines by apply LInv_init. apply prun_frames. Qed.

  (** Resets between frames do not disturb the queue: dropping them gives the same deliveries. *)
  Lemma prun_resets ops : forall cv b calls, frames_of ops = Some calls ->
    prun cv b ops = run_delay zero_like b calls.
  Proof.
    induction ops as [|o ops IH]; intros cv b calls E; simpl in E.
    - inversion E; reflexivity.
    - destruct o as [v c|c|]; simpl.
      + destruct (frames_of ops) as [l|] eqn:El; [|discriminate]. simpl in E. inversion E; subst; simpl.
        destruct (delay zero_like b v c) as [b' [x|e]]; auto. erewrite IH by reflexivity. reflexivity.
      + discriminate.
      + apply IH. exact E.
  Qed.

  Lemma lrun_resets z ops calls : frames_of ops = Some calls ->
    lrun zero_like dflt (linit z) ops = run_delay zero_like new_buffer calls.
  Proof. intros E. rewrite lrun_refines by apply LInv_init. apply prun_resets. exact E. Qed.

  (** Delay 0 is transparent whatever the buffer's owner did before with delay 0. *)
  Lemma run_delay_zero_now (b : list V) xs : b = [] ->
    run_delay zero_like b (map (fun x => (x, 0)) xs) = map (@Ok V) xs.
  Proof.
    intros ->. induction xs as [|x xs IH]; simpl; auto. f_equal. exact IH.
  Qed.
  (** Every operation keeps the invariant and does not touch the arrays in the queue. *)
  Lemma lstep_inv s o s' v : LInv s -> lstep zero_like dflt s o = Ok (s', v) ->
    LInv s' /\ forall l, In l (buf s) -> deref (hp s') l dflt = deref (hp s) l dflt.
  Proof.
    intros HI E. destruct o as [w c|c|]; simpl in E.
    - pose proof (LInv_upd s w HI) as (H1 & H2 & H3 & H4); simpl in *.
      pose proof (delay_ref_refines _ _ _ c H1 H2 H3 H4) as R. simpl in R.
      destruct HI as (G1 & G2 & G3 & G4).
      unfold delay_ref in *.
      destruct (Z.leb_spec (Z.of_nat (length (buf s ++ [cur s]))) c).
      + inversion E; subst; clear E. destruct R as [R1 R2]. split; [exact R1|].
        intros l Hl. simpl. unfold deref. rewrite app_nth1.
        * apply upd_nth_other. intros ->. contradiction.
        * rewrite Forall_forall in H2. apply H2; auto.
      + destruct (pops_ref _ _ _) as [b2 [r|e]]; inversion E; subst; clear E.
        destruct R as [R1 R2]. split; [exact R1|]. intros l Hl. simpl. unfold deref.
        apply upd_nth_other. intros ->. contradiction.
    - destruct HI as (G1 & G2 & G3 & G4).
      pose proof (delay_ref_refines _ _ _ c G1 G2 G3 G4) as R. simpl in R.
      unfold delay_ref in *.
      destruct (Z.leb_spec (Z.of_nat (length (buf s ++ [cur s]))) c).
      + inversion E; subst; clear E. destruct R as [R1 R2]. split; [exact R1|].
        intros l Hl. simpl. unfold deref. rewrite app_nth1; auto.
        rewrite Forall_forall in G2. apply G2; auto.
      + destruct (pops_ref _ _ _) as [b2 [r|e]]; inversion E; subst; clear E.
        destruct R as [R1 R2]. split; [exact R1|]. auto.
    - inversion E; subst; clear E. split; [apply LInv_upd; exact HI|].
      destruct HI as (G1 & G2 & G3 & G4). intros l Hl. simpl. unfold deref.
      apply upd_nth_other. intros ->. contradiction.
  Qed.

  Lemma lexec_inv ops : forall s s', LInv s -> lexec zero_like dflt s ops = Some s' -> LInv s'.
  Proof.
    induction ops as [|o ops IH]; intros s s' HI E; simpl in E; [congruence|].
    destruct (lstep zero_like dflt s o) as [[s1 v]|e] eqn:Es; [|discriminate].
    apply (IH s1 s'); auto. apply (lstep_inv s o s1 v HI Es).
  Qed.

  Lemma waiting_unmodified z ops s o s' v :
    lexec zero_like dflt (linit z) ops = Some s -> lstep zero_like dflt s o = Ok (s', v) ->
    forall l, In l (buf s) -> deref (hp s') l dflt = deref (hp s) l dflt.
  Proof.
    intros E Es. apply (lstep_inv s o s' v); auto. apply (lexec_inv ops (linit z)); auto. apply LInv_init.
  Qed.

  Lemma history_heap z ops calls :
    frames_of ops = Some calls -> Forall (fun p => 0 <= snd p) calls ->
    delay_history zero_like calls (lrun zero_like dflt (linit z) ops).
  Proof. intros E HF. rewrite (lrun_resets z ops calls E). apply run_delay_history. exact HF. Qed.

  Lemma frames_of_app (a b : list (lop V)) ca cb : frames_of a = Some ca -> frames_of b = Some cb ->
    frames_of (a ++ b) = Some (ca ++ cb).
  Proof.
    revert ca; induction a as [|o a IH]; intros ca Ea Eb; simpl in *.
    - inversion Ea; subst; exact Eb.
    - destruct o as [v c|c|]; try discriminate.
      + destruct (frames_of a) as [l|]; [|discriminate]. simpl in Ea. inversion Ea; subst.
        rewrite (IH l) by auto. reflexivity.
      + apply IH; auto.
  Qed.

  Lemma frames_of_const d (xs : list V) :
    frames_of (map (fun x => LFrame x (Z.of_nat d)) xs) = Some (map (fun x : V => (x, Z.of_nat d)) xs).
  Proof. induction xs as [|x xs IH]; simpl; auto. rewrite IH. reflexivity. Qed.

  (** What comes out after a reset when the setting is constant: the tail of the old run first. *)
  Lemma stale_after_reset z d xs ys k x :
    (k < d)%nat -> (k < length ys)%nat -> (d <= length xs)%nat ->
    nth_error xs (length xs - d + k) = Some x ->
    nth_error (lrun zero_like dflt (linit z)
       (map (fun x => LFrame x (Z.of_nat d)) xs ++ [LReset] ++ map (fun x => LFrame x (Z.of_nat d)) ys))
       (length xs + k) = Some (Ok x).
  Proof.
    intros Hk Hy Hd Ex.
    rewrite (lrun_resets z _ (map (fun x => (x, Z.of_nat d)) (xs ++ ys))).
    2: { rewrite map_app. apply frames_of_app; [apply frames_of_const|]. simpl. apply frames_of_const. }
    destruct (run_delay_const d (xs ++ ys)) as [HL HP].
    destruct (nth_error ys k) as [y|] eqn:Ey; [|apply nth_error_None in Ey; lia].
    rewrite (HP (length xs + k)%nat y).
    - destruct (Nat.ltb_spec (length xs + k) d); [lia|].
      rewrite nth_error_app1 by lia.
      replace (length xs + k - d)%nat with (length xs - d + k)%nat by lia. rewrite Ex. reflexivity.
    - rewrite nth_error_app2 by lia. replace (length xs + k - length xs)%nat with k by lia. exact Ey.
  Qed.

  Lemma reset_transparent_delay0 z xs ys :
    lrun zero_like dflt (linit z)
      (map (fun x => LFrame x 0) xs ++ [LReset] ++ map (fun x => LFrame x 0) ys)
    = map (@Ok V) (xs ++ ys).
  Proof.
    rewrite (lrun_resets z _ (map (fun x => (x, Z.of_nat 0)) (xs ++ ys))).
    - apply run_delay_zero_now. reflexivity.
    - rewrite map_app. apply frames_of_app; [apply (frames_of_const 0)|]. simpl. apply (frames_of_const 0).
  Qed.

End DelayProofs.

(** Proofs about removeCommonTT. *)
From Verif.Base Require Import Vec.
From Verif.Model Require Import Recon Control.
From Verif.Proofs Require Import ControlProofs ControlUse WfsProofs DmShapesProofs.
From Verif.Spec Require Import CommonTtSpec.
From Coq Require Import Lia.

Lemma cut (A B C : vec) a b : length A = a -> length B = b -> firstn b (skipn a (A ++ B ++ C)) = B.
Proof.
  intros <- <-. rewrite skipn_app, skipn_all, Nat.sub_diag. cbn. rewrite firstn_app, firstn_all, Nat.sub_diag. cbn. apply app_nil_r.
Qed.
Lemma paste (A B C v : vec) a : length A = a -> length v = length B -> splice (A ++ B ++ C) a v = A ++ v ++ C.
Proof. intros <- H. apply splice_app, H. Qed.

Lemma data_starts_length ws : length (data_starts ws) = length ws.
Proof.
  unfold data_starts. generalize 0%nat. induction ws as [|w ws IH]; intros o; cbn; [reflexivity|]. now rewrite IH.
Qed.
Lemma get_active ws n w : has_active ws n w -> exists x, get_wfs ws w = Ok x /\ attr (s_active (snd x)) = Ok n.
Proof.
  intros (s & E & A). unfold get_wfs. rewrite E.
  destruct (nth_error (data_starts ws) w) as [o|] eqn:Eo.
  - exists (o, s). cbn [snd]. rewrite A. auto.
  - apply nth_error_None in Eo. rewrite data_starts_length in Eo. apply nth_error_None in Eo. congruence.
Qed.

Lemma slopes_app a b : slopes_of (a ++ b) = slopes_of a ++ slopes_of b.
Proof. apply flat_map_app. Qed.
Lemma allx_app a b : all_x (a ++ b) = all_x a ++ all_x b.
Proof. apply flat_map_app. Qed.
Lemma ally_app a b : all_y (a ++ b) = all_y a ++ all_y b.
Proof. apply flat_map_app. Qed.
Lemma slopes_length n bs : readings_of n bs -> length (slopes_of bs) = (length bs * 2 * n)%nat.
Proof.
  induction 1 as [|b bs [H1 H2] _ IH]; [reflexivity|]. change (slopes_of (b :: bs)) with ((fst b ++ snd b) ++ slopes_of bs).
  cbn [length]. rewrite !app_length, IH, H1, H2. lia.
Qed.
Lemma allx_length n bs : readings_of n bs -> length (all_x bs) = (length bs * n)%nat.
Proof.
  induction 1 as [|b bs [H1 H2] _ IH]; [reflexivity|]. change (all_x (b :: bs)) with (fst b ++ all_x bs).
  cbn [length]. rewrite !app_length, IH, H1. lia.
Qed.
Lemma ally_length n bs : readings_of n bs -> length (all_y bs) = (length bs * n)%nat.
Proof.
  induction 1 as [|b bs [H1 H2] _ IH]; [reflexivity|]. change (all_y (b :: bs)) with (snd b ++ all_y bs).
  cbn [length]. rewrite !app_length, IH, H2. lia.
Qed.

Lemma collects ws n : forall l rest done, Forall (has_active ws n) l -> length l = length rest ->
  readings_of n done -> readings_of n rest ->
  tt_collect ws (length done) l (slopes_of (done ++ rest)) (all_x done ++ vzero (length rest * n)) (all_y done ++ vzero (length rest * n))
  = Ok (all_x (done ++ rest), all_y (done ++ rest)).
Proof.
  induction l as [|w l IH]; intros [|[bx by0] rest] dn HA HL HD HR; try discriminate HL.
  - cbn. rewrite !app_nil_r. reflexivity.
  - pose proof (Forall_inv HA) as Hw. pose proof (Forall_inv_tail HA) as HA'. destruct (Forall_inv HR) as [Hx Hy].
    pose proof (Forall_inv_tail HR : readings_of n rest) as HR'. cbn [length] in HL. cbn [fst snd] in Hx, Hy.
    destruct (get_active _ _ _ Hw) as (x & E & An). cbn [tt_collect]. rewrite E. cbn [bind]. rewrite An. cbn [bind].
    assert (Sl : slopes_of (dn ++ (bx, by0) :: rest) = slopes_of dn ++ bx ++ by0 ++ slopes_of rest)
      by (rewrite slopes_app; cbn; fold (slopes_of rest); now rewrite <- app_assoc).
    assert (Vz : vzero (length ((bx, by0) :: rest) * n) = vzero n ++ vzero (length rest * n))
      by (cbn [length]; unfold vzero; rewrite <- repeat_app; f_equal; lia).
    assert (Zn : length (vzero n) = n) by apply repeat_length.
    pose proof (slopes_length _ _ HD) as LS. pose proof (allx_length _ _ HD) as LX. pose proof (ally_length _ _ HD) as LY.
    rewrite Sl. rewrite Vz.
    rewrite (cut (all_x dn) (vzero n)) by lia.
    rewrite (cut (slopes_of dn) bx) by (auto; lia).
    rewrite Zn, (bcast_same n bx) by assumption. cbn [bind].
    rewrite (cut (all_y dn) (vzero n)) by lia.
    rewrite (app_assoc (slopes_of dn) bx), (cut (slopes_of dn ++ bx) by0) by (rewrite ?app_length; lia).
    rewrite Zn, (bcast_same n by0) by lia. cbn [bind].
    rewrite !paste by lia.
    specialize (IH rest (dn ++ [(bx, by0)]) HA' ltac:(lia)).
    rewrite app_length in IH. cbn [length] in IH. rewrite Nat.add_1_r in IH.
    rewrite <- app_assoc in IH. cbn [app] in IH. rewrite Sl in IH.
    rewrite <- !app_assoc in *.
    assert (HD' : readings_of n (dn ++ [(bx, by0)])) by (apply Forall_app; split; [exact HD|]; repeat constructor; assumption).
    rewrite <- (IH HD' HR').
    rewrite allx_app, ally_app. cbn [all_x all_y flat_map]. rewrite !app_nil_r, <- !app_assoc. reflexivity.
Qed.

Section Return.
  Variables (f g : vec -> vec).
  Hypothesis Lf : forall v, length (f v) = length v.
  Hypothesis Lg : forall v, length (g v) = length v.
  Definition both (b : vec * vec) := (f (fst b), g (snd b)).
  Lemma both_ok n bs : readings_of n bs -> readings_of n (map both bs).
  Proof. intros H. apply Forall_map. eapply Forall_impl; [|exact H]. intros b [H1 H2]. cbn. now rewrite Lf, Lg. Qed.
  Lemma returns ws n xs ys : forall l rest dn, Forall (has_active ws n) l -> length l = length rest ->
    readings_of n dn -> readings_of n rest -> xs = all_x (map both (dn ++ rest)) -> ys = all_y (map both (dn ++ rest)) ->
    tt_return ws (length dn) l xs ys (slopes_of (map both dn ++ rest)) = Ok (slopes_of (map both (dn ++ rest))).
  Proof.
    induction l as [|w l IH]; intros [|[bx by0] rest] dn HA HL HD HR EX EY; try discriminate HL.
    - cbn. rewrite !app_nil_r. reflexivity.
    - pose proof (Forall_inv HA) as Hw. pose proof (Forall_inv_tail HA) as HA'. destruct (Forall_inv HR) as [Hx Hy].
      pose proof (Forall_inv_tail HR : readings_of n rest) as HR'. cbn [length] in HL. cbn [fst snd] in Hx, Hy.
      destruct (get_active _ _ _ Hw) as (x & E & An). cbn [tt_return]. rewrite E. cbn [bind]. rewrite An. cbn [bind].
      pose proof (slopes_length _ _ (both_ok _ _ HD)) as LS. pose proof (allx_length _ _ (both_ok _ _ HD)) as LX.
      pose proof (ally_length _ _ (both_ok _ _ HD)) as LY. rewrite map_length in LS, LX, LY.
      assert (F1 : length (f bx) = n) by (rewrite Lf; assumption).
      assert (F2 : length (g by0) = n) by (rewrite Lg; assumption).
      assert (Sl : slopes_of (map both dn ++ (bx, by0) :: rest) = slopes_of (map both dn) ++ bx ++ by0 ++ slopes_of rest)
        by (rewrite slopes_app; cbn; fold (slopes_of rest); now rewrite <- app_assoc).
      assert (Xl : firstn n (skipn (length dn * n) xs) = f bx).
      { rewrite EX, map_app, allx_app. change (all_x (map both ((bx, by0) :: rest))) with (f bx ++ all_x (map both rest)).
        apply cut; lia. }
      assert (Yl : firstn n (skipn (length dn * n) ys) = g by0).
      { rewrite EY, map_app, ally_app. change (all_y (map both ((bx, by0) :: rest))) with (g by0 ++ all_y (map both rest)).
        apply cut; lia. }
      rewrite Sl, Xl, Yl.
      rewrite (cut (slopes_of (map both dn)) bx) by (auto; lia).
      rewrite Hx. rewrite (bcast_same n (f bx)) by lia. cbn [bind].
      rewrite (paste (slopes_of (map both dn)) bx) by lia.
      rewrite (app_assoc (slopes_of (map both dn)) (f bx)).
      rewrite (cut (slopes_of (map both dn) ++ f bx) by0) by (rewrite ?app_length; lia).
      rewrite (bcast_same (length by0) (g by0)) by lia. cbn [bind].
      rewrite (paste (slopes_of (map both dn) ++ f bx) by0) by (rewrite ?app_length; lia).
      specialize (IH rest (dn ++ [(bx, by0)]) HA' ltac:(lia)).
      rewrite app_length in IH. cbn [length] in IH. rewrite Nat.add_1_r in IH.
      rewrite <- app_assoc in IH. cbn [app] in IH.
      assert (HD' : readings_of n (dn ++ [(bx, by0)])) by (apply Forall_app; split; [exact HD|]; repeat constructor; assumption).
      rewrite <- (IH HD' HR' EX EY).
      f_equal. rewrite map_app, !slopes_app. change (slopes_of (map both [(bx, by0)])) with ((f bx ++ g by0) ++ []).
      now rewrite app_nil_r, <- !app_assoc.
  Qed.
End Return.

Lemma shift_flat {A} (h : A -> vec) c l : vshift c (flat_map h l) = flat_map (fun b => vshift c (h b)) l.
Proof. induction l as [|a l IH]; cbn; [reflexivity|]. unfold vshift in *. rewrite map_app. now f_equal. Qed.

Lemma removed ws n l bs : Forall (has_active ws n) l -> length l = length bs -> readings_of n bs ->
  remove_common_tt ws (slopes_of bs) l = Ok (slopes_of (tilted (- mean_of (all_x bs)) (- mean_of (all_y bs)) bs)).
Proof.
  intros HA HL HR. unfold remove_common_tt. rewrite (slopes_length n) by assumption.
  replace (length bs * 2 * n / 2)%nat with (length bs * n)%nat
    by (replace (length bs * 2 * n)%nat with (length bs * n * 2)%nat by lia; now rewrite Nat.div_mul).
  pose proof (collects ws n l bs [] HA HL (Forall_nil _) HR) as E. cbn [length app all_x all_y flat_map] in E.
  rewrite E. cbn [bind fst snd]. change (vmean (all_x bs)) with (mean_of (all_x bs)). change (vmean (all_y bs)) with (mean_of (all_y bs)).
  set (mx := mean_of (all_x bs)). set (my := mean_of (all_y bs)).
  pose proof (returns (vshift mx) (vshift my) (fun v => map_length _ v) (fun v => map_length _ v) ws n _ _ l bs [] HA HL (Forall_nil _) HR eq_refl eq_refl) as R.
  cbn [length app map] in R.
  assert (Ex : all_x (map (both (vshift mx) (vshift my)) bs) = vshift mx (all_x bs))
    by (unfold all_x; rewrite shift_flat, flat_map_concat_map, map_map, <- flat_map_concat_map; reflexivity).
  assert (Ey : all_y (map (both (vshift mx) (vshift my)) bs) = vshift my (all_y bs))
    by (unfold all_y; rewrite shift_flat, flat_map_concat_map, map_map, <- flat_map_concat_map; reflexivity).
  rewrite Ex, Ey in R. etransitivity; [exact R|reflexivity].
Qed.

Lemma tilted_x cx cy bs : all_x (tilted cx cy bs) = map (fun v => v + cx)%Qc (all_x bs).
Proof. induction bs as [|b bs IH]; cbn; [reflexivity|]. rewrite map_app. f_equal. exact IH. Qed.
Lemma tilted_y cx cy bs : all_y (tilted cx cy bs) = map (fun v => v + cy)%Qc (all_y bs).
Proof. induction bs as [|b bs IH]; cbn; [reflexivity|]. rewrite map_app. f_equal. exact IH. Qed.
Lemma tilted_ok n cx cy bs : readings_of n bs -> readings_of n (tilted cx cy bs).
Proof. intros H. apply Forall_map. eapply Forall_impl; [|exact H]. intros b [H1 H2]. cbn. now rewrite !map_length. Qed.
Lemma tilted_length cx cy bs : length (tilted cx cy bs) = length bs.
Proof. apply map_length. Qed.
Lemma tilted_tilted a b c d bs : tilted a b (tilted c d bs) = tilted (c + a) (d + b) bs.
Proof.
  unfold tilted. rewrite map_map. apply map_ext. intros x. cbn [fst snd]. rewrite !map_map. f_equal; apply map_ext; intros v; ring.
Qed.
Lemma sum_plus c v : lsum (map (fun x => x + c)%Qc v) = (lsum v + qz (Z.of_nat (length v)) * c)%Qc.
Proof.
  induction v as [|x v IH]; [change (0 = 0 + 0 * c)%Qc; ring|]. cbn [map length]. rewrite !lsum_cons, IH, Nat2Z.inj_succ. unfold Z.succ. rewrite qz_add. change (qz 1) with 1%Qc. ring.
Qed.
Lemma mean_plus c v : v <> [] -> mean_of (map (fun x => x + c)%Qc v) = (mean_of v + c)%Qc.
Proof.
  intros H. unfold mean_of. rewrite sum_plus, map_length. assert (qz (Z.of_nat (length v)) <> 0%Qc).
  { intros E. apply (qz_inj _ 0) in E. destruct v; cbn in *; [congruence|lia]. }
  field. assumption.
Qed.

Lemma vec_nonempty n bs : (0 < n)%nat -> readings_of n bs -> bs <> [] -> all_x bs <> [] /\ all_y bs <> [].
Proof.
  intros Hn HR HB. pose proof (allx_length _ _ HR) as LX. pose proof (ally_length _ _ HR) as LY.
  destruct bs as [|b bs]; [congruence|]. cbn [length] in LX, LY. split; intros E; rewrite E in *; cbn [length] in *; lia.
Qed.
Lemma mean_zero n bs : (0 < n)%nat -> readings_of n bs -> bs <> [] ->
  mean_of (all_x (tilted (- mean_of (all_x bs)) (- mean_of (all_y bs)) bs)) = 0%Qc /\
  mean_of (all_y (tilted (- mean_of (all_x bs)) (- mean_of (all_y bs)) bs)) = 0%Qc.
Proof.
  intros Hn HR HB. destruct (vec_nonempty n bs Hn HR HB) as [NX NY]. rewrite tilted_x, tilted_y, !mean_plus by assumption. split; ring.
Qed.
Lemma tilt_absorbed n cx cy bs : (0 < n)%nat -> readings_of n bs ->
  tilted (- mean_of (all_x (tilted cx cy bs))) (- mean_of (all_y (tilted cx cy bs))) (tilted cx cy bs)
  = tilted (- mean_of (all_x bs)) (- mean_of (all_y bs)) bs.
Proof.
  intros Hn HR. destruct bs as [|b bs]; [reflexivity|]. destruct (vec_nonempty n (b :: bs) Hn HR ltac:(discriminate)) as [NX NY].
  rewrite tilted_x, tilted_y, !mean_plus by assumption. rewrite tilted_tilted. f_equal; ring.
Qed.
(** Removing twice, and readings with a common tip and tilt. *)
Lemma insensitive ws n l bs cx cy : (0 < n)%nat -> Forall (has_active ws n) l -> length l = length bs -> readings_of n bs ->
  remove_common_tt ws (slopes_of (tilted cx cy bs)) l = remove_common_tt ws (slopes_of bs) l.
Proof.
  intros Hn HA HL HR. rewrite !(removed ws n) by (auto using tilted_ok; rewrite ?tilted_length; auto).
  now rewrite (tilt_absorbed n).
Qed.
Lemma twice ws n l bs r : (0 < n)%nat -> Forall (has_active ws n) l -> length l = length bs -> readings_of n bs ->
  remove_common_tt ws (slopes_of bs) l = Ok r -> remove_common_tt ws r l = Ok r.
Proof.
  intros Hn HA HL HR E. pose proof (removed ws n l bs HA HL HR) as E2. rewrite E in E2. injection E2 as ->.
  rewrite (insensitive ws n) by assumption. exact E.
Qed.

(** Two sensors of different sizes. *)
Lemma bcast_bad n (v : vec) : length v <> n -> length v <> 1%nat -> bcast n v = Err ValueError.
Proof. intros H H1. unfold bcast. rewrite (proj2 (Nat.eqb_neq _ _) H). destruct v as [|a [|b v]]; cbn in *; auto; lia. Qed.
Lemma firstn_skipn_len (v : vec) a n : length (firstn n (skipn a v)) = Nat.min n (length v - a).
Proof. now rewrite firstn_length, skipn_length. Qed.

Lemma smaller_first ws a b w0 w1 sl : (0 < a)%nat -> (a < b)%nat -> has_active ws a w0 -> has_active ws b w1 ->
  length sl = (2 * a + 2 * b)%nat -> remove_common_tt ws sl [w0; w1] = Err ValueError.
Proof.
  intros Ha Hab H0 H1 HL. unfold remove_common_tt. rewrite HL. replace ((2 * a + 2 * b) / 2)%nat with (a + b)%nat
    by (replace (2 * a + 2 * b)%nat with ((a + b) * 2)%nat by lia; now rewrite Nat.div_mul).
  destruct (get_active _ _ _ H0) as (x0 & E0 & A0). destruct (get_active _ _ _ H1) as (x1 & E1 & A1).
  cbn [tt_collect]. rewrite E0. cbn [bind]. rewrite A0. cbn [bind].
  assert (L0 : length (vzero (a + b)) = (a + b)%nat) by apply repeat_length.
  rewrite !firstn_skipn_len, L0.
  rewrite (bcast_same _ (firstn a (skipn (0 * 2 * a) sl))) by (rewrite firstn_skipn_len; lia). cbn [bind].
  rewrite (bcast_same _ (firstn a (skipn (0 * 2 * a + a) sl))) by (rewrite firstn_skipn_len; lia). cbn [bind].
  rewrite E1. cbn [bind]. rewrite A1. cbn [bind].
  rewrite bcast_bad; [reflexivity| |]; rewrite !firstn_skipn_len; rewrite ?(splice_length _ _ _ a) by (rewrite !firstn_skipn_len; lia); lia.
Qed.

Lemma last_app (a b : vec) d : b <> [] -> last (a ++ b) d = last b d.
Proof. intros H. induction a as [|x a IH]; [reflexivity|]. rewrite <- IH. cbn. destruct (a ++ b) eqn:E; [|reflexivity]. destruct a; cbn in E; [congruence|discriminate]. Qed.
Lemma splice_last (v b : vec) o : (o + length b < length v)%nat -> last (splice v o b) 0%Qc = last v 0%Qc.
Proof.
  intros H. unfold splice. rewrite app_assoc. rewrite <- (firstn_skipn (o + length b) v) at 3.
  assert (skipn (o + length b) v <> []) by (intros E; pose proof (skipn_length (o + length b) v) as L; rewrite E in L; cbn in L; lia).
  rewrite !last_app; auto.
Qed.
Lemma larger_first ws a b w0 w1 sl r : (0 < b)%nat -> (b < a)%nat -> has_active ws a w0 -> has_active ws b w1 ->
  length sl = (2 * a + 2 * b)%nat -> remove_common_tt ws sl [w0; w1] = Ok r -> last r 0%Qc = last sl 0%Qc.
Proof.
  intros Hb Hab H0 H1 HL. unfold remove_common_tt. destruct (tt_collect _ _ _ _ _ _) as [xy|e]; cbn [bind]; [|discriminate].
  destruct (get_active _ _ _ H0) as (x0 & E0 & A0). destruct (get_active _ _ _ H1) as (x1 & E1 & A1).
  cbn [tt_return]. rewrite E0. cbn [bind]. rewrite A0. cbn [bind].
  destruct (bcast _ _) as [b1|e] eqn:B1; cbn [bind]; [|discriminate]. apply bcast_length in B1. rewrite firstn_skipn_len in B1.
  destruct (bcast _ _) as [b2|e] eqn:B2; cbn [bind]; [|discriminate]. apply bcast_length in B2. rewrite firstn_skipn_len in B2.
  rewrite (splice_length _ _ _ a) in B2 by (rewrite firstn_skipn_len; lia).
  rewrite E1. cbn [bind]. rewrite A1. cbn [bind].
  assert (L2 : length (splice (splice sl (0 * 2 * a) b1) (0 * 2 * a + a) b2) = length sl).
  { rewrite (splice_length _ _ _ a). 1: apply (splice_length _ _ _ a).
    1: rewrite firstn_skipn_len; lia. rewrite firstn_skipn_len, (splice_length _ _ _ a) by (rewrite firstn_skipn_len; lia). lia. }
  destruct (bcast _ _) as [b3|e] eqn:B3; cbn [bind]; [|discriminate]. apply bcast_length in B3. rewrite firstn_skipn_len in B3.
  destruct (bcast _ _) as [b4|e] eqn:B4; cbn [bind]; [|discriminate]. apply bcast_length in B4. rewrite firstn_skipn_len in B4.
  rewrite (splice_length _ _ _ b) in B4 by (rewrite firstn_skipn_len; lia).
  intros E. pose proof (f_equal (fun x => match x with Ok y => y | Err _ => r end) E) as E2. cbv beta iota in E2. subst r. clear E.
  assert (L1 : length (splice sl (0 * 2 * a) b1) = length sl) by (apply (splice_length _ _ _ a); rewrite firstn_skipn_len; lia).
  assert (L3 : length (splice (splice (splice sl (0 * 2 * a) b1) (0 * 2 * a + a) b2) (1 * 2 * b) b3) = length sl)
    by (rewrite (splice_length _ _ _ b); [exact L2|rewrite firstn_skipn_len; lia]).
  rewrite L2 in B3. rewrite L2 in B4.
  rewrite (splice_last _ b4) by lia. rewrite (splice_last _ b3) by lia. rewrite (splice_last _ b2) by lia. apply splice_last. lia.
Qed.

From Verif.Base Require Import Vec.
From Verif.Model Require Import Recon Dm.
From Verif.Spec Require Import DmSpec.

Lemma round_half_even x : Z.even x = true -> round_div x 2 = x / 2 /\ 2 * (x / 2) = x.
Proof.
  intros H. apply Z.even_spec in H. destruct H as [k ->]. rewrite Z.mul_comm. rewrite Z.div_mul by lia.
  split; [apply round_div_mul; lia|lia].
Qed.
Lemma round_half_odd x : Z.odd x = true -> 2 * round_div x 2 = x + 1 \/ 2 * round_div x 2 = x - 1.
Proof.
  intros H. pose proof (round_div_near x 2 ltac:(lia)). apply Z.odd_spec in H. destruct H as [k ->]. lia.
Qed.

(** ** Surfaces *)
Lemma lsum_combine cs : forall (sh : list (arr Qc)) d i j, length sh = length cs ->
  lsum (map (fun p => (fst p * at2 (snd p) i j)%Qc) (combine cs sh))
  = zsum (Z.of_nat (length cs)) (fun k => nth (Z.to_nat k) cs 0 * at2 (nth (Z.to_nat k) sh d) i j)%Qc.
Proof.
  induction cs as [|c cs IH]; intros [|s sh] d i j L; try discriminate; auto.
  simpl length. rewrite Nat2Z.inj_succ. unfold Z.succ. rewrite Z.add_comm, zsum_split by lia.
  cbn [combine map lsum fold_right fst snd]. change (fold_right Qcplus 0%Qc) with lsum. rewrite (IH sh d) by (simpl in L; lia).
  f_equal.
  - unfold zsum. simpl. ring.
  - apply zsum_ext. intros k Hk. replace (Z.to_nat (1 + k)) with (S (Z.to_nat k)) by lia. reflexivity.
Qed.

Lemma weighted_at m cs sh i j : length sh = length cs -> at2 (weighted m cs sh) i j = superposition cs sh i j.
Proof. intros L. unfold weighted, superposition. cbn [at2]. apply lsum_combine; auto. Qed.

Lemma superposition_linear al be c1 c2 sh i j : length c1 = length c2 ->
  superposition (vadd (vscale al c1) (vscale be c2)) sh i j
  = (al * superposition c1 sh i j + be * superposition c2 sh i j)%Qc.
Proof.
  intros L. unfold superposition. rewrite vadd_length, vscale_length by (rewrite !vscale_length; auto). rewrite <- L.
  rewrite <- !zsum_scale, <- zsum_add. apply zsum_ext. intros k Hk.
  unfold vadd. rewrite vmap2_nth0 by (rewrite ?vscale_length; lia). unfold vscale.
  assert (N : forall c l n, nth n (map (fun x => c * x)%Qc l) 0%Qc = (c * nth n l 0)%Qc).
  { intros c l n. replace 0%Qc with (c * 0)%Qc at 1 by ring. apply map_nth. }
  rewrite !N. ring.
Qed.

Lemma average_linear m al be f g :
  average m (fun i j => al * f i j + be * g i j)%Qc = (al * average m f + be * average m g)%Qc.
Proof.
  unfold average. replace (zsum m (fun i => zsum m (fun j => al * f i j + be * g i j)%Qc))
    with (al * zsum m (fun i => zsum m (fun j => f i j)) + be * zsum m (fun i => zsum m (fun j => g i j)))%Qc.
  - unfold Qcdiv. ring.
  - rewrite <- !zsum_scale, <- zsum_add. apply zsum_ext. intros i Hi. rewrite <- !zsum_scale, <- zsum_add. reflexivity.
Qed.
Lemma average_ext m f g : (forall i j, 0 <= i < m -> 0 <= j < m -> f i j = g i j) -> average m f = average m g.
Proof. intros H. unfold average. f_equal. apply zsum_ext. intros i Hi. apply zsum_ext. intros j Hj. auto. Qed.

Lemma piston_free_linear m al be c1 c2 sh i j : length c1 = length c2 ->
  piston_free m (vadd (vscale al c1) (vscale be c2)) sh i j
  = (al * piston_free m c1 sh i j + be * piston_free m c2 sh i j)%Qc.
Proof.
  intros L. unfold piston_free. rewrite superposition_linear by auto.
  rewrite (average_ext m (superposition (vadd (vscale al c1) (vscale be c2)) sh)
             (fun i j => al * superposition c1 sh i j + be * superposition c2 sh i j)%Qc)
    by (intros; apply superposition_linear; auto).
  rewrite average_linear. ring.
Qed.

Lemma piston_free_sum m cs sh : 0 < m -> zsum m (fun i => zsum m (fun j => piston_free m cs sh i j)) = 0%Qc.
Proof.
  intros Hm. unfold piston_free. set (a := average m (superposition cs sh)).
  rewrite (zsum_ext m _ (fun i => zsum m (fun j => superposition cs sh i j) - qz m * a)%Qc).
  - rewrite zsum_sub, zsum_const by lia. unfold a, average. rewrite qz_mul. field. apply qz_neq0; lia.
  - intros i Hi. rewrite zsum_sub, zsum_const by lia. reflexivity.
Qed.

Lemma remove_piston_at m cs sh i j : length sh = length cs ->
  at2 (remove_piston (weighted m cs sh)) i j = piston_free m cs sh i j.
Proof.
  intros L. unfold remove_piston, piston_free. cbn [at2]. rewrite weighted_at by auto. f_equal. f_equal.
  unfold arr_mean, arr_sum, average. cbn [nrow ncol weighted]. f_equal.
  apply zsum_ext. intros u Hu. apply zsum_ext. intros v Hv. apply weighted_at; auto.
Qed.

(** ** Crop and pad *)
(** what dm_screen may contain between frames *)
Definition screen_inv (m n : Z) (s : arr Qc) : Prop :=
  nrow s = n /\ ncol s = n /\
  (m < n -> forall i j, 0 <= i < n -> 0 <= j < n ->
     ~ (((n - m) / 2 <= i < (n - m) / 2 + m) /\ ((n - m) / 2 <= j < (n - m) / 2 + m)) -> at2 s i j = 0%Qc).

Lemma fit_screen_ok m n s a : 0 <= m -> 0 <= n -> Z.even (m - n) = true -> nrow a = m -> ncol a = m -> screen_inv m n s ->
  exists r, fit_screen n s a = Ok r /\ arr_eq r (centred m n (at2 a)) /\ screen_inv m n r.
Proof.
  intros Hm Hn HE HR HC (S1 & S2 & S3). unfold fit_screen. rewrite HR.
  destruct (Z.eqb_spec m n) as [->|Hne].
  - exists a. split; auto. split.
    + split; auto. split; auto. intros i j Hi Hj. unfold centred. cbn [at2]. rewrite Z.sub_diag. change (0 / 2) with 0.
      rewrite !Z.add_0_r. destruct (Z.leb_spec 0 i); [|lia]. destruct (Z.ltb_spec i n); [|lia].
      destruct (Z.leb_spec 0 j); [|lia]. destruct (Z.ltb_spec j n); [|lia]. reflexivity.
    + split; auto. split; auto. lia.
  - destruct (Z.ltb_spec n m) as [Hlt|Hge].
    + destruct (round_half_even _ HE) as [Hr Hd]. rewrite Hr. set (c := (m - n) / 2) in *.
      unfold assign_block. cbn [nrow slice2]. rewrite HR, S1.
      assert (SL : slice_len m c (- c) = n). { unfold slice_len. rewrite norm_ix_neg, norm_ix_in by lia. lia. }
      assert (SL2 : slice_len n 0 n = n). { unfold slice_len. rewrite !norm_ix_in by lia. lia. }
      rewrite SL, SL2, Z.eqb_refl. eexists. split; [reflexivity|]. split.
      * split; [reflexivity|]. cbn [ncol centred nrow at2]. split; [exact S2|]. intros i j Hi Hj.
        cbn [at2 slice2]. rewrite HR, HC. rewrite (norm_ix_in n 0), (norm_ix_in m c) by lia. rewrite S2 in Hj.
        fold c. destruct (Z.leb_spec 0 i); [|lia]. destruct (Z.ltb_spec i (0 + n)); [|lia].
        destruct (Z.leb_spec 0 j); [|lia]. destruct (Z.ltb_spec j (0 + n)); [|lia]. cbn [andb].
        destruct (Z.leb_spec 0 (i + c)); [|lia]. destruct (Z.ltb_spec (i + c) m); [|lia].
        destruct (Z.leb_spec 0 (j + c)); [|lia]. destruct (Z.ltb_spec (j + c) m); [|lia]. cbn [andb].
        f_equal; lia.
      * split; [reflexivity|]. split; [exact S2|]. lia.
    + assert (HE' : Z.even (n - m) = true) by (replace (n - m) with (- (m - n)) by lia; rewrite Z.even_opp; exact HE).
      destruct (round_half_even _ HE') as [Hr Hd]. rewrite Hr. set (p := (n - m) / 2) in *.
      unfold assign_block. rewrite HR, S1.
      assert (SL : slice_len n p (- p) = m). { unfold slice_len. rewrite norm_ix_neg, norm_ix_in by lia. lia. }
      rewrite SL, Z.eqb_refl. rewrite (norm_ix_in n p) by lia.
      assert (HO : (m - n) / 2 = - p). { unfold p. destruct (round_half_even _ HE) as [_ ?]. lia. }
      eexists. split; [reflexivity|]. split.
      * split; [reflexivity|]. cbn [ncol centred nrow at2]. split; [exact S2|]. intros i j Hi Hj. rewrite S2 in Hj.
        rewrite HO.
        destruct (Z.leb_spec p i); destruct (Z.ltb_spec i (p + m)); destruct (Z.leb_spec p j); destruct (Z.ltb_spec j (p + m)); cbn [andb];
        destruct (Z.leb_spec 0 (i + - p)); try lia; destruct (Z.ltb_spec (i + - p) m); try lia; cbn [andb];
        destruct (Z.leb_spec 0 (j + - p)); try lia; destruct (Z.ltb_spec (j + - p) m); try lia; cbn [andb];
        try (apply S3; [lia|lia|lia|lia]); f_equal; lia.
      * split; [reflexivity|]. split; [exact S2|]. intros _ i j Hi Hj HN. cbn [at2].
        destruct (Z.leb_spec p i); destruct (Z.ltb_spec i (p + m)); destruct (Z.leb_spec p j); destruct (Z.ltb_spec j (p + m)); cbn [andb];
        try (apply S3; auto; lia). exfalso. apply HN. lia.
Qed.

Lemma centred_ext m n f g : (forall i j, 0 <= i < m -> 0 <= j < m -> f i j = g i j) -> arr_eq (centred m n f) (centred m n g).
Proof.
  intros H. split; auto. split; auto. intros i j _ _. unfold centred; cbn [at2].
  destruct (Z.leb_spec 0 (i + (m - n) / 2)); destruct (Z.ltb_spec (i + (m - n) / 2) m);
  destruct (Z.leb_spec 0 (j + (m - n) / 2)); destruct (Z.ltb_spec (j + (m - n) / 2) m); cbn [andb]; auto.
Qed.

Lemma dm_frame2_ok m n sh s cs : 0 <= m -> 0 <= n -> Z.even (m - n) = true -> square_shapes m sh -> sh <> [] ->
  length cs = length sh -> screen_inv m n s ->
  exists r, dm_frame2 n 0 sh s cs = Ok r /\ arr_eq r (centred m n (piston_free m cs sh)) /\ screen_inv m n r.
Proof.
  intros Hm Hn HE HS HN HL HI. unfold dm_frame2, make_surface. destruct sh as [|s0 sh]; [congruence|].
  assert (H0 : nrow s0 = m) by (inversion HS; tauto).
  rewrite <- HL, Nat.eqb_refl. cbn [bind]. replace (negb (qc_eqb 0 0)) with false by reflexivity. rewrite H0.
  destruct (fit_screen_ok m n s (remove_piston (weighted m cs (s0 :: sh)))) as (r & E1 & E2 & E3); auto.
  exists r. split; auto. split; auto. eapply arr_eq_trans; [exact E2|]. apply centred_ext.
  intros i j _ _. apply remove_piston_at. auto.
Qed.

Lemma arr_zero_inv m n : screen_inv m n (arr_zero n).
Proof. repeat split. Qed.

Theorem dm_history_ok m n sh css : 0 <= m -> 0 <= n -> Z.even (m - n) = true -> square_shapes m sh -> sh <> [] ->
  Forall (fun cs => length cs = length sh) css ->
  Forall2 (fun cs out => exists r, out = Ok r /\ arr_eq r (centred m n (piston_free m cs sh)))
          css (dm_history n 0 sh (arr_zero n) css).
Proof.
  intros Hm Hn HE HS HN HL. generalize (arr_zero_inv m n). generalize (arr_zero n).
  induction css as [|cs css IH]; intros s HI; cbn [dm_history]; [constructor|].
  apply Forall_cons_iff in HL as [HL1 HL2].
  destruct (dm_frame2_ok m n sh s cs Hm Hn HE HS HN HL1 HI) as (r & E1 & E2 & E3). rewrite E1. constructor; eauto.
Qed.

Lemma odd_mismatch m n s a : 2 <= m -> 3 <= n -> Z.odd (m - n) = true -> nrow a = m -> nrow s = n ->
  fit_screen n s a = Err ValueError.
Proof.
  intros Hm Hn HO HR HS. unfold fit_screen. rewrite HR.
  destruct (Z.eqb_spec m n) as [->|Hne]; [rewrite Z.sub_diag in HO; discriminate|].
  destruct (Z.ltb_spec n m) as [Hlt|Hge].
  - pose proof (round_half_odd _ HO) as HRo. set (c := round_div (m - n) 2) in *.
    unfold assign_block. cbn [nrow slice2]. rewrite HR, HS.
    assert (SL2 : slice_len n 0 n = n). { unfold slice_len. rewrite !norm_ix_in by lia. lia. }
    rewrite SL2.
    assert (SL : slice_len m c (- c) <> n /\ slice_len m c (- c) <> 1).
    { destruct (Z.eq_dec c 0) as [->|Hc].
      - unfold slice_len. cbn [Z.opp]. rewrite !norm_ix_in by lia. lia.
      - unfold slice_len. rewrite norm_ix_neg, norm_ix_in by lia. lia. }
    destruct (Z.eqb_spec (slice_len m c (- c)) n); [tauto|]. destruct (Z.eqb_spec (slice_len m c (- c)) 1); [tauto|]. reflexivity.
  - assert (HO' : Z.odd (n - m) = true) by (replace (n - m) with (- (m - n)) by lia; rewrite Z.odd_opp; exact HO).
    pose proof (round_half_odd _ HO') as HRo. set (p := round_div (n - m) 2) in *.
    unfold assign_block. rewrite HR, HS.
    assert (SL : slice_len n p (- p) <> m).
    { destruct (Z.eq_dec p 0) as [->|Hc].
      - unfold slice_len. cbn [Z.opp]. rewrite !norm_ix_in by lia. lia.
      - unfold slice_len. rewrite norm_ix_neg, norm_ix_in by lia. lia. }
    destruct (Z.eqb_spec m (slice_len n p (- p))); [congruence|]. destruct (Z.eqb_spec m 1); [lia|]. reflexivity.
Qed.

Theorem dm_history_odd m n sh css : 2 <= m -> 3 <= n -> Z.odd (m - n) = true -> square_shapes m sh -> sh <> [] ->
  Forall (fun cs => length cs = length sh) css ->
  Forall (fun out => out = Err ValueError) (dm_history n 0 sh (arr_zero n) css).
Proof.
  intros Hm Hn HO HS HN HL.
  induction css as [|cs css IH]; cbn [dm_history]; [constructor|].
  apply Forall_cons_iff in HL as [HL1 HL2].
  assert (E : dm_frame2 n 0 sh (arr_zero n) cs = Err ValueError).
  { unfold dm_frame2, make_surface. destruct sh as [|s0 sh]; [congruence|].
    assert (H0 : nrow s0 = m) by (inversion HS; tauto).
    rewrite <- HL1, Nat.eqb_refl. cbn [bind]. replace (negb (qc_eqb 0 0)) with false by reflexivity. rewrite H0.
    apply (odd_mismatch m); auto. }
  rewrite E. constructor; auto.
Qed.

(** ** Sizes of each class *)
Lemma even_sizes k nx xacts simpad scrn : 0 <= nx -> 0 < xacts -> 0 <= simpad -> 0 <= scrn ->
  Z.even nx = true -> Z.even scrn = true ->
  (k = PiezoStack -> nx + 2 * round_div nx xacts <> scrn) ->
  exists m, surface_size k nx xacts simpad scrn = Ok m /\ 0 <= m /\ Z.even (m - scrn) = true /\ (k = PiezoStack -> m = scrn).
Proof.
  intros H1 H2 H3 H4 E1 E2 HP.
  pose proof (round_div_nonneg nx xacts H2 H1) as HRn.
  assert (EV : forall x, Z.even (nx + 2 * x - scrn) = true).
  { intros x. rewrite Z.even_sub, Z.even_add, Z.even_mul, E1, E2. reflexivity. }
  destruct k; cbn [surface_size].
  - eexists; split; [reflexivity|]. split; [lia|]. split; [apply EV|discriminate].
  - eexists; split; [reflexivity|]. split; [lia|]. split; [|discriminate]. rewrite Z.even_sub, E1, E2. reflexivity.
  - unfold piezo_shape_size. specialize (HP eq_refl). fold (piezo_size nx xacts) in HP.
    assert (EV' : Z.even (piezo_size nx xacts - scrn) = true) by apply EV.
    assert (PS : 0 <= piezo_size nx xacts) by (unfold piezo_size; lia).
    set (d := piezo_size nx xacts) in *. clearbody d.
    destruct (Z.eqb_spec d scrn); [congruence|]. destruct (Z.ltb_spec scrn d).
    + destruct (round_half_even _ EV') as [-> Hd]. set (c := (d - scrn) / 2) in *.
      assert (SL : slice_len d c (- c) = scrn). { unfold slice_len. rewrite norm_ix_neg, norm_ix_in by lia. lia. }
      rewrite SL. exists scrn. rewrite Z.sub_diag. repeat split; auto.
    + assert (EV2 : Z.even (scrn - d) = true) by (replace (scrn - d) with (- (d - scrn)) by lia; rewrite Z.even_opp; exact EV').
      destruct (round_half_even _ EV2) as [-> Hd]. exists scrn. rewrite Z.sub_diag.
      split; [f_equal; lia|]. repeat split; auto.
  - eexists; split; [reflexivity|]. unfold piezo_size. split; [lia|]. split; [apply EV|discriminate].
Qed.

Lemma odd_sizes k nx xacts simpad scrn m : 2 <= nx -> 0 < xacts -> 0 <= simpad -> 4 <= scrn ->
  Z.odd nx = true -> Z.even scrn = true -> surface_size k nx xacts simpad scrn = Ok m ->
  (2 <= m /\ Z.odd (m - scrn) = true) \/ (k = PiezoStack /\ nx + 2 * round_div nx xacts = scrn + 1 /\ m = 0).
Proof.
  intros H1 H2 H3 H4 E1 E2 HM.
  pose proof (round_div_nonneg nx xacts H2 ltac:(lia)) as HRn.
  assert (OD : forall x, Z.odd (nx + 2 * x - scrn) = true).
  { intros x. rewrite Z.odd_sub, Z.odd_add, Z.odd_mul, E1. rewrite <- (Z.negb_even scrn), E2. reflexivity. }
  destruct k; cbn [surface_size] in HM.
  - assert (m = nx + 2 * simpad) by congruence. subst m. left. split; [lia|apply OD].
  - inversion HM; subst. left. split; [lia|]. rewrite Z.odd_sub, E1, <- (Z.negb_even scrn), E2. reflexivity.
  - unfold piezo_shape_size in HM. fold (piezo_size nx xacts).
    assert (OD' : Z.odd (piezo_size nx xacts - scrn) = true) by apply OD.
    assert (PS : 2 <= piezo_size nx xacts) by (unfold piezo_size; lia).
    set (d := piezo_size nx xacts) in *. clearbody d.
    destruct (Z.eqb_spec d scrn); [discriminate|]. destruct (Z.ltb_spec scrn d).
    + pose proof (round_half_odd _ OD') as HRo. set (c := round_div (d - scrn) 2) in *. assert (m = slice_len d c (- c)) by congruence. subst m.
      destruct (Z.eq_dec c 0) as [Hc|Hc].
      * right. split; auto. split; [lia|]. rewrite Hc. unfold slice_len. cbn [Z.opp]. rewrite !norm_ix_in by lia. lia.
      * left. assert (SL : slice_len d c (- c) = d - 2 * c). { unfold slice_len. rewrite norm_ix_neg, norm_ix_in by lia. lia. }
        rewrite SL. split; [lia|]. replace (d - 2 * c - scrn) with (d - scrn + 2 * (- c)) by lia.
        rewrite Z.odd_add, OD', Z.odd_mul. reflexivity.
    + assert (OD2 : Z.odd (scrn - d) = true) by (replace (scrn - d) with (- (d - scrn)) by lia; rewrite Z.odd_opp; exact OD').
      pose proof (round_half_odd _ OD2) as HRo. set (p := round_div (scrn - d) 2) in *. assert (m = d + 2 * p) by congruence. subst m.
      left. split; [lia|]. replace (d + 2 * p - scrn) with (d - scrn + 2 * p) by lia. rewrite Z.odd_add, OD', Z.odd_mul. reflexivity.
  - assert (m = piezo_size nx xacts) by congruence. subst m. left. unfold piezo_size. split; [lia|apply OD].
Qed.

(** a Piezo stack whose arrays have been cropped to nothing is flat whatever the commands *)
Lemma dead_piezo n sh css : 0 <= n -> Z.even n = true -> square_shapes 0 sh -> sh <> [] ->
  Forall (fun cs => length cs = length sh) css ->
  Forall (fun out => exists r, out = Ok r /\ arr_eq r (arr_zero n)) (dm_history n 0 sh (arr_zero n) css).
Proof.
  intros Hn HE HS HN HL.
  assert (E0 : Z.even (0 - n) = true) by (rewrite Z.even_sub, HE; reflexivity).
  pose proof (dm_history_ok 0 n sh css (Z.le_refl 0) Hn E0 HS HN HL) as H. clear HL.
  induction H as [|cs out css outs (r & -> & Hr)]; constructor; auto.
  exists r. split; auto. eapply arr_eq_trans; [exact Hr|]. split; auto. split; auto. intros i j _ _. unfold centred; cbn [at2].
  destruct (Z.leb_spec 0 (i + (0 - n) / 2)); destruct (Z.ltb_spec (i + (0 - n) / 2) 0); try lia; reflexivity.
Qed.

(** ** Linearity and mean of the returned screen *)
Lemma arr_eq_at {A} (x y : arr A) i j : arr_eq x y -> 0 <= i < nrow y -> 0 <= j < ncol y -> at2 x i j = at2 y i j.
Proof. intros (A1 & A2 & A3) Hi Hj. apply A3; congruence || lia. Qed.

Theorem dm_linear m n sh s1 s2 s3 al be c1 c2 r1 r2 r3 : 0 <= m -> 0 <= n -> Z.even (m - n) = true -> square_shapes m sh -> sh <> [] ->
  length c1 = length sh -> length c2 = length sh -> screen_inv m n s1 -> screen_inv m n s2 -> screen_inv m n s3 ->
  dm_frame2 n 0 sh s1 c1 = Ok r1 -> dm_frame2 n 0 sh s2 c2 = Ok r2 ->
  dm_frame2 n 0 sh s3 (vadd (vscale al c1) (vscale be c2)) = Ok r3 ->
  forall i j, 0 <= i < n -> 0 <= j < n -> at2 r3 i j = (al * at2 r1 i j + be * at2 r2 i j)%Qc.
Proof.
  intros Hm Hn HE HS HN L1 L2 I1 I2 I3 E1 E2 E3 i j Hi Hj.
  destruct (dm_frame2_ok m n sh s1 c1 Hm Hn HE HS HN L1 I1) as (q1 & F1 & G1 & _).
  destruct (dm_frame2_ok m n sh s2 c2 Hm Hn HE HS HN L2 I2) as (q2 & F2 & G2 & _).
  assert (L3 : length (vadd (vscale al c1) (vscale be c2)) = length sh).
  { rewrite vadd_length; rewrite ?vscale_length; auto; congruence. }
  destruct (dm_frame2_ok m n sh s3 _ Hm Hn HE HS HN L3 I3) as (q3 & F3 & G3 & _).
  assert (q1 = r1) by congruence. assert (q2 = r2) by congruence. assert (q3 = r3) by congruence. subst.
  rewrite (arr_eq_at _ _ i j G1), (arr_eq_at _ _ i j G2), (arr_eq_at _ _ i j G3) by (cbn; lia).
  unfold centred; cbn [at2]. destruct (_ && _ && _ && _); [apply piston_free_linear; congruence|ring].
Qed.

Lemma zsum_window n p m f : 0 <= p -> 0 <= m -> p + m <= n ->
  (forall i, 0 <= i < n -> ~ (p <= i < p + m) -> f i = 0%Qc) -> zsum n f = zsum m (fun i => f (p + i)).
Proof.
  intros Hp Hm Hn H. replace n with (p + (m + (n - p - m))) by lia. rewrite zsum_split by lia.
  rewrite zsum_zero_ext by (intros; apply H; lia). rewrite zsum_split by lia.
  rewrite (zsum_zero_ext (n - p - m)) by (intros; apply H; lia). ring.
Qed.

Theorem dm_zero_mean m n sh s cs r : 0 < m -> m <= n -> Z.even (m - n) = true -> square_shapes m sh -> sh <> [] ->
  length cs = length sh -> screen_inv m n s -> dm_frame2 n 0 sh s cs = Ok r ->
  zsum n (fun i => zsum n (fun j => at2 r i j)) = 0%Qc.
Proof.
  intros Hm Hn HE HS HN HL HI E.
  destruct (dm_frame2_ok m n sh s cs ltac:(lia) ltac:(lia) HE HS HN HL HI) as (q & F & G & _).
  assert (q = r) by congruence. subst q.
  set (p := (n - m) / 2). assert (HO : (m - n) / 2 = - p /\ 2 * p = n - m).
  { unfold p. destruct (round_half_even _ HE) as [_ ?].
    assert (HE' : Z.even (n - m) = true) by (replace (n - m) with (- (m - n)) by lia; rewrite Z.even_opp; exact HE).
    destruct (round_half_even _ HE') as [_ ?]. lia. }
  destruct HO as [HO Hp].
  assert (AT : forall i j, 0 <= i < n -> 0 <= j < n -> at2 r i j =
     if (p <=? i) && (i <? p + m) && (p <=? j) && (j <? p + m) then piston_free m cs sh (i - p) (j - p) else 0%Qc).
  { intros i j Hi Hj. rewrite (arr_eq_at _ _ i j G) by (cbn; lia). unfold centred; cbn [at2]. rewrite HO.
    destruct (Z.leb_spec p i); destruct (Z.leb_spec 0 (i + - p)); try lia; destruct (Z.ltb_spec i (p + m)); destruct (Z.ltb_spec (i + - p) m); try lia;
    destruct (Z.leb_spec p j); destruct (Z.leb_spec 0 (j + - p)); try lia; destruct (Z.ltb_spec j (p + m)); destruct (Z.ltb_spec (j + - p) m); try lia; cbn [andb]; try reflexivity.
    all: f_equal; lia. }
  rewrite (zsum_window n p m) by (try lia; intros i Hi Hni; apply zsum_zero_ext; intros j Hj; rewrite AT by lia;
    destruct (Z.leb_spec p i); destruct (Z.ltb_spec i (p + m)); try lia; reflexivity).
  rewrite (zsum_ext m _ (fun i => zsum m (fun j => piston_free m cs sh i j))); [apply piston_free_sum; auto|].
  intros i Hi. rewrite (zsum_window n p m); try lia.
  - apply zsum_ext. intros j Hj. rewrite AT by lia.
    destruct (Z.leb_spec p (p + i)); [|lia]. destruct (Z.ltb_spec (p + i) (p + m)); [|lia].
    destruct (Z.leb_spec p (p + j)); [|lia]. destruct (Z.ltb_spec (p + j) (p + m)); [|lia]. cbn [andb]. f_equal; lia.
  - intros j Hj Hnj. rewrite AT by lia.
    destruct (Z.leb_spec p (p + i)); [|lia]. destruct (Z.ltb_spec (p + i) (p + m)); [|lia].
    destruct (Z.leb_spec p j); destruct (Z.ltb_spec j (p + m)); try lia; reflexivity.
Qed.

(** ** Rotation *)
Lemma rotation_raises n rot sh s cs : rot <> 0%Qc -> exists e, dm_frame2 n rot sh s cs = Err e.
Proof.
  intros H. unfold dm_frame2. destruct (make_surface sh cs); cbn [bind]; [|eexists; reflexivity].
  unfold qc_eqb. destruct (Qc_eq_dec rot 0); [congruence|]. eexists; reflexivity.
Qed.

(** ** Correction buffers *)
Lemma run_group_nth closed surf : forall flags k buf out, run_group_from k closed flags surf buf = Ok out -> length flags = length buf ->
  length out = length buf /\
  forall d f b, nth_error flags d = Some f -> nth_error buf d = Some b ->
    exists v, nth_error out d = Some v /\ (if Bool.eqb f closed then surf (k + d)%nat = Ok v else v = b).
Proof.
  induction flags as [|f flags IH]; intros k [|b buf] out E L; try discriminate.
  - inversion E; subst. split; auto. intros [|d] f b H; discriminate.
  - cbn [run_group_from] in E.
    destruct (if Bool.eqb f closed then surf k else Ok b) as [v|e] eqn:Ev; [|discriminate]. cbn [bind] in E.
    destruct (run_group_from (S k) closed flags surf buf) as [r|e] eqn:Er; [|discriminate]. inversion E; subst out.
    destruct (IH (S k) buf r Er) as [L1 H]; [simpl in L; lia|]. split; [simpl; lia|].
    intros [|d] f0 b0 Hf Hb; simpl in Hf, Hb.
    + inversion Hf; inversion Hb; subst. exists v. split; auto. rewrite Nat.add_0_r. destruct (Bool.eqb f0 closed); congruence.
    + destruct (H d f0 b0 Hf Hb) as (w & Hw1 & Hw2). exists w. split; auto. replace (k + S d)%nat with (S k + d)%nat by lia. exact Hw2.
Qed.

Lemma run_group_total closed surf : forall flags k buf, length flags = length buf ->
  (forall d, (k <= d < k + length flags)%nat -> exists v, surf d = Ok v) -> exists out, run_group_from k closed flags surf buf = Ok out.
Proof.
  induction flags as [|f flags IH]; intros k [|b buf] L H; try discriminate; [eexists; reflexivity|].
  cbn [run_group_from]. simpl in L, H. destruct (IH (S k) buf) as [r Hr]; [lia|intros; apply H; lia|].
  destruct (Bool.eqb f closed).
  - destruct (H k ltac:(lia)) as [v ->]. cbn [bind]. rewrite Hr. eexists; reflexivity.
  - cbn [bind]. rewrite Hr. eexists; reflexivity.
Qed.

(** one frame *)
Lemma loop_corr_row flags surf c c' w s d f a b : loop_corr flags surf c = Ok (c', w, s) ->
  length flags = length (cl c) -> length flags = length (op c) ->
  nth_error flags d = Some f -> nth_error (cl c) d = Some a -> nth_error (op c) d = Some b ->
  exists v, surf d = Ok v /\
    nth_error w d = Some (if f then v else a) /\
    nth_error s d = Some (vadd (if f then b else v) (if f then v else a)) /\
    nth_error (cl c') d = Some (if f then v else a) /\ nth_error (op c') d = Some (if f then b else v).
Proof.
  intros E L1 L2 Hf Ha Hb. unfold loop_corr in E.
  destruct (run_group true flags surf (cl c)) as [cl'|] eqn:E1; [|discriminate]. cbn [bind] in E.
  destruct (run_group false flags surf (op c)) as [op'|] eqn:E2; [|discriminate]. cbn [bind] in E. inversion E; subst c' w s; clear E.
  destruct (run_group_nth _ _ _ _ _ _ E1 L1) as [L3 H1]. destruct (run_group_nth _ _ _ _ _ _ E2 L2) as [L4 H2].
  destruct (H1 d f a Hf Ha) as (v1 & A1 & B1). destruct (H2 d f b Hf Hb) as (v2 & A2 & B2). cbn [cl op].
  assert (HS : nth_error (map (fun p => vadd (fst p) (snd p)) (combine op' cl')) d = Some (vadd v2 v1)).
  { rewrite nth_error_map. assert (C : forall (l1 l2 : list vec) d x y, nth_error l1 d = Some x -> nth_error l2 d = Some y ->
       nth_error (combine l1 l2) d = Some (x, y)).
    { induction l1 as [|u l1 IH]; intros [|v l2] [|n] x y Hx Hy; try discriminate; simpl in *; [congruence|auto]. }
    rewrite (C _ _ d v2 v1 A2 A1). reflexivity. }
  rewrite HS, A1, A2. cbn [Nat.add] in B1, B2. destruct f; cbn [Bool.eqb] in B1, B2.
  - exists v1. subst. auto.
  - exists v2. subst. auto.
Qed.

Lemma loop_corr_lengths flags surf c c' w s : loop_corr flags surf c = Ok (c', w, s) ->
  length flags = length (cl c) -> length flags = length (op c) -> length (cl c') = length (cl c) /\ length (op c') = length (op c).
Proof.
  intros E L1 L2. unfold loop_corr in E.
  destruct (run_group true flags surf (cl c)) as [cl'|] eqn:E1; [|discriminate]. cbn [bind] in E.
  destruct (run_group false flags surf (op c)) as [op'|] eqn:E2; [|discriminate]. cbn [bind] in E. inversion E; subst.
  split; [apply (run_group_nth _ _ _ _ _ _ E1 L1)|apply (run_group_nth _ _ _ _ _ _ E2 L2)].
Qed.

Lemma nth_some {A} (l : list A) d : (d < length l)%nat -> exists x, nth_error l d = Some x.
Proof. intros H. destruct (nth_error l d) eqn:E; eauto. apply nth_error_None in E. lia. Qed.

(** fixed flags *)
Theorem fixed_flags_rows npix flags : forall surfs c outs cl0 op0,
  length flags = length cl0 -> length flags = length op0 ->
  (forall d, nth_error flags d = Some true -> nth_error op0 d = Some (vzero npix)) ->
  (forall d, nth_error flags d = Some false -> nth_error cl0 d = Some (vzero npix)) ->
  corr_run (mkCorr cl0 op0) (map (fun s => (flags, s)) surfs) = Ok (c, outs) ->
  forall t surf, nth_error surfs t = Some surf -> (forall d v, surf d = Ok v -> length v = npix) ->
  exists w s, nth_error outs t = Some (w, s) /\
    forall d f, nth_error flags d = Some f ->
      exists v, surf d = Ok v /\ nth_error s d = Some v /\ nth_error w d = Some (if f then v else vzero npix).
Proof.
  induction surfs as [|s0 surfs IH]; intros c outs cl0 op0 L1 L2 HO HC E t surf Ht HV; [destruct t; discriminate|].
  cbn [map corr_run] in E. destruct (loop_corr flags s0 (mkCorr cl0 op0)) as [[[c1 w1] s1]|] eqn:E1; [|discriminate].
  cbn [bind fst snd] in E. destruct (corr_run c1 (map (fun s => (flags, s)) surfs)) as [[c2 outs2]|] eqn:E2; [|discriminate].
  cbn [bind fst snd] in E. inversion E; subst c outs; clear E.
  assert (ROW := fun d f a b => loop_corr_row flags s0 (mkCorr cl0 op0) c1 w1 s1 d f a b E1 L1 L2).
  destruct t as [|t]; cbn [nth_error] in Ht |- *.
  - inversion Ht; subst surf. exists w1, s1. split; auto. intros d f Hf.
    assert (D : (d < length flags)%nat) by (apply nth_error_Some; congruence).
    destruct (nth_some cl0 d ltac:(lia)) as [a Ha]. destruct (nth_some op0 d ltac:(lia)) as [b Hb].
    destruct (ROW d f a b Hf Ha Hb) as (v & S1 & S2 & S3 & _). exists v. split; auto. specialize (HV d v S1). destruct f.
    + rewrite (HO d Hf) in Hb. inversion Hb; subst b. rewrite vadd_0_l in S3 by auto. auto.
    + rewrite (HC d Hf) in Ha. inversion Ha; subst a. rewrite vadd_0_r in S3 by auto. auto.
  - destruct c1 as [cl1 op1]. destruct (loop_corr_lengths _ _ _ _ _ _ E1 L1 L2) as [L3 L4]. cbn [cl op] in L3, L4.
    apply (IH c2 outs2 cl1 op1); auto; try congruence.
    + intros d Hf. assert (D : (d < length flags)%nat) by (apply nth_error_Some; congruence).
      destruct (nth_some cl0 d ltac:(lia)) as [a Ha].
      destruct (ROW d true a (vzero npix) Hf Ha (HO d Hf)) as (v & _ & _ & _ & _ & S). exact S.
    + intros d Hf. assert (D : (d < length flags)%nat) by (apply nth_error_Some; congruence).
      destruct (nth_some op0 d ltac:(lia)) as [b Hb].
      destruct (ROW d false (vzero npix) b Hf (HC d Hf) Hb) as (v & _ & _ & _ & S & _). exact S.
Qed.

Lemma nth_error_repeat_some {A} (x : A) n d : (d < n)%nat -> nth_error (repeat x n) d = Some x.
Proof. revert d. induction n; intros [|d] H; simpl; try lia; auto. apply IHn. lia. Qed.

Theorem fixed_flags npix ndm flags surfs c outs : length flags = ndm ->
  corr_run (corr_init ndm npix) (map (fun s => (flags, s)) surfs) = Ok (c, outs) ->
  forall t surf, nth_error surfs t = Some surf -> (forall d v, surf d = Ok v -> length v = npix) ->
  exists w s, nth_error outs t = Some (w, s) /\
    forall d f, nth_error flags d = Some f ->
      exists v, surf d = Ok v /\ nth_error s d = Some v /\ nth_error w d = Some (if f then v else vzero npix).
Proof.
  intros L E. apply (fixed_flags_rows npix flags surfs c outs (repeat (vzero npix) ndm) (repeat (vzero npix) ndm)); auto.
  - rewrite repeat_length; auto.
  - rewrite repeat_length; auto.
  - intros d H. apply nth_error_repeat_some. rewrite <- L. apply nth_error_Some. congruence.
  - intros d H. apply nth_error_repeat_some. rewrite <- L. apply nth_error_Some. congruence.
Qed.

Theorem corr_run_total frames : forall c, length (cl c) = length (op c) ->
  Forall (fun fr => length (fst fr) = length (cl c) /\ forall d, (d < length (fst fr))%nat -> exists v, snd fr d = Ok v) frames ->
  exists r, corr_run c frames = Ok r.
Proof.
  induction frames as [|[flags surf] frames IH]; intros c L H; [eexists; reflexivity|].
  apply Forall_cons_iff in H as [[H1 H2] H3]. cbn [fst snd] in H1, H2. cbn [corr_run].
  destruct (run_group_total true surf flags 0 (cl c) H1) as [cl' E1]; [intros; apply H2; lia|].
  destruct (run_group_total false surf flags 0 (op c)) as [op' E2]; [congruence|intros; apply H2; lia|].
  assert (E : loop_corr flags surf c = Ok (mkCorr cl' op', cl', map (fun p => vadd (fst p) (snd p)) (combine op' cl'))).
  { unfold loop_corr, run_group. rewrite E1. cbn [bind]. rewrite E2. reflexivity. }
  rewrite E. cbn [bind fst snd]. destruct (loop_corr_lengths _ _ _ _ _ _ E H1 ltac:(congruence)) as [L1 L2].
  destruct (IH (mkCorr cl' op')) as [r ->]; [congruence| |eexists; reflexivity].
  eapply Forall_impl; [|exact H3]. intros fr [A B]. split; auto. congruence.
Qed.

(** a mirror taken out of the closed group *)
Lemma corr_run_app h1 : forall h2 c, corr_run c (h1 ++ h2) =
  (let* x := corr_run c h1 in let* y := corr_run (fst x) h2 in Ok (fst y, snd x ++ snd y)).
Proof.
  induction h1 as [|[flags surf] h1 IH]; intros h2 c.
  - cbn [app corr_run bind fst snd]. destruct (corr_run c h2) as [[a b]|]; reflexivity.
  - cbn [app corr_run]. destruct (loop_corr flags surf c) as [x|]; [|reflexivity]. cbn [bind]. rewrite IH.
    destruct (corr_run (fst (fst x)) h1) as [y|]; [|reflexivity]. cbn [bind fst snd].
    destruct (corr_run (fst y) h2) as [z|]; reflexivity.
Qed.

Lemma corr_run_lengths ndm h : forall c r, corr_run c h = Ok r -> length (cl c) = ndm -> length (op c) = ndm ->
  Forall (fun fr => length (fst fr) = ndm) h -> length (cl (fst r)) = ndm /\ length (op (fst r)) = ndm.
Proof.
  induction h as [|[flags surf] h IH]; intros c r E L1 L2 H.
  - inversion E; subst. auto.
  - apply Forall_cons_iff in H as [H1 H2]. cbn [fst] in H1. cbn [corr_run] in E.
    destruct (loop_corr flags surf c) as [[[c1 w1] s1]|] eqn:E1; [|discriminate]. cbn [bind fst snd] in E.
    destruct (corr_run c1 h) as [r2|] eqn:E2; [|discriminate]. cbn [bind fst snd] in E. inversion E; subst r. cbn [fst].
    destruct (loop_corr_lengths _ _ _ _ _ _ E1 ltac:(congruence) ltac:(congruence)) as [L3 L4].
    apply (IH c1 r2 E2); congruence || auto.
Qed.

Lemma open_keeps_closed ndm d a h : forall c r, corr_run c h = Ok r -> length (cl c) = ndm -> length (op c) = ndm ->
  Forall (fun fr => length (fst fr) = ndm /\ nth_error (fst fr) d = Some false) h ->
  nth_error (cl c) d = Some a -> nth_error (cl (fst r)) d = Some a.
Proof.
  induction h as [|[flags surf] h IH]; intros c r E L1 L2 H Ha.
  - inversion E; subst. auto.
  - apply Forall_cons_iff in H as [[H1 Hf] H2]. cbn [fst] in H1, Hf. cbn [corr_run] in E.
    destruct (loop_corr flags surf c) as [[[c1 w1] s1]|] eqn:E1; [|discriminate]. cbn [bind fst snd] in E.
    destruct (corr_run c1 h) as [r2|] eqn:E2; [|discriminate]. cbn [bind fst snd] in E. inversion E; subst r. cbn [fst].
    destruct (loop_corr_lengths _ _ _ _ _ _ E1 ltac:(congruence) ltac:(congruence)) as [L3 L4].
    assert (D : (d < length (op c))%nat) by (rewrite L2, <- H1; apply nth_error_Some; congruence).
    destruct (nth_some (op c) d D) as [b Hb].
    destruct (loop_corr_row _ _ _ _ _ _ d false a b E1 ltac:(congruence) ltac:(congruence) Hf Ha Hb) as (v & _ & _ & _ & S & _).
    apply (IH c1 r2 E2); congruence || auto.
Qed.

Theorem toggled_mirror npix ndm d h1 f0 s0 h2 f1 s1 c outs a b :
  length f0 = ndm -> length f1 = ndm -> Forall (fun fr => length (fst fr) = ndm) h1 ->
  nth_error f0 d = Some true -> s0 d = Ok a ->
  Forall (fun fr => length (fst fr) = ndm /\ nth_error (fst fr) d = Some false) h2 ->
  nth_error f1 d = Some false -> s1 d = Ok b ->
  corr_run (corr_init ndm npix) (h1 ++ (f0, s0) :: h2 ++ [(f1, s1)]) = Ok (c, outs) ->
  exists front w s, outs = front ++ [(w, s)] /\ nth_error w d = Some a /\ nth_error s d = Some (vadd b a).
Proof.
  intros L0 L1 HH1 HF0 HS0 HH2 HF1 HS1 E.
  rewrite corr_run_app in E. destruct (corr_run (corr_init ndm npix) h1) as [r1|] eqn:E1; [|discriminate]. cbn [bind] in E.
  destruct (corr_run_lengths ndm h1 _ _ E1) as [A1 A2]; [apply repeat_length|apply repeat_length|auto|].
  cbn [corr_run] in E. destruct (loop_corr f0 s0 (fst r1)) as [[[c2 w2] s2]|] eqn:E2; [|discriminate]. cbn [bind fst snd] in E.
  assert (D : (d < ndm)%nat) by (rewrite <- L0; apply nth_error_Some; congruence).
  destruct (nth_some (cl (fst r1)) d ltac:(lia)) as [x Hx]. destruct (nth_some (op (fst r1)) d ltac:(lia)) as [y Hy].
  destruct (loop_corr_row _ _ _ _ _ _ d true x y E2 ltac:(congruence) ltac:(congruence) HF0 Hx Hy) as (v & V1 & _ & _ & V4 & _).
  assert (v = a) by congruence. subst v.
  destruct (loop_corr_lengths _ _ _ _ _ _ E2 ltac:(congruence) ltac:(congruence)) as [A3 A4].
  rewrite corr_run_app in E. destruct (corr_run c2 h2) as [r3|] eqn:E3; [|discriminate]. cbn [bind] in E.
  pose proof (open_keeps_closed ndm d a h2 c2 r3 E3 ltac:(congruence) ltac:(congruence) HH2 V4) as HA.
  assert (HH2' : Forall (fun fr => length (fst fr) = ndm) h2) by (eapply Forall_impl; [|exact HH2]; intros fr [P _]; exact P).
  destruct (corr_run_lengths ndm h2 _ _ E3 ltac:(congruence) ltac:(congruence) HH2') as [A5 A6].
  cbn [corr_run] in E. destruct (loop_corr f1 s1 (fst r3)) as [[[c4 w4] s4]|] eqn:E4; [|discriminate]. cbn [bind fst snd] in E.
  injection E as Ec Eo.
  destruct (nth_some (op (fst r3)) d ltac:(lia)) as [z Hz].
  destruct (loop_corr_row _ _ _ _ _ _ d false a z E4 ltac:(congruence) ltac:(congruence) HF1 HA Hz) as (v & V5 & V6 & V7 & _).
  assert (v = b) by congruence. subst v.
  exists (snd r1 ++ (w2, s2) :: snd r3), w4, s4. split.
  - rewrite <- Eo. rewrite <- app_assoc. reflexivity.
  - auto.
Qed.

(** ** Statements in the form used by Props *)
Lemma Forall2_nth {A B} (P : A -> B -> Prop) l1 l2 : Forall2 P l1 l2 -> forall t a b, nth_error l1 t = Some a -> nth_error l2 t = Some b -> P a b.
Proof. induction 1; intros [|t] a b Ha Hb; try discriminate; simpl in *; [congruence|eauto]. Qed.

Theorem history_linear m n sh css1 css2 css3 t1 t2 t3 c1 c2 al be r1 r2 r3 :
  0 <= m -> 0 <= n -> Z.even (m - n) = true -> square_shapes m sh -> sh <> [] ->
  Forall (fun cs => length cs = length sh) css1 -> Forall (fun cs => length cs = length sh) css2 -> Forall (fun cs => length cs = length sh) css3 ->
  nth_error css1 t1 = Some c1 -> nth_error css2 t2 = Some c2 -> nth_error css3 t3 = Some (vadd (vscale al c1) (vscale be c2)) ->
  nth_error (dm_history n 0 sh (arr_zero n) css1) t1 = Some (Ok r1) ->
  nth_error (dm_history n 0 sh (arr_zero n) css2) t2 = Some (Ok r2) ->
  nth_error (dm_history n 0 sh (arr_zero n) css3) t3 = Some (Ok r3) ->
  forall i j, 0 <= i < n -> 0 <= j < n -> at2 r3 i j = (al * at2 r1 i j + be * at2 r2 i j)%Qc.
Proof.
  intros Hm Hn HE HS HN L1 L2 L3 N1 N2 N3 O1 O2 O3 i j Hi Hj.
  destruct (Forall2_nth _ _ _ (dm_history_ok m n sh css1 Hm Hn HE HS HN L1) _ _ _ N1 O1) as (q1 & F1 & G1).
  destruct (Forall2_nth _ _ _ (dm_history_ok m n sh css2 Hm Hn HE HS HN L2) _ _ _ N2 O2) as (q2 & F2 & G2).
  destruct (Forall2_nth _ _ _ (dm_history_ok m n sh css3 Hm Hn HE HS HN L3) _ _ _ N3 O3) as (q3 & F3 & G3).
  inversion F1; inversion F2; inversion F3; subst q1 q2 q3.
  rewrite (arr_eq_at _ _ i j G1), (arr_eq_at _ _ i j G2), (arr_eq_at _ _ i j G3) by (cbn; lia).
  unfold centred; cbn [at2]. destruct (_ && _ && _ && _); [|ring]. apply piston_free_linear.
  rewrite Forall_forall in L1, L2. rewrite (L1 c1), (L2 c2); auto; eapply nth_error_In; eauto.
Qed.

Theorem history_zero_mean m n sh css : 0 < m -> m <= n -> Z.even (m - n) = true -> square_shapes m sh -> sh <> [] ->
  Forall (fun cs => length cs = length sh) css ->
  forall r, In (Ok r) (dm_history n 0 sh (arr_zero n) css) -> zsum n (fun i => zsum n (fun j => at2 r i j)) = 0%Qc.
Proof.
  intros Hm Hn HE HS HN HL r. generalize (arr_zero_inv m n). generalize (arr_zero n).
  induction css as [|cs css IH]; intros s HI Hr; cbn [dm_history] in Hr; [destruct Hr|].
  apply Forall_cons_iff in HL as [HL1 HL2].
  destruct (dm_frame2_ok m n sh s cs ltac:(lia) ltac:(lia) HE HS HN HL1 HI) as (q & E1 & E2 & E3). rewrite E1 in Hr.
  destruct Hr as [Hr|Hr].
  - inversion Hr; subst q. apply (dm_zero_mean m n sh s cs r); auto.
  - apply (IH HL2 q E3 Hr).
Qed.

Theorem config_even k nx xacts simpad scrn sh : 0 <= nx -> 0 < xacts -> 0 <= simpad -> 0 <= scrn ->
  Z.even nx = true -> Z.even scrn = true -> (k = PiezoStack -> nx + 2 * round_div nx xacts <> scrn) ->
  exists m, surface_size k nx xacts simpad scrn = Ok m /\
    (square_shapes m sh -> sh <> [] -> forall css, Forall (fun cs => length cs = length sh) css ->
     Forall (fun out => exists r, out = Ok r /\ nrow r = scrn /\ ncol r = scrn) (dm_history scrn 0 sh (arr_zero scrn) css)).
Proof.
  intros H1 H2 H3 H4 E1 E2 HP. destruct (even_sizes k nx xacts simpad scrn H1 H2 H3 H4 E1 E2 HP) as (m & S1 & S2 & S3 & _).
  exists m. split; auto. intros HS HN css HL. pose proof (dm_history_ok m scrn sh css S2 H4 S3 HS HN HL) as H. clear HL.
  induction H as [|cs out css outs (r & -> & R1 & R2 & _)]; constructor; auto. exists r. auto.
Qed.

Theorem config_odd k nx xacts simpad scrn sh m css : 2 <= nx -> 0 < xacts -> 0 <= simpad -> 4 <= scrn ->
  Z.odd nx = true -> Z.even scrn = true -> surface_size k nx xacts simpad scrn = Ok m ->
  square_shapes m sh -> sh <> [] -> Forall (fun cs => length cs = length sh) css ->
  Forall (fun out => out = Err ValueError) (dm_history scrn 0 sh (arr_zero scrn) css) \/
  (k = PiezoStack /\ Forall (fun out => exists r, out = Ok r /\ arr_eq r (arr_zero scrn)) (dm_history scrn 0 sh (arr_zero scrn) css)).
Proof.
  intros H1 H2 H3 H4 E1 E2 HM HS HN HL.
  destruct (odd_sizes k nx xacts simpad scrn m H1 H2 H3 H4 E1 E2 HM) as [[A B]|(A & B & ->)].
  - left. apply (dm_history_odd m); auto; lia.
  - right. split; auto. apply dead_piezo; auto; lia.
Qed.

Theorem history_superposition n sh css t cs out : 0 <= n -> square_shapes n sh -> sh <> [] -> Forall (fun cs => length cs = length sh) css ->
  nth_error css t = Some cs -> nth_error (dm_history n 0 sh (arr_zero n) css) t = Some out ->
  exists r, out = Ok r /\ forall i j, 0 <= i < n -> 0 <= j < n ->
        at2 r i j = (superposition cs sh i j - average n (superposition cs sh))%Qc.
Proof.
  intros Hn HS HN HL Hc Ho. assert (HE : Z.even (n - n) = true) by (rewrite Z.sub_diag; reflexivity).
  destruct (Forall2_nth _ _ _ (dm_history_ok n n sh css Hn Hn HE HS HN HL) _ _ _ Hc Ho) as (r & -> & G).
  exists r. split; auto. intros i j Hi Hj. rewrite (arr_eq_at _ _ i j G) by (cbn; lia).
  unfold centred; cbn [at2]. rewrite Z.sub_diag. change (0 / 2) with 0. rewrite !Z.add_0_r.
  destruct (Z.leb_spec 0 i); [|lia]. destruct (Z.ltb_spec i n); [|lia]. destruct (Z.leb_spec 0 j); [|lia]. destruct (Z.ltb_spec j n); [|lia].
  reflexivity.
Qed.

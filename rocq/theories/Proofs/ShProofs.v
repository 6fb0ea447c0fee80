From Verif.Base Require Import Vec PyFacts.
From Verif.Model Require Import Numerics Sh Wfs.
From Verif.Spec Require Import NumericsSpec ShSpec.
From Verif.Proofs Require Import NumericsProofs.

Lemma ndet_side c : ndet c = det_side (nx c) (npx c) (guard c).
Proof. unfold ndet, det_side. ring. Qed.
Lemma ndet_alloc_side c : ndet_alloc c = det_side (nx c) (npx c) (guard c).
Proof. unfold ndet_alloc, det_side. ring. Qed.
Lemma cent_window c x : cent_coord c x = window0 (npx c) (guard c) x.
Proof. unfold cent_coord, window0. ring. Qed.

Lemma chop_ok {A} (src : arr A) x y s : 0 <= s -> 0 <= x -> 0 <= y -> x + s <= nrow src -> y + s <= ncol src ->
  exists w, chop src x y s = Ok w /\ nrow w = s /\ ncol w = s /\
    forall i j, 0 <= i < s -> 0 <= j < s -> at2 w i j = at2 src (x + i) (y + j).
Proof.
  intros Hs Hx Hy Hr Hc. unfold chop. cbn [slice2 nrow ncol at2].
  rewrite !slice_len_in by lia. replace (x + s - x) with s by lia. replace (y + s - y) with s by lia.
  unfold bc_ok. rewrite Z.eqb_refl. cbn [orb andb]. eexists. split; [reflexivity|]. cbn [nrow ncol at2].
  split; [auto|split; [auto|]]. intros i j Hi Hj. rewrite !norm_ix_in by lia. f_equal.
  - unfold bc_ix. destruct (Z.eqb_spec s 1); lia.
  - unfold bc_ix. destruct (Z.eqb_spec s 1); lia.
Qed.

Lemma window_in c x : sane c -> 0 <= x < nx c ->
  0 <= window0 (npx c) (guard c) x /\ window0 (npx c) (guard c) x + npx c <= det_side (nx c) (npx c) (guard c).
Proof. intros (Hn & Hp & Hg & _) Hx. unfold window0, det_side. nia. Qed.

Lemma window_sep c x x' : sane c -> x < x' ->
  window0 (npx c) (guard c) x + npx c <= window0 (npx c) (guard c) x'.
Proof. intros (Hn & Hp & Hg & _) Hx. unfold window0. nia. Qed.

Lemma c41_windows c (det : arr Qc) q : sane c -> on_grid (nx c) q -> square (ndet_alloc c) det ->
  exists w, chop det (cent_coord c (fst q)) (cent_coord c (snd q)) (npx c) = Ok w /\ square (npx c) w /\
    forall i j, 0 <= i < npx c -> 0 <= j < npx c ->
      (0 <= window0 (npx c) (guard c) (fst q) + i < det_side (nx c) (npx c) (guard c)) /\
      (0 <= window0 (npx c) (guard c) (snd q) + j < det_side (nx c) (npx c) (guard c)) /\
      at2 w i j = at2 det (window0 (npx c) (guard c) (fst q) + i) (window0 (npx c) (guard c) (snd q) + j).
Proof.
  intros Hs [Hx Hy] [Hr Hc]. pose proof (window_in c _ Hs Hx). pose proof (window_in c _ Hs Hy).
  rewrite !cent_window. rewrite ndet_alloc_side in Hr, Hc. destruct Hs as (? & ? & ? & ?).
  destruct (chop_ok det (window0 (npx c) (guard c) (fst q)) (window0 (npx c) (guard c) (snd q)) (npx c)) as (w & E & Ew & Ew' & V); try lia.
  exists w. split; [exact E|]. split; [split; auto|]. intros i j Hi Hj. split; [lia|]. split; [lia|]. apply V; auto.
Qed.

Lemma c41_disjoint c q q' i j i' j' : sane c -> 
  0 <= i < npx c -> 0 <= j < npx c -> 0 <= i' < npx c -> 0 <= j' < npx c ->
  window0 (npx c) (guard c) (fst q) + i = window0 (npx c) (guard c) (fst q') + i' ->
  window0 (npx c) (guard c) (snd q) + j = window0 (npx c) (guard c) (snd q') + j' ->
  q = q' /\ i = i' /\ j = j'.
Proof.
  intros Hs Hi Hj Hi' Hj' Ex Ey.
  assert (X : fst q = fst q').
  { destruct (Z.lt_trichotomy (fst q) (fst q')) as [L|[L|L]]; auto; pose proof (window_sep c _ _ Hs L); lia. }
  assert (Y : snd q = snd q').
  { destruct (Z.lt_trichotomy (snd q) (snd q')) as [L|[L|L]]; auto; pose proof (window_sep c _ _ Hs L); lia. }
  destruct q, q'; cbn in *; subst. repeat split; lia.
Qed.

(** ** Placing *)
Definition fits (c : sh) : Prop := (nos c - npx c) mod 2 = 0.

Lemma quot2_double h : Z.quot (2 * h) 2 = h.
Proof. rewrite Z.mul_comm. apply Z.quot_mul. lia. Qed.
Lemma quot2_neg_double h : Z.quot (- (2 * h)) 2 = - h.
Proof. replace (- (2 * h)) with (2 * (- h)) by lia. apply quot2_double. Qed.

(** In whole pixels: e is the overlap on each side. *)
Section Axis.
  Variable c : sh.
  Hypothesis Hs : sane c.
  Hypothesis Hf : fits c.
  Variable x : Z.
  Hypothesis Hx : 0 <= x < nx c.
  Let e := (nos c - npx c) / 2.
  Let a := window0 (npx c) (guard c) x - e.
  Let D := det_side (nx c) (npx c) (guard c).

  Lemma ax_e : nos c - npx c = 2 * e /\ 0 <= e.
  Proof.
    destruct Hs as (? & ? & ? & ?). subst e. unfold fits in Hf. pose proof (Z.div_mod (nos c - npx c) 2). split; [lia|].
    apply Z.div_pos; [|lia]. unfold nos. nia.
  Qed.
  Lemma ax_d1 : dx1h c x = 2 * a.
  Proof. destruct ax_e as [E _]. unfold dx1h. rewrite E. subst a. unfold window0. ring. Qed.
  Lemma ax_d2 : dx2h c x = 2 * (a + nos c).
  Proof. destruct ax_e as [E _]. unfold dx2h. rewrite E. replace (nos c) with (npx c + 2 * e) by lia. subst a. unfold window0. ring. Qed.
  Lemma ax_vis : a < D /\ 0 < a + nos c /\ 0 < D.
  Proof.
    destruct ax_e as [E H]. pose proof (window_in c x Hs Hx). destruct Hs as (? & ? & ? & ?). subst a D. lia.
  Qed.
  Lemma ax_nos : 0 < nos c.
  Proof. destruct ax_e as [E H]. destruct Hs as (? & ? & ? & ?). lia. Qed.
  Lemma ax_det1 : det1 c x = Z.max a 0.
  Proof.
    pose proof ax_vis. unfold det1, int32h. rewrite ax_d1, ndet_side. fold D.
    replace (Z.min (Z.max (2 * a) 0) (2 * D)) with (2 * Z.max a 0) by lia. apply quot2_double.
  Qed.
  Lemma ax_det2 : det2 c x = Z.min (a + nos c) D.
  Proof.
    pose proof ax_vis. unfold det2, int32h. rewrite ax_d2, ndet_side. fold D.
    replace (Z.min (Z.max (2 * (a + nos c)) 0) (2 * D)) with (2 * Z.min (a + nos c) D) by lia. apply quot2_double.
  Qed.
  Lemma ax_sub1 : sub1 c x = Z.max (- a) 0.
  Proof.
    unfold sub1, int32h. rewrite ax_d1. destruct (Z.ltb_spec (2 * a) 0).
    - rewrite quot2_neg_double. lia.
    - change (Z.quot 0 2) with 0. lia.
  Qed.
  Lemma ax_sub2 : sub2 c x = if D <? a + nos c then - (a + nos c - D) else nos c.
  Proof.
    unfold sub2, int32h. rewrite ax_d2, ndet_side. fold D.
    destruct (Z.ltb_spec (2 * D) (2 * (a + nos c))), (Z.ltb_spec D (a + nos c)); try lia.
    - replace (2 * (a + nos c) - 2 * D) with (2 * (a + nos c - D)) by lia. apply quot2_neg_double.
    - apply quot2_double.
  Qed.
  (** source and destination, normalised *)
  Lemma ax_src : norm_ix (nos c) (sub1 c x) = Z.max (- a) 0 /\
    slice_len (nos c) (sub1 c x) (sub2 c x) = Z.min (nos c) (D - a) - Z.max (- a) 0.
  Proof.
    pose proof ax_vis. pose proof ax_nos. rewrite ax_sub1, ax_sub2.
    assert (N : norm_ix (nos c) (Z.max (- a) 0) = Z.max (- a) 0) by (apply norm_ix_in; lia). split; [exact N|].
    unfold slice_len. rewrite N. destruct (Z.ltb_spec D (a + nos c)).
    - rewrite norm_ix_neg by lia. lia.
    - rewrite norm_ix_in by lia. lia.
  Qed.
  Lemma ax_dst : norm_ix D (det1 c x) = Z.max a 0 /\
    slice_len D (det1 c x) (det2 c x) = Z.min (nos c) (D - a) - Z.max (- a) 0.
  Proof.
    pose proof ax_vis. pose proof ax_nos. rewrite ax_det1, ax_det2. split; [apply norm_ix_in; lia|].
    rewrite slice_len_in by lia. lia.
  Qed.
End Axis.

Lemma drawn_axis c x u : sane c -> fits c -> 0 <= x < nx c -> 0 <= u < det_side (nx c) (npx c) (guard c) ->
  let a := window0 (npx c) (guard c) x - (nos c - npx c) / 2 in
  let D := det_side (nx c) (npx c) (guard c) in
  ((Z.max a 0 <=? u) && (u <? Z.max a 0 + (Z.min (nos c) (D - a) - Z.max (- a) 0))) = ((0 <=? u - a) && (u - a <? nos c)).
Proof.
  intros Hs Hf Hx Hu a D. pose proof (ax_vis c Hs Hf x Hx) as V. cbn zeta in V. fold a D in V.
  fold D in Hu.
  destruct (Z.leb_spec (Z.max a 0) u), (Z.ltb_spec u (Z.max a 0 + (Z.min (nos c) (D - a) - Z.max (- a) 0))),
    (Z.leb_spec 0 (u - a)), (Z.ltb_spec (u - a) (nos c)); cbn; auto; lia.
Qed.

Lemma place_one_ok c det q img : sane c -> fits c -> on_grid (nx c) q -> square (det_side (nx c) (npx c) (guard c)) det ->
  square (nos c) img ->
  exists d, place_one c det q img = Ok d /\ square (det_side (nx c) (npx c) (guard c)) d /\
    forall u v, 0 <= u < nrow d -> 0 <= v < ncol d ->
      at2 d u v = (at2 det u v + drawn (npx c) (guard c) (over c) q img u v)%Qc.
Proof.
  intros Hs Hf [Hx Hy] [Dr Dc] [Ir Ic]. destruct q as [x y]. cbn [fst snd] in *.
  unfold place_one. cbn [slice2 nrow ncol at2]. rewrite Dr, Dc, Ir, Ic.
  destruct (ax_src c Hs Hf x Hx) as [S1 S2]. destruct (ax_dst c Hs Hf x Hx) as [T1 T2].
  destruct (ax_src c Hs Hf y Hy) as [S3 S4]. destruct (ax_dst c Hs Hf y Hy) as [T3 T4].
  cbv zeta in *. rewrite S1, S2, T1, T2, S3, S4, T3, T4. unfold bc_ok. rewrite !Z.eqb_refl. cbn [orb andb].
  eexists. split; [reflexivity|]. cbn [nrow ncol at2]. split; [split; auto|]. intros u v Hu Hv.
  unfold drawn. cbn [fst snd]. change (over c * npx c) with (nos c).
  rewrite <- !andb_assoc. rewrite (andb_assoc (Z.max _ 0 <=? u)). rewrite (drawn_axis c x u) by auto.
  rewrite (drawn_axis c y v) by auto. rewrite !andb_assoc.
  set (a := window0 (npx c) (guard c) x - (nos c - npx c) / 2).
  set (b := window0 (npx c) (guard c) y - (nos c - npx c) / 2).
  destruct ((0 <=? u - a) && (u - a <? nos c) && (0 <=? v - b) && (v - b <? nos c)) eqn:E; [|ring].
  apply andb_prop in E. destruct E as [E E4]. apply andb_prop in E. destruct E as [E E3]. apply andb_prop in E. destruct E as [E1 E2].
  apply Z.leb_le in E1, E3. apply Z.ltb_lt in E2, E4. f_equal.
  set (D := det_side (nx c) (npx c) (guard c)) in *.
  assert (BX : forall L k, 0 <= k < L -> bc_ix L k = k).
  { intros L k Hk. unfold bc_ix. destruct (Z.eqb_spec L 1); lia. }
  rewrite !BX by lia. f_equal; lia.
Qed.

Lemma place_ok c subs : sane c -> fits c -> forall det, square (det_side (nx c) (npx c) (guard c)) det ->
  Forall (fun s => on_grid (nx c) (fst s) /\ square (nos c) (snd s)) subs ->
  exists d, place c det subs = Ok d /\ square (det_side (nx c) (npx c) (guard c)) d /\
    forall u v, 0 <= u < nrow d -> 0 <= v < ncol d ->
      at2 d u v = (at2 det u v + lsum (map (fun s => drawn (npx c) (guard c) (over c) (fst s) (snd s) u v) subs))%Qc.
Proof.
  intros Hs Hf. induction subs as [|[q img] r IH]; intros det Hd HF.
  - exists det. split; [reflexivity|]. split; auto. intros. unfold lsum; cbn. ring.
  - inversion HF as [|? ? [Hq Hi] HF']; subst. cbn [fst snd] in *.
    destruct (place_one_ok c det q img Hs Hf Hq Hd Hi) as (d1 & E1 & S1 & V1).
    destruct (IH d1 S1 HF') as (d & E & S & V). exists d. cbn [place]. rewrite E1. cbn [bind]. split; [exact E|].
    split; [exact S|]. intros u v Hu Hv. rewrite V by auto. destruct S as [Sr Sc]. destruct S1 as [S1r S1c].
    rewrite V1 by lia. unfold lsum. cbn [map fold_right fst snd]. fold (lsum (map (fun s => drawn (npx c) (guard c) (over c) (fst s) (snd s) u v) r)). ring.
Qed.

Lemma fits_of c : sane c -> (over c = 1 \/ Z.even (npx c) = true) -> fits c.
Proof.
  intros (Hn & Hp & Hg & Ho) H. unfold fits, nos.
  destruct (Z.eq_dec (over c) 1) as [O|O]; [rewrite O; replace (1 * npx c - npx c) with 0 by lia; reflexivity|].
  assert (O2 : over c = 2) by lia. rewrite O2. replace (2 * npx c - npx c) with (npx c) by lia.
  rewrite Zmod_even. destruct H as [H|H]; [lia|]. rewrite H. reflexivity.
Qed.

Lemma c42_place c det subs : sane c -> (over c = 1 \/ Z.even (npx c) = true) -> square (ndet_alloc c) det ->
  Forall (fun s => on_grid (nx c) (fst s) /\ square (over c * npx c) (snd s)) subs ->
  exists d, place c det subs = Ok d /\ square (ndet_alloc c) d /\
    (forall u v, 0 <= u < nrow d -> 0 <= v < ncol d ->
      at2 d u v = (at2 det u v + lsum (map (fun s => drawn (npx c) (guard c) (over c) (fst s) (snd s) u v) subs))%Qc) /\
    flux d = (flux det + lsum (map (fun s => caught (nx c) (npx c) (guard c) (over c) (fst s) (snd s)) subs))%Qc.
Proof.
  intros Hs Ho Hd HF. rewrite ndet_alloc_side in *. pose proof (fits_of c Hs Ho) as Hf.
  destruct (place_ok c subs Hs Hf det Hd HF) as (d & E & S & V). exists d. split; [exact E|]. split; [exact S|].
  split; [exact V|]. destruct S as [Sr Sc]. destruct Hd as [Dr Dc]. unfold flux. rewrite Sr, Sc, Dr, Dc.
  rewrite (zsum_ext _ _ (fun u => zsum (det_side (nx c) (npx c) (guard c)) (fun v => at2 det u v) +
     zsum (det_side (nx c) (npx c) (guard c)) (fun v => lsum (map (fun s => drawn (npx c) (guard c) (over c) (fst s) (snd s) u v) subs))))%Qc.
  2:{ intros u Hu. rewrite <- zsum_add. apply zsum_ext. intros v Hv. apply V; lia. }
  rewrite zsum_add. f_equal. clear V E HF d Sr Sc. induction subs as [|s r IH].
  - unfold lsum. cbn [map fold_right]. rewrite (zsum_ext _ _ (fun _ => 0%Qc)); [apply zsum_zero|]. intros. apply zsum_zero.
  - unfold lsum in *. cbn [map fold_right]. rewrite <- IH. unfold caught. rewrite <- zsum_add. apply zsum_ext. intros u Hu.
    rewrite <- zsum_add. reflexivity.
Qed.

Lemma zsum_drawn D p0 o (f : Z -> Qc) a : 0 <= a -> 0 <= o * p0 -> a + o * p0 <= D ->
  zsum D (fun u => if (0 <=? u - a) && (u - a <? o * p0) then f (u - a) else 0%Qc) = zsum (o * p0) f.
Proof.
  intros Ha Hn HD. set (m := o * p0) in *. replace D with (a + (m + (D - a - m))) by lia.
  rewrite zsum_split by lia. rewrite zsum_split by lia.
  rewrite (zsum_zero_ext a); [|intros i Hi; destruct (Z.leb_spec 0 (i - a)); [lia|reflexivity]].
  rewrite (zsum_zero_ext (D - a - m)).
  2:{ intros i Hi. destruct (Z.ltb_spec (a + (m + i) - a) m); [lia|]. rewrite andb_false_r. reflexivity. }
  rewrite (zsum_ext m _ f); [ring|]. intros i Hi. replace (a + i - a) with i by lia.
  destruct (Z.leb_spec 0 i), (Z.ltb_spec i m); cbn; auto; lia.
Qed.

(** All the light of an image that lies wholly on the detector is caught. *)
Lemma c42_all_light n p g o q img : 1 <= n -> 1 <= p -> 0 <= g -> 1 <= o -> square (o * p) img ->
  (o * p - p) / 2 <= window0 p g (fst q) -> window0 p g (fst q) - (o * p - p) / 2 + o * p <= det_side n p g ->
  (o * p - p) / 2 <= window0 p g (snd q) -> window0 p g (snd q) - (o * p - p) / 2 + o * p <= det_side n p g ->
  caught n p g o q img = flux img.
Proof.
  intros Hn Hp Hg Ho [Ir Ic] H1 H2 H3 H4. unfold caught, drawn, flux. rewrite Ir, Ic.
  set (a := window0 p g (fst q) - (o * p - p) / 2) in *. set (b := window0 p g (snd q) - (o * p - p) / 2) in *.
  rewrite <- (zsum_drawn (det_side n p g) p o (fun i => zsum (o * p) (fun j => at2 img i j)) a) by (subst a; nia || lia).
  apply zsum_ext. intros u Hu. rewrite <- (zsum_drawn (det_side n p g) p o (fun j => at2 img (u - a) j) b) by (subst b; nia || lia).
  destruct ((0 <=? u - a) && (u - a <? o * p)).
  - reflexivity.
  - apply zsum_zero_ext. intros v Hv. cbn [andb]. reflexivity.
Qed.

(** Odd number of pixels, doubled field: half-pixel windows are truncated towards zero. *)
Lemma c42_odd c det img y : 2 <= nx c -> 0 <= guard c -> over c = 2 -> Z.odd (npx c) = true -> 1 <= npx c -> 2 * guard c < npx c ->
  square (ndet_alloc c) det -> square (2 * npx c) img -> 
  place_one c det (0, y) img = Err ValueError.
Proof.
  intros Hn Hg Ho Hodd Hp Hlt [Dr Dc] [Ir Ic]. rewrite ndet_alloc_side in Dr.
  pose proof (Zodd_mod (npx c)) as Hm. 
  assert (Em : npx c mod 2 = 1). { rewrite Zmod_odd, Hodd. reflexivity. }
  pose proof (Z.div_mod (npx c) 2 ltac:(lia)) as Dm. rewrite Em in Dm. set (k := npx c / 2) in *.
  assert (HN : 2 * (npx c + guard c) <= nx c * (npx c + guard c)) by (apply Z.mul_le_mono_nonneg_r; lia).
  assert (S1 : sub1 c 0 = k - guard c).
  { unfold sub1, dx1h, nos, int32h. rewrite Ho. destruct (Z.ltb_spec (2 * (0 * npx c + (0 + 1) * guard c) - (2 * npx c - npx c)) 0); [|lia].
    replace (- (2 * (0 * npx c + (0 + 1) * guard c) - (2 * npx c - npx c))) with (2 * (k - guard c) + 1) by lia.
    symmetry. apply (Z.quot_unique _ 2 _ 1); lia. }
  assert (S2 : sub2 c 0 = 2 * npx c).
  { unfold sub2, dx2h, nos, int32h. rewrite Ho. rewrite ndet_side. unfold det_side.
    destruct (Z.ltb_spec (2 * (guard c + nx c * (npx c + guard c))) (2 * ((0 + 1) * npx c + (0 + 1) * guard c) + (2 * npx c - npx c))); [lia|].
    apply quot2_double. }
  assert (D1 : det1 c 0 = 0).
  { unfold det1, dx1h, nos, int32h. rewrite Ho. rewrite Z.max_r by lia. rewrite Z.min_l by (rewrite ndet_side; unfold det_side; lia). reflexivity. }
  assert (D2 : det2 c 0 = 3 * k + 1 + guard c).
  { unfold det2, dx2h, nos, int32h. rewrite Ho. rewrite Z.max_l by lia.
    rewrite Z.min_l by (rewrite ndet_side; unfold det_side; lia).
    replace (2 * ((0 + 1) * npx c + (0 + 1) * guard c) + (2 * npx c - npx c)) with (2 * (3 * k + 1 + guard c) + 1) by lia.
    symmetry. apply (Z.quot_unique _ 2 _ 1); lia. }
  unfold place_one. cbn [slice2 nrow ncol at2]. rewrite Dr, Ir, S1, S2, D1, D2.
  rewrite (slice_len_in _ 0 (3 * k + 1 + guard c)) by (unfold det_side; lia).
  rewrite (slice_len_in (2 * npx c) (k - guard c) (2 * npx c)) by lia.
  assert (B : bc_ok (3 * k + 1 + guard c - 0) (2 * npx c - (k - guard c)) = false).
  { unfold bc_ok. apply orb_false_intro; apply Z.eqb_neq; lia. }
  rewrite B. reflexivity.
Qed.

(** ** Integration *)
Lemma flux_scaled k a : flux (scaled k a) = (flux a * k)%Qc.
Proof. unfold flux, scaled. cbn. rewrite <- zsum_scale_r. apply zsum_ext. intros. apply zsum_scale_r. Qed.
Lemma to_subap_flux c ov f inten : sane c -> 1 <= ov -> square (nos c * ov) inten ->
  square (nos c) (to_subap_img c ov f inten) /\ flux (to_subap_img c ov f inten) = (f * flux inten)%Qc.
Proof.
  intros (? & ? & ? & ?) Hov [Ir Ic]. split; [split; reflexivity|]. unfold to_subap_img. rewrite flux_scaled, bin_flux; auto; try (unfold nos; nia).
  ring.
Qed.

(** ** Padding *)
Lemma pad_loop_spec n need fuel ov ov' P : pad_loop n need fuel ov = Some (ov', P) ->
  P = n * ov' /\ ov <= ov' /\ need <= P /\ (ov < ov' -> n * (ov' - 1) < need).
Proof.
  revert ov. induction fuel as [|f IH]; intros ov; cbn [pad_loop]; destruct (Z.ltb_spec (n * ov) need); try discriminate.
  - intros E; injection E as <- <-. repeat split; lia.
  - intros E. apply IH in E. destruct E as (-> & H1 & H2 & H3). repeat split; try lia. intros _.
    destruct (Z.eq_dec ov' (ov + 1)) as [->|]; [replace (ov + 1 - 1) with ov by lia; lia|apply H3; lia].
  - intros E; injection E as <- <-. repeat split; lia.
Qed.
Lemma pad_loop_term n need : 0 < n -> forall ov, exists fuel r, pad_loop n need fuel ov = Some r.
Proof.
  intros Hn ov. exists (Z.to_nat (Z.max 0 (need - n * ov))).
  remember (Z.to_nat (Z.max 0 (need - n * ov))) as k eqn:Ek.
  assert (Hk : need - n * ov <= Z.of_nat k) by lia. clear Ek. revert ov Hk.
  induction k as [|k IH]; intros ov Hk; cbn [pad_loop]; destruct (Z.ltb_spec (n * ov) need); try (eexists; reflexivity); [lia|].
  apply IH. nia.
Qed.
Lemma pad_loop_idem n need fuel ov ov' P : pad_loop n need fuel ov = Some (ov', P) -> forall f, pad_loop n need f ov' = Some (ov', P).
Proof.
  intros E f. apply pad_loop_spec in E. destruct E as (-> & _ & H & _).
  destruct f; cbn [pad_loop]; destruct (Z.ltb_spec (n * ov') need); auto; lia.
Qed.

(** ** Read-out *)
Lemma photons_star r mask : photons_per_mag (r_mag r) mask (r_scale r) (r_exposure r) (r_zp r) = star_photons (r_zp r) mask (r_scale r) (r_mag r) (r_exposure r).
Proof. unfold photons_per_mag, star_photons. fold (flux mask). ring. Qed.
Lemma read_flux r mask det : flux det <> 0%Qc ->
  exists d, read_detector r mask det = Some d /\ nrow d = nrow det /\ ncol d = ncol det /\
    flux d = photons_per_mag (r_mag r) mask (r_scale r) (r_exposure r) (r_zp r) /\
    forall i j, (at2 d i j * flux det = at2 det i j * flux d)%Qc.
Proof.
  intros H. unfold read_detector. fold (flux det). destruct (qc_eqb (flux det) 0) eqn:E.
  - apply qc_eqb_true in E. contradiction.
  - eexists. split; [reflexivity|]. split; [reflexivity|]. split; [reflexivity|].
    match goal with |- flux ?d = ?p /\ _ => assert (F : flux d = p) end.
    { unfold flux at 1. cbn [nrow ncol at2]. set (p := photons_per_mag _ _ _ _ _).
      rewrite (zsum_ext _ _ (fun i => zsum (ncol det) (fun j => at2 det i j) * (p / flux det)))%Qc.
      - rewrite zsum_scale_r. change (zsum (nrow det) (fun i => zsum (ncol det) (fun j => at2 det i j))) with (flux det). field. exact H.
      - intros i Hi. rewrite <- zsum_scale_r. apply zsum_ext. intros j Hj. field. exact H. }
    split; [exact F|]. intros i j. rewrite F. cbn [at2]. field. exact H.
Qed.
Lemma read_scale r mask det k : k <> 0%Qc -> flux det <> 0%Qc ->
  exists d d', read_detector r mask det = Some d /\ read_detector r mask (scaled k det) = Some d' /\ arr_eq d' d.
Proof.
  intros Hk H. assert (H' : flux (scaled k det) <> 0%Qc).
  { rewrite flux_scaled. intros E. apply Qcmult_integral in E. tauto. }
  destruct (read_flux r mask det H) as (d & E & Er & Ec & F & V). destruct (read_flux r mask _ H') as (d' & E' & Er' & Ec' & F' & V').
  exists d, d'. split; [exact E|]. split; [exact E'|]. split; [rewrite Er, Er'; reflexivity|]. split; [rewrite Ec, Ec'; reflexivity|].
  intros i j Hi Hj. specialize (V i j). specialize (V' i j). rewrite F' in V'. rewrite F in V. rewrite flux_scaled in V'. cbn [scaled at2] in V'.
  set (p := photons_per_mag _ _ _ _ _) in *. set (t := flux det) in *.
  assert (X : (at2 d' i j * t = at2 d i j * t)%Qc).
  { apply (Qcmult_inj_r k) in V' || idtac.
    assert (Z : (k * (at2 d' i j * t) = k * (at2 d i j * t))%Qc) by (rewrite V; transitivity (at2 d' i j * (t * k))%Qc; [ring|rewrite V'; ring]).
    transitivity (/ k * (k * (at2 d' i j * t)))%Qc; [field; exact Hk|]. rewrite Z. field. exact Hk. }
  transitivity (at2 d' i j * t / t)%Qc; [field; exact H|]. rewrite X. field. exact H.
Qed.

(** ** Slopes *)
Lemma lsum_map_sub l c : lsum (map (fun v => v - c)%Qc l) = (lsum l - qz (Z.of_nat (length l)) * c)%Qc.
Proof.
  induction l as [|x l IH].
  - unfold lsum. cbn [map fold_right length]. change (Z.of_nat 0) with 0. rewrite qz_0. ring.
  - unfold lsum in *. cbn [map fold_right length]. rewrite IH. rewrite Nat2Z.inj_succ. unfold Z.succ. rewrite qz_add, qz_1. ring.
Qed.
Lemma sub_mean_zero l : l <> [] -> lsum (sub_mean l) = 0%Qc.
Proof.
  intros H. unfold sub_mean. rewrite lsum_map_sub. field. apply qz_neq0. destruct l; [contradiction|cbn [length]; lia].
Qed.
Lemma sub_mean_length l : length (sub_mean l) = length l.
Proof. apply map_length. Qed.
Lemma sub_mean_idem l : sub_mean (sub_mean l) = sub_mean l.
Proof.
  destruct l as [|x l]; [reflexivity|]. 
  assert (E : forall m, lsum m = 0%Qc -> sub_mean m = m).
  { intros m Hm. unfold sub_mean. rewrite Hm. transitivity (map (fun v => v) m); [|apply map_id]. apply map_ext. intros v. unfold Qcdiv. ring. }
  apply E. apply sub_mean_zero. discriminate.
Qed.
Lemma sub_mean_diff l i j : (i < length l)%nat -> (j < length l)%nat ->
  (nth i (sub_mean l) 0 - nth j (sub_mean l) 0 = nth i l 0 - nth j l 0)%Qc.
Proof.
  intros Hi Hj. unfold sub_mean. set (c := (lsum l / qz (Z.of_nat (length l)))%Qc).
  rewrite (nth_indep _ 0%Qc (0 - c)%Qc) by (rewrite map_length; auto). rewrite (map_nth (fun v => v - c)%Qc).
  rewrite (nth_indep (map _ l) 0%Qc (0 - c)%Qc) by (rewrite map_length; auto). rewrite (map_nth (fun v => v - c)%Qc). ring.
Qed.

Lemma remove_tt_first n s : (n <= length s)%nat -> firstn n (remove_tt n s) = sub_mean (firstn n s).
Proof.
  intros H. unfold remove_tt. rewrite firstn_app. rewrite sub_mean_length, firstn_length_le by auto.
  rewrite Nat.sub_diag. cbn [firstn]. rewrite app_nil_r. apply firstn_all2. rewrite sub_mean_length, firstn_length_le; auto.
Qed.
Lemma remove_tt_skip n s : (n <= length s)%nat -> skipn n (remove_tt n s) = sub_mean (skipn n s).
Proof.
  intros H. unfold remove_tt. rewrite skipn_app. rewrite sub_mean_length, firstn_length_le by auto.
  rewrite Nat.sub_diag. cbn [skipn]. rewrite skipn_all2; [reflexivity|]. rewrite sub_mean_length, firstn_length_le; auto.
Qed.
Lemma remove_tt_spec n s : (0 < n)%nat -> length s = (2 * n)%nat ->
  length (remove_tt n s) = (2 * n)%nat /\
  lsum (firstn n (remove_tt n s)) = 0%Qc /\ lsum (skipn n (remove_tt n s)) = 0%Qc /\
  (forall i j, (i < n)%nat -> (j < n)%nat ->
     nth i (remove_tt n s) 0 - nth j (remove_tt n s) 0 = nth i s 0 - nth j s 0 /\
     nth (n + i) (remove_tt n s) 0 - nth (n + j) (remove_tt n s) 0 = nth (n + i) s 0 - nth (n + j) s 0)%Qc /\
  remove_tt n (remove_tt n s) = remove_tt n s.
Proof.
  intros Hn Hl. assert (L1 : length (firstn n s) = n) by (rewrite firstn_length_le; lia).
  assert (L2 : length (skipn n s) = n) by (rewrite skipn_length; lia).
  split. { unfold remove_tt. rewrite app_length, !sub_mean_length. lia. }
  split. { rewrite remove_tt_first by lia. apply sub_mean_zero. intros E. rewrite E in L1. cbn in L1. lia. }
  split. { rewrite remove_tt_skip by lia. apply sub_mean_zero. intros E. rewrite E in L2. cbn in L2. lia. }
  split.
  - intros i j Hi Hj.
    assert (N1 : forall k (t : vec), (k < n)%nat -> nth k t 0%Qc = nth k (firstn n t) 0%Qc).
    { intros k t Hk. rewrite <- (firstn_skipn n t) at 1. destruct (Nat.lt_ge_cases k (length (firstn n t))) as [K|K].
      - apply app_nth1; auto.
      - assert (length t <= k)%nat by (rewrite firstn_length in K; lia). rewrite firstn_skipn. rewrite !nth_overflow; auto. }
    assert (N2 : forall k (t : vec), nth (n + k) t 0%Qc = nth k (skipn n t) 0%Qc).
    { intros k t. destruct (Nat.le_gt_cases n (length t)) as [K|K].
      - rewrite <- (firstn_skipn n t) at 1. rewrite app_nth2 by (rewrite firstn_length_le; lia). f_equal. rewrite firstn_length_le; lia.
      - rewrite skipn_all2 by lia. rewrite nth_overflow by lia. destruct k; reflexivity. }
    split.
    + rewrite !(N1 _ (remove_tt n s)) by auto. rewrite remove_tt_first by lia. rewrite !(N1 _ s) by auto. apply sub_mean_diff; lia.
    + rewrite !N2. rewrite remove_tt_skip by lia. apply sub_mean_diff; lia.
  - unfold remove_tt at 1. rewrite remove_tt_first, remove_tt_skip by lia. rewrite !sub_mean_idem. reflexivity.
Qed.

Lemma vsub_self l : vsub l l = vzero (length l).
Proof. induction l as [|x l IH]; [reflexivity|]. unfold vsub, vzero in *. cbn. f_equal; [ring|exact IH]. Qed.
Lemma any_nonzero_false l : any_nonzero l = false -> l = vzero (length l).
Proof.
  induction l as [|x l IH]; [reflexivity|]. unfold any_nonzero, vzero in *. cbn. intros H. apply orb_false_elim in H. destruct H as [H1 H2].
  f_equal; [|auto]. destruct (qc_eqb x 0) eqn:E; [apply qc_eqb_true in E; exact E|discriminate].
Qed.
Lemma sub_mean_zeros k : sub_mean (vzero k) = vzero k.
Proof.
  unfold sub_mean, vzero. assert (E : lsum (repeat 0%Qc k) = 0%Qc).
  { rewrite lsum_repeat || idtac. ring || reflexivity. }
  rewrite E. transitivity (map (fun v => v) (repeat 0%Qc k)); [|apply map_id]. apply map_ext. intros. unfold Qcdiv. ring.
Qed.
Lemma firstn_zeros a b : firstn a (vzero b) = vzero (Nat.min a b).
Proof. unfold vzero. revert b; induction a as [|a IH]; intros [|b]; cbn; auto. f_equal. apply IH. Qed.
Lemma skipn_zeros a b : skipn a (vzero b) = vzero (b - a).
Proof. unfold vzero. revert b; induction a as [|a IH]; intros [|b]; cbn; auto. Qed.
Lemma vzero_app a b : vzero a ++ vzero b = vzero (a + b).
Proof. unfold vzero. symmetry. apply repeat_app. Qed.
Lemma remove_tt_zeros n k : remove_tt n (vzero k) = vzero k.
Proof. unfold remove_tt. rewrite firstn_zeros, skipn_zeros, !sub_mean_zeros, vzero_app. f_equal. lia. Qed.
Lemma calc_slopes_length p n c : length (calc_slopes p None n false c) = length c.
Proof. apply map_length. Qed.
Lemma flat_zero p n tt c : calc_slopes p (Some (calc_slopes p None n false c)) n tt c = vzero (length c).
Proof.
  unfold calc_slopes at 1. set (s := map (fun v => v - qz p / qz 2)%Qc c).
  change (calc_slopes p None n false c) with s.
  assert (E : (if any_nonzero s then vsub s s else s) = vzero (length c)).
  { destruct (any_nonzero s) eqn:E; [rewrite vsub_self|rewrite (any_nonzero_false _ E)]; unfold s; rewrite map_length; reflexivity. }
  rewrite E. destruct tt; [apply remove_tt_zeros|reflexivity].
Qed.

(** ** Pupil tiling and field windows *)
Lemma pup_edge_0 P n : 0 < n -> pup_edge P n 0 = 0.
Proof. intros. unfold pup_edge. apply (round_div_mul 0 n); lia. Qed.
Lemma pup_edge_n P n : 0 < n -> pup_edge P n n = P.
Proof. intros. unfold pup_edge. rewrite Z.mul_comm. apply round_div_mul; lia. Qed.
Lemma pup_edge_mono P n x y : 0 < n -> 0 <= P -> x <= y -> pup_edge P n x <= pup_edge P n y.
Proof. intros. unfold pup_edge. apply round_div_mono; nia. Qed.
Lemma tile_exists P n : 0 < n -> 0 <= P -> forall k, 0 <= k -> forall u, 0 <= u < pup_edge P n k ->
  exists x, 0 <= x < k /\ pup_edge P n x <= u < pup_edge P n (x + 1).
Proof.
  intros Hn HP k Hk. pattern k. apply Znonneg_ind; auto.
  - intros u Hu. rewrite pup_edge_0 in Hu by auto. lia.
  - intros m Hm IH u Hu. destruct (Z.lt_ge_cases u (pup_edge P n m)) as [L|L].
    + destruct (IH u) as (x & Hx & Hu'); [lia|]. exists x. split; [lia|exact Hu'].
    + exists m. split; [lia|]. lia.
Qed.
Lemma tile_unique P n x y u : 0 < n -> 0 <= P -> pup_edge P n x <= u < pup_edge P n (x + 1) ->
  pup_edge P n y <= u < pup_edge P n (y + 1) -> x = y.
Proof.
  intros Hn HP Hx Hy. destruct (Z.lt_trichotomy x y) as [L|[L|L]]; auto.
  - pose proof (pup_edge_mono P n (x + 1) y Hn HP ltac:(lia)). lia.
  - pose proof (pup_edge_mono P n (y + 1) x Hn HP ltac:(lia)). lia.
Qed.

Lemma round_div_add k n d : 0 < d -> round_div (k * d + n) d = k + round_div n d \/ Z.odd k = true.
Proof.
  intros Hd. destruct (Z.odd k) eqn:E; [right; reflexivity|left].
  unfold round_div. rewrite Z.add_comm. rewrite Z.mod_add, Z.div_add by lia.
  assert (Hev : Z.even k = true) by (rewrite <- Z.negb_odd, E; reflexivity).
  repeat match goal with |- context [if ?b then _ else _] => destruct b eqn:? end; try lia;
  rewrite Z.even_add in *; rewrite Hev in *; destruct (Z.even (n / d)); cbn in *; try discriminate; lia.
Qed.

Lemma field_window P n pad I x : 0 < P -> 0 < n -> 0 < pad -> 0 < I -> 0 <= x < n ->
  0 <= interp_coord P n pad I x /\ interp_coord P n pad I x + I <= nx_field P n pad I.
Proof.
  intros HP Hn Hpad HI Hx. unfold interp_coord, nx_field, pup_coord.
  pose proof (Z.mul_div_le (x * P) n Hn) as Hc. assert (Hc0 : 0 <= x * P / n) by (apply Z.div_pos; nia).
  set (c := x * P / n) in *. set (A := (c + pad) * I * n). set (B := n * I * (P + 2 * pad)).
  assert (HA : 0 <= A) by (unfold A; apply Z.mul_nonneg_nonneg; nia).
  split; [apply round_div_nonneg; auto|].
  assert (HB : A + I * P + pad * (I * n) <= B).
  { unfold A, B. assert (E1 : (n * c) * I <= (x * P) * I) by (apply Z.mul_le_mono_nonneg_r; lia).
    assert (E2 : (x + 1) * (P * I) <= n * (P * I)) by (apply Z.mul_le_mono_nonneg_r; nia). nia. }
  pose proof (round_div_near A P HP) as NA. pose proof (round_div_near B P HP) as NB.
  assert (Q : 0 < pad * (I * n)) by (apply Z.mul_pos_pos; [lia|nia]).
  set (ra := round_div A P) in *. set (rb := round_div B P) in *.
  assert (0 < P * (rb - ra - I + 1)) by nia. nia.
Qed.

Lemma field_aligned P n pad I x : 0 < P -> 0 < n -> 0 <= pad -> Z.even I = true -> P mod n = 0 ->
  interp_coord P n pad I x = x * I + interp_coord P n pad I 0.
Proof.
  intros HP Hn Hpad HI Hd. pose proof (Z.div_mod P n ltac:(lia)) as E. rewrite Hd in E. set (s := P / n) in *.
  unfold interp_coord, pup_coord. rewrite Z.mul_0_l, Z.div_0_l by lia.
  replace (x * P) with (x * s * n) by nia. rewrite Z.div_mul by lia.
  replace ((x * s + pad) * I * n) with ((x * I) * P + (0 + pad) * I * n) by nia.
  destruct (round_div_add (x * I) ((0 + pad) * I * n) P HP) as [H|H]; [exact H|].
  rewrite Z.odd_mul in H. rewrite <- Z.negb_even in H. rewrite <- (Z.negb_even I) in H. rewrite HI in H. cbn in H. rewrite andb_false_r in H. discriminate.
Qed.

Lemma wfs_after_app nf nd nm td ro ce s a b : wfs_after nf nd nm td ro ce s (a ++ b) = wfs_after nf nd nm td ro ce (wfs_after nf nd nm td ro ce s a) b.
Proof. revert s; induction a as [|[r i] a IH]; intros s; cbn [wfs_after app]; auto. Qed.
Lemma flat_frame nf nd nm toDet readOut cents p n tt inten fs :
  (fs = [] \/ exists h j, fs = h ++ [(true, j)]) ->
  let st := static_data nf nd nm toDet readOut cents p n inten in
  let ce := fun d => calc_slopes p (Some st) n tt (cents d) in
  exists k, snd (fst (wfs_frame nf nd nm toDet readOut ce (wfs_after nf nd nm toDet readOut ce (wfs_init nf nd nm) fs) true (mkIn inten None))) = vzero k /\
            k = length st.
Proof.
  intros H st ce. set (s := wfs_after nf nd nm toDet readOut ce (wfs_init nf nd nm) fs).
  assert (F : focus s = vzero nf).
  { unfold s. destruct H as [->|(h & j & ->)]; [reflexivity|]. rewrite wfs_after_app. cbn [wfs_after]. unfold wfs_frame. reflexivity. }
  exists (length st). split; [|reflexivity]. unfold wfs_frame. cbn [fi_intensity fi_uplink fst snd]. rewrite F. unfold ce, st.
  unfold static_data, wfs_frame, wfs_init. cbn [fi_intensity fi_uplink fst snd focus].
  rewrite flat_zero, calc_slopes_length. reflexivity.
Qed.

Lemma fill_twice c ov f1 f2 K A I1 I2 : sane c -> 1 <= ov -> square (nos c * ov) I1 -> square (nos c * ov) I2 ->
  flux I1 = (K * (f1 * A))%Qc -> flux I2 = (K * (f2 * A))%Qc ->
  (flux (to_subap_img c ov f1 I1) * (f2 * f2) = flux (to_subap_img c ov f2 I2) * (f1 * f1))%Qc /\
  (f1 <> 0 -> f2 <> 0 -> f1 <> f2 -> K * A <> 0 -> flux (to_subap_img c ov f1 I1) * f2 <> flux (to_subap_img c ov f2 I2) * f1)%Qc.
Proof.
  intros Hs Ho S1 S2 E1 E2. rewrite (proj2 (to_subap_flux c ov f1 I1 Hs Ho S1)), (proj2 (to_subap_flux c ov f2 I2 Hs Ho S2)), E1, E2.
  split; [ring|]. intros H1 H2 H12 HK E. apply H12.
  assert (Z : (f1 - f2 = 0)%Qc).
  { assert (X : ((K * A) * (f1 * f2) * (f1 - f2) = 0)%Qc).
    { transitivity (f1 * (K * (f1 * A)) * f2 - f2 * (K * (f2 * A)) * f1)%Qc; [ring|]. rewrite E. ring. }
    apply Qcmult_integral in X. destruct X as [X|X]; auto. apply Qcmult_integral in X. destruct X as [X|X]; [contradiction|].
    apply Qcmult_integral in X. tauto. }
  transitivity (f1 - f2 + f2)%Qc; [ring|]. rewrite Z. ring.
Qed.

Lemma throughput_ignored r t mask det : read_detector (mkRead (r_mag r) (r_scale r) (r_exposure r) (r_zp r) t) mask det = read_detector r mask det.
Proof. reflexivity. Qed.
Lemma throughput_flux r mask det : flux det <> 0%Qc -> r_throughput r <> 1%Qc ->
  photons_per_mag (r_mag r) mask (r_scale r) (r_exposure r) (r_zp r) <> 0%Qc ->
  exists d, read_detector r mask det = Some d /\
    flux d <> (r_throughput r * photons_per_mag (r_mag r) mask (r_scale r) (r_exposure r) (r_zp r))%Qc.
Proof.
  intros H Ht Hp. destruct (read_flux r mask det H) as (d & E & _ & _ & F & _). exists d. split; [exact E|]. rewrite F.
  set (p := photons_per_mag _ _ _ _ _) in *. intros X. apply Ht.
  assert (Z : ((1 - r_throughput r) * p = 0)%Qc) by (transitivity (p - r_throughput r * p)%Qc; [ring|rewrite <- X; ring]).
  apply Qcmult_integral in Z. destruct Z as [Z|Z]; [|contradiction].
  transitivity (1 - (1 - r_throughput r))%Qc; [ring|]. rewrite Z. ring.
Qed.
Lemma active_iff mask n thr q : In q (active_subaps mask n thr) <->
  on_grid n q /\ exists f, fill mask n (fst q) (snd q) = Some f /\ (thr <= f)%Qc.
Proof.
  unfold active_subaps. rewrite filter_In. destruct q as [x y]. cbn [fst snd]. rewrite in_prod_iff.
  unfold is_active, on_grid. cbn [fst snd]. split.
  - intros [[Hx Hy] H]. apply zseq_In in Hx, Hy. split; [lia|]. destruct (fill mask n x y) as [f|]; [|discriminate]. exists f. split; auto. apply qc_leb_true. exact H.
  - intros [[Hx Hy] (f & E & H)]. split; [split; apply zseq_In; lia|]. rewrite E. apply qc_leb_true. exact H.
Qed.

Lemma list_prod_NoDup {A B} (l : list A) (m : list B) : NoDup l -> NoDup m -> NoDup (list_prod l m).
Proof.
  intros Hl Hm. induction Hl as [|x l Hx Hl IH]; cbn; [constructor|].
  assert (D : forall p, In p (map (fun y => (x, y)) m) -> ~ In p (list_prod l m)).
  { intros [a b] H1 H2. apply in_map_iff in H1. destruct H1 as (y & E & _). injection E as -> ->. apply in_prod_iff in H2. tauto. }
  assert (N : NoDup (map (fun y => (x, y)) m)) by (apply FinFun.Injective_map_NoDup; [intros a b E; congruence|exact Hm]).
  clear -D N IH. induction (map (fun y => (x, y)) m) as [|p r IHr]; cbn; [exact IH|]. inversion N; subst. constructor.
  - intros H. apply in_app_iff in H. destruct H as [H|H]; [contradiction|]. apply (D p); [left; reflexivity|exact H].
  - apply IHr; auto. intros q Hq. apply D. right. exact Hq.
Qed.
Lemma active_NoDup mask n thr : NoDup (active_subaps mask n thr).
Proof. apply NoDup_filter. apply list_prod_NoDup; apply zseq_NoDup. Qed.

Lemma pup_edge_range P n x : 0 < n -> 0 <= P -> 0 <= x <= n -> 0 <= pup_edge P n x <= P.
Proof.
  intros Hn HP Hx. pose proof (pup_edge_mono P n 0 x Hn HP ltac:(lia)). pose proof (pup_edge_mono P n x n Hn HP ltac:(lia)).
  rewrite pup_edge_0 in * by auto. rewrite pup_edge_n in * by auto. lia.
Qed.
Lemma fill_spec mask n x y : 0 < n -> 0 <= x < n -> 0 <= y < n -> 0 <= nrow mask -> 0 <= ncol mask ->
  let a := pup_edge (nrow mask) n x in let b := pup_edge (nrow mask) n (x + 1) in
  let c := pup_edge (ncol mask) n y in let d := pup_edge (ncol mask) n (y + 1) in
  fill mask n x y = if (b - a) * (d - c) =? 0 then None
    else Some (zsum (b - a) (fun i => zsum (d - c) (fun j => at2 mask (a + i) (c + j))) / qz ((b - a) * (d - c)))%Qc.
Proof.
  intros Hn Hx Hy Hr Hc a b c d. unfold fill. cbn [slice2 nrow ncol at2]. fold a b c d.
  assert (0 <= a <= b /\ b <= nrow mask /\ 0 <= c <= d /\ d <= ncol mask).
  { subst a b c d. pose proof (pup_edge_range (nrow mask) n x Hn Hr ltac:(lia)). pose proof (pup_edge_range (nrow mask) n (x + 1) Hn Hr ltac:(lia)).
    pose proof (pup_edge_range (ncol mask) n y Hn Hc ltac:(lia)). pose proof (pup_edge_range (ncol mask) n (y + 1) Hn Hc ltac:(lia)).
    pose proof (pup_edge_mono (nrow mask) n x (x + 1) Hn Hr ltac:(lia)). pose proof (pup_edge_mono (ncol mask) n y (y + 1) Hn Hc ltac:(lia)). lia. }
  rewrite !slice_len_in by lia. rewrite !norm_ix_in by lia. reflexivity.
Qed.
(** with at least one pupil pixel per sub-aperture no window is empty *)
Lemma pup_edge_strict P n x : 0 < n -> n <= P -> pup_edge P n x < pup_edge P n (x + 1).
Proof.
  intros Hn HP. unfold pup_edge. pose proof (round_div_mono (x * P) ((x + 1) * P) n Hn ltac:(nia)) as M.
  destruct (Z.eq_dec P n) as [->|Hne].
  { rewrite !round_div_mul by lia. lia. }
  pose proof (round_div_near (x * P) n Hn). pose proof (round_div_near ((x + 1) * P) n Hn).
  set (a := round_div (x * P) n) in *. set (b := round_div ((x + 1) * P) n) in *.
  assert (0 < n * (b - a)) by nia. nia.
Qed.
Lemma physical_blind spl ph ph' re re' N : interp_efield spl true ph re N = interp_efield spl true ph' re' N.
Proof. reflexivity. Qed.
Lemma tile_all P n : 0 < n -> 0 <= P -> forall u, 0 <= u < P ->
  exists! x, 0 <= x < n /\ pup_edge P n x <= u < pup_edge P n (x + 1).
Proof.
  intros Hn HP u Hu. destruct (tile_exists P n Hn HP n ltac:(lia) u) as (x & Hx & Hux); [rewrite pup_edge_n; auto|].
  exists x. split; [auto|]. intros y [_ Hy]. apply (tile_unique P n x y u); auto.
Qed.
Lemma c77 mask n thr : 0 < n -> n <= nrow mask -> n <= ncol mask ->
  NoDup (active_subaps mask n thr) /\
  (forall u, 0 <= u < nrow mask -> exists! x, 0 <= x < n /\ pup_edge (nrow mask) n x <= u < pup_edge (nrow mask) n (x + 1)) /\
  (forall v, 0 <= v < ncol mask -> exists! y, 0 <= y < n /\ pup_edge (ncol mask) n y <= v < pup_edge (ncol mask) n (y + 1)) /\
  forall q, In q (active_subaps mask n thr) <->
    (on_grid n q /\
     let a := pup_edge (nrow mask) n (fst q) in let b := pup_edge (nrow mask) n (fst q + 1) in
     let c := pup_edge (ncol mask) n (snd q) in let d := pup_edge (ncol mask) n (snd q + 1) in
     (thr <= zsum (b - a) (fun i => zsum (d - c) (fun j => at2 mask (a + i)%Z (c + j)%Z)) / qz ((b - a) * (d - c)))%Qc).
Proof.
  intros Hn Hr Hc. split; [apply active_NoDup|]. split; [apply tile_all; lia|]. split; [apply tile_all; lia|].
  intros q. rewrite active_iff. split.
  - intros [Hq (f & E & H)]. split; [exact Hq|]. destruct Hq as [Hx Hy]. rewrite fill_spec in E by lia. cbv zeta in *.
    destruct (_ =? 0); [discriminate|]. injection E as <-. exact H.
  - intros [Hq H]. split; [exact Hq|]. destruct Hq as [Hx Hy]. rewrite fill_spec by lia. cbv zeta in *.
    pose proof (pup_edge_strict (nrow mask) n (fst q) Hn Hr). pose proof (pup_edge_strict (ncol mask) n (snd q) Hn Hc).
    destruct (Z.eqb_spec ((pup_edge (nrow mask) n (fst q + 1) - pup_edge (nrow mask) n (fst q)) * (pup_edge (ncol mask) n (snd q + 1) - pup_edge (ncol mask) n (snd q))) 0); [nia|].
    eexists. split; [reflexivity|exact H].
Qed.
Lemma c76_chop {A} P n pad I q (f : arr A) : 0 < P -> 0 < n -> 0 < pad -> 0 < I -> on_grid n q -> square (nx_field P n pad I) f ->
  exists w, chop f (interp_coord P n pad I (fst q)) (interp_coord P n pad I (snd q)) I = Ok w /\ square I w /\
    forall i j, 0 <= i < I -> 0 <= j < I -> at2 w i j = at2 f (interp_coord P n pad I (fst q) + i) (interp_coord P n pad I (snd q) + j).
Proof.
  intros HP Hn Hpad HI [Hx Hy] [Fr Fc]. pose proof (field_window P n pad I _ HP Hn Hpad HI Hx). pose proof (field_window P n pad I _ HP Hn Hpad HI Hy).
  destruct (chop_ok f (interp_coord P n pad I (fst q)) (interp_coord P n pad I (snd q)) I) as (w & E & S1 & S2 & V); try lia.
  exists w. split; [exact E|]. split; [split; auto|exact V].
Qed.
Lemma c42_flux_kept c det q img : sane c -> (over c = 1 \/ Z.even (npx c) = true) -> square (ndet_alloc c) det ->
  on_grid (nx c) q -> square (over c * npx c) img ->
  (over c * npx c - npx c) / 2 <= window0 (npx c) (guard c) (fst q) ->
  window0 (npx c) (guard c) (fst q) - (over c * npx c - npx c) / 2 + over c * npx c <= det_side (nx c) (npx c) (guard c) ->
  (over c * npx c - npx c) / 2 <= window0 (npx c) (guard c) (snd q) ->
  window0 (npx c) (guard c) (snd q) - (over c * npx c - npx c) / 2 + over c * npx c <= det_side (nx c) (npx c) (guard c) ->
  exists d, place c det [(q, img)] = Ok d /\ flux d = (flux det + flux img)%Qc.
Proof.
  intros Hs Ho Hd Hq Hi H1 H2 H3 H4. destruct (c42_place c det [(q, img)] Hs Ho Hd) as (d & E & _ & _ & F).
  { constructor; [auto|constructor]. }
  exists d. split; [exact E|]. rewrite F. unfold lsum. cbn [map fold_right fst snd]. destruct Hs as (? & ? & ? & ?).
  rewrite c42_all_light by (auto; lia). ring.
Qed.
Lemma c42_odd_place c det q img r : 2 <= nx c -> 0 <= guard c -> over c = 2 -> Z.odd (npx c) = true -> 1 <= npx c -> 2 * guard c < npx c ->
  square (ndet_alloc c) det -> square (2 * npx c) img -> fst q = 0 -> place c det ((q, img) :: r) = Err ValueError.
Proof. intros. destruct q as [x y]. cbn [fst] in *. subst x. cbn [place]. rewrite c42_odd; auto. Qed.

Lemma read_star r mask det : flux det <> 0%Qc ->
  exists d, read_detector r mask det = Some d /\ nrow d = nrow det /\ ncol d = ncol det /\
    flux d = star_photons (r_zp r) mask (r_scale r) (r_mag r) (r_exposure r) /\
    forall i j, (at2 d i j * flux det = at2 det i j * flux d)%Qc.
Proof. rewrite <- photons_star. apply read_flux. Qed.
Lemma throughput_star r mask det : flux det <> 0%Qc -> r_throughput r <> 1%Qc ->
  star_photons (r_zp r) mask (r_scale r) (r_mag r) (r_exposure r) <> 0%Qc ->
  exists d, read_detector r mask det = Some d /\
    flux d <> (r_throughput r * star_photons (r_zp r) mask (r_scale r) (r_mag r) (r_exposure r))%Qc.
Proof. rewrite <- photons_star. apply throughput_flux. Qed.

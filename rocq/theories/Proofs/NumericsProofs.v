(** Proofs about the array kernels. *)
From Coq Require Import Permutation.
From Verif.Base Require Import Vec.
From Verif.Model Require Import Numerics.
From Verif.Spec Require Import NumericsSpec.

(** ** Interpolation *)
Lemma nb_get_in {A} (a : arr A) i j : 0 <= i < nrow a -> 0 <= j < ncol a -> nb_get a i j = Ok (at2 a i j).
Proof.
  intros Hi Hj. unfold nb_get, nb_index.
  destruct (Z.ltb_spec i 0); [lia|]. destruct (Z.ltb_spec j 0); [lia|].
  repeat (rewrite (proj2 (Z.leb_le _ _)) by lia). repeat (rewrite (proj2 (Z.ltb_lt _ _)) by lia). reflexivity.
Qed.
Lemma nb_get_out {A} (a : arr A) i j : 0 <= i -> nrow a <= i -> nb_get a i j = Err IndexError.
Proof.
  intros Hi Hn. unfold nb_get, nb_index. destruct (Z.ltb_spec i 0); [lia|].
  rewrite (proj2 (Z.ltb_ge i (nrow a))) by lia. rewrite Bool.andb_false_r. reflexivity.
Qed.

Definition lerp (p q t : Qc) : Qc := (p + (q - p) * t)%Qc.
Lemma lerp_between lo hi p q t : (lo <= p <= hi)%Qc -> (lo <= q <= hi)%Qc -> (0 <= t <= 1)%Qc ->
  (lo <= lerp p q t <= hi)%Qc.
Proof. unfold lerp. intros [H1 H2] [H3 H4] [H5 H6]. split; qcnra. Qed.

Lemma floor_cell n x : (0 <= x)%Qc -> (x < qz (n - 1))%Qc -> 0 <= qc_int x < n - 1.
Proof.
  intros H0 H1. rewrite qc_int_nonneg by auto. destruct (qc_floor_spec x) as [Ha Hb].
  split.
  - assert (qc_floor (qz 0) <= qc_floor x) by (apply qc_floor_mono; rewrite qz_0; auto).
    rewrite qc_floor_qz in H. auto.
  - apply qz_lt. eapply Qcle_lt_trans; eauto.
Qed.

Lemma frac_cell x : (0 <= x)%Qc -> (0 <= x - qz (qc_int x))%Qc /\ (x - qz (qc_int x) < 1)%Qc.
Proof.
  intros H. rewrite qc_int_nonneg by auto. destruct (qc_floor_spec x) as [Ha Hb]. split; qclra.
Qed.

Lemma bilinear_cell a x y :
  (0 <= x)%Qc -> (x < qz (nrow a - 1))%Qc -> (0 <= y)%Qc -> (y < qz (ncol a - 1))%Qc ->
  let i := qc_int x in let j := qc_int y in
  0 <= i < nrow a - 1 /\ 0 <= j < ncol a - 1 /\
  bilinear_at a x y =
  Ok (lerp (lerp (at2 a i j) (at2 a (i + 1)%Z j) (x - qz i)) (lerp (at2 a i (j + 1)%Z) (at2 a (i + 1)%Z (j + 1)%Z) (x - qz i)) (y - qz j)).
Proof.
  intros Hx0 Hx1 Hy0 Hy1 i j.
  pose proof (floor_cell _ _ Hx0 Hx1) as Hi. pose proof (floor_cell _ _ Hy0 Hy1) as Hj. fold i in Hi. fold j in Hj.
  split; auto. split; auto. unfold bilinear_at. fold i j.
  rewrite !nb_get_in by lia. reflexivity.
Qed.

Lemma eps_pos : (0 < interp_eps)%Qc.
Proof. reflexivity. Qed.
Lemma eps_lt1 : (interp_eps < 1)%Qc.
Proof. reflexivity. Qed.

Lemma clamp_range n x : 2 <= n -> (0 <= x)%Qc -> (0 <= clamp_coord n x)%Qc /\ (clamp_coord n x < qz (n - 1))%Qc.
Proof.
  intros Hn Hx. unfold clamp_coord. pose proof eps_pos. pose proof eps_lt1.
  assert (1 <= qz (n - 1))%Qc by (rewrite <- qz_1; apply qz_le; lia).
  destruct (qc_leb_spec (qz (n - 1)) x); split; try qclra; auto.
Qed.
Lemma clamp_id n x : (x < qz (n - 1))%Qc -> clamp_coord n x = x.
Proof. intros. unfold clamp_coord. destruct (qc_leb_spec (qz (n - 1)) x); auto. exfalso; qclra. Qed.

Lemma bilinear_within a x y lo hi :
  (0 <= x)%Qc -> (x < qz (nrow a - 1))%Qc -> (0 <= y)%Qc -> (y < qz (ncol a - 1))%Qc -> within a lo hi ->
  exists v, bilinear_at a x y = Ok v /\ (lo <= v <= hi)%Qc.
Proof.
  intros Hx0 Hx1 Hy0 Hy1 W. destruct (bilinear_cell a x y Hx0 Hx1 Hy0 Hy1) as (Hi & Hj & E).
  eexists; split; [exact E|].
  destruct (frac_cell x Hx0), (frac_cell y Hy0).
  apply lerp_between; [apply lerp_between | apply lerp_between |]; try (apply W; lia); split; auto; apply Qclt_le_weak; auto.
Qed.

Lemma checked_within a x y lo hi :
  2 <= nrow a -> 2 <= ncol a -> (0 <= x)%Qc -> (0 <= y)%Qc -> within a lo hi ->
  exists v, bilinear_point true a x y = Ok v /\ (lo <= v <= hi)%Qc.
Proof.
  intros Hr Hc Hx Hy W. unfold bilinear_point.
  destruct (clamp_range _ _ Hr Hx), (clamp_range _ _ Hc Hy). apply bilinear_within; auto.
Qed.

Lemma bilinear_exact_gen a x y (c0 cx cy cxy : Qc) :
  (forall i j, 0 <= i < nrow a -> 0 <= j < ncol a -> at2 a i j = c0 + cx * qz i + cy * qz j + cxy * qz i * qz j)%Qc ->
  (0 <= x)%Qc -> (x < qz (nrow a - 1))%Qc -> (0 <= y)%Qc -> (y < qz (ncol a - 1))%Qc ->
  bilinear_at a x y = Ok (c0 + cx * x + cy * y + cxy * x * y)%Qc.
Proof.
  intros Ha Hx0 Hx1 Hy0 Hy1. destruct (bilinear_cell a x y Hx0 Hx1 Hy0 Hy1) as (Hi & Hj & E).
  rewrite E. f_equal. rewrite !Ha by lia. rewrite !qz_add, qz_1. unfold lerp. ring.
Qed.

Lemma grid_exact a i j : 0 <= i < nrow a - 1 -> 0 <= j < ncol a - 1 ->
  bilinear_at a (qz i) (qz j) = Ok (at2 a i j).
Proof.
  intros Hi Hj.
  assert (H0 : forall k, 0 <= k -> (0 <= qz k)%Qc) by (intros; rewrite <- qz_0; apply qz_le; auto).
  destruct (bilinear_cell a (qz i) (qz j)) as (_ & _ & E); try (apply H0; lia); try (apply qz_lt; lia).
  rewrite E. rewrite !qc_int_qz. f_equal. unfold lerp. ring.
Qed.

Lemma last_row a i j : 2 <= nrow a -> i = nrow a - 1 -> 0 <= j < ncol a - 1 ->
  bilinear_point true a (qz i) (qz j) = Ok (at2 a i j - interp_eps * (at2 a i j - at2 a (i - 1)%Z j))%Qc.
Proof.
  intros Hr Ei Hj. unfold bilinear_point.
  assert (H0 : forall k, 0 <= k -> (0 <= qz k)%Qc) by (intros; rewrite <- qz_0; apply qz_le; auto).
  rewrite (clamp_id (ncol a)) by (apply qz_lt; lia).
  assert (Ec : clamp_coord (nrow a) (qz i) = (qz i - interp_eps)%Qc).
  { unfold clamp_coord. subst i. destruct (qc_leb_spec (qz (nrow a - 1)) (qz (nrow a - 1))); auto. exfalso; qclra. }
  rewrite Ec. pose proof eps_pos. pose proof eps_lt1.
  assert (Hge : (1 <= qz i)%Qc) by (rewrite <- qz_1; apply qz_le; lia).
  destruct (bilinear_cell a (qz i - interp_eps)%Qc (qz j)) as (_ & _ & E).
  - qclra. - rewrite <- Ei. qclra. - apply H0; lia. - apply qz_lt; lia.
  - rewrite E. assert (Ef : qc_int (qz i - interp_eps) = i - 1).
    { rewrite qc_int_nonneg by qclra. apply qc_floor_unique; rewrite qz_sub, qz_1; qclra. }
    rewrite Ef, qc_int_qz. replace (i - 1 + 1)%Z with i by lia. f_equal. rewrite qz_sub, qz_1. unfold lerp. ring.
Qed.

Lemma unchecked_agrees a x y : (x < qz (nrow a - 1))%Qc -> (y < qz (ncol a - 1))%Qc ->
  bilinear_point false a x y = bilinear_point true a x y.
Proof. intros. unfold bilinear_point. rewrite !clamp_id by auto. reflexivity. Qed.

Lemma unchecked_last a y : 1 <= nrow a -> bilinear_point false a (qz (nrow a - 1)) y = Err IndexError.
Proof.
  intros Hr. unfold bilinear_point, bilinear_at. rewrite qc_int_qz.
  destruct (nb_get a (nrow a - 1) (qc_int y)) eqn:E; cbn [bind].
  - rewrite nb_get_out by lia. reflexivity.
  - unfold nb_get in E. destruct (_ && _); congruence.
Qed.

(** ** Zoom *)
Lemma delta_pos : (0 < zoom_delta)%Qc.
Proof. reflexivity. Qed.
Lemma Qcdiv_nonneg a b : (0 <= a)%Qc -> (0 < b)%Qc -> (0 <= a / b)%Qc.
Proof.
  intros Ha Hb. assert (E : ((a / b) * b = a)%Qc) by (field; intro E; subst; exact (Qclt_not_eq _ _ Hb eq_refl)).
  destruct (Qclt_le_dec (a / b) 0); auto. exfalso. qcnra.
Qed.
Lemma Qcdiv_lt a b c : (0 < b)%Qc -> (a < c * b)%Qc -> (a / b < c)%Qc.
Proof.
  intros Hb H. assert (E : ((a / b) * b = a)%Qc) by (field; intro E; subst; exact (Qclt_not_eq _ _ Hb eq_refl)).
  destruct (Qclt_le_dec (a / b) c); auto. exfalso. qcnra.
Qed.
Lemma Qcdiv_le a b c : (0 < b)%Qc -> (a <= c * b)%Qc -> (a / b <= c)%Qc.
Proof.
  intros Hb H. assert (E : ((a / b) * b = a)%Qc) by (field; intro E; subst; exact (Qclt_not_eq _ _ Hb eq_refl)).
  destruct (Qclt_le_dec c (a / b)); auto. exfalso. qcnra.
Qed.

Lemma zoom_den m : 1 <= m -> (0 < qz m - (1 - zoom_delta))%Qc.
Proof. intros. pose proof delta_pos. assert (1 <= qz m)%Qc by (rewrite <- qz_1; apply qz_le; lia). qclra. Qed.

Lemma zoom_coord_range n m i : 2 <= n -> 0 <= i < m -> (0 <= zoom_coord n m i)%Qc /\ (zoom_coord n m i < qz (n - 1))%Qc.
Proof.
  intros Hn Hi. unfold zoom_coord. pose proof delta_pos as Hd.
  assert (Hn1 : (1 <= qz (n - 1))%Qc) by (rewrite <- qz_1; apply qz_le; lia).
  assert (Hi0 : (0 <= qz i)%Qc) by (rewrite <- qz_0; apply qz_le; lia).
  assert (Him : (qz i + 1 <= qz m)%Qc) by (rewrite <- qz_1, <- qz_add; apply qz_le; lia).
  pose proof (zoom_den m ltac:(lia)). split.
  - apply Qcdiv_nonneg; auto. qcnra.
  - apply Qcdiv_lt; auto. qcnra.
Qed.

Lemma zoom_within a mr mc lo hi i j : 2 <= nrow a -> 2 <= ncol a -> within a lo hi -> 0 <= i < mr -> 0 <= j < mc ->
  exists v, at2 (zoom a mr mc) i j = Ok v /\ (lo <= v <= hi)%Qc.
Proof.
  intros Hr Hc W Hi Hj. cbn [zoom at2].
  destruct (zoom_coord_range (nrow a) mr i Hr Hi), (zoom_coord_range (ncol a) mc j Hc Hj).
  apply bilinear_within; auto.
Qed.

Lemma zoom_same_coord n i : 2 <= n -> 0 <= i < n ->
  let e := (qz i - zoom_coord n n i)%Qc in
  (0 <= e)%Qc /\ (e <= zoom_delta)%Qc /\ (i = 0 -> e = 0%Qc) /\
  (1 <= i -> qc_int (zoom_coord n n i) = i - 1).
Proof.
  intros Hn Hi e. pose proof (zoom_den n ltac:(lia)) as Hd. pose proof delta_pos as Hp.
  assert (Hn1 : (1 <= qz (n - 1))%Qc) by (rewrite <- qz_1; apply qz_le; lia).
  assert (Hi0 : (0 <= qz i)%Qc) by (rewrite <- qz_0; apply qz_le; lia).
  assert (Him : (qz i <= qz (n - 1))%Qc) by (apply qz_le; lia).
  assert (En : (qz n = qz (n - 1) + 1)%Qc) by (rewrite <- qz_1, <- qz_add; f_equal; lia).
  assert (Ee : (e = qz i * zoom_delta / (qz n - (1 - zoom_delta)))%Qc).
  { unfold e, zoom_coord. rewrite En. field. rewrite En in Hd. intro E. apply (Qclt_not_eq _ _ Hd). symmetry. exact E. }
  assert (E0 : (0 <= e)%Qc) by (rewrite Ee; apply Qcdiv_nonneg; auto; qcnra).
  assert (E1 : (e <= zoom_delta)%Qc) by (rewrite Ee; apply Qcdiv_le; auto; rewrite En; qcnra).
  split; auto. split; auto. split.
  - intros ->. rewrite Ee, qz_0. unfold Qcdiv. ring.
  - intros H1. destruct (zoom_coord_range n n i Hn Hi) as [Hz0 _]. rewrite qc_int_nonneg by auto.
    assert (Hlt : (zoom_delta < 1)%Qc) by reflexivity.
    assert (Hi1 : (1 <= qz i)%Qc) by (rewrite <- qz_1; apply qz_le; lia).
    assert (Hpos : (0 < e)%Qc).
    { destruct (Qclt_le_dec 0 e) as [|Hle]; auto. exfalso.
      assert (Z0 : e = 0%Qc) by (apply Qcle_antisym; auto).
      assert (C : (e * (qz n - (1 - zoom_delta)) = qz i * zoom_delta)%Qc).
      { rewrite Ee. field. intro E. apply (Qclt_not_eq _ _ Hd). symmetry. exact E. }
      rewrite Z0 in C. qcnra. }
    apply qc_floor_unique; rewrite qz_sub, qz_1; unfold e in *; qclra.
Qed.

Lemma lerp_back p q t e G : t = (1 - e)%Qc -> (0 <= e)%Qc -> (qc_abs (q - p) <= G)%Qc -> (qc_abs (lerp p q t - q) <= e * G)%Qc.
Proof.
  intros -> He H. replace (lerp p q (1 - e) - q)%Qc with (- (e * (q - p)))%Qc by (unfold lerp; ring).
  destruct (qc_abs_ge (q - p)). unfold qc_abs at 1. destruct (Qclt_le_dec _ _); qcnra.
Qed.
Lemma abs_triangle a b c x y : (qc_abs (a - b) <= x)%Qc -> (qc_abs (b - c) <= y)%Qc -> (qc_abs (a - c) <= x + y)%Qc.
Proof.
  intros H1 H2. destruct (qc_abs_ge (a - b)), (qc_abs_ge (b - c)).
  unfold qc_abs at 1. destruct (Qclt_le_dec _ _); qclra.
Qed.
Lemma lerp_diff p q p' q' t G : (0 <= t <= 1)%Qc -> (qc_abs (p' - p) <= G)%Qc -> (qc_abs (q' - q) <= G)%Qc ->
  (qc_abs (lerp p' q' t - lerp p q t) <= G)%Qc.
Proof.
  intros [H0 H1] Hp Hq. destruct (qc_abs_ge (p' - p)), (qc_abs_ge (q' - q)).
  unfold lerp, qc_abs at 1. destruct (Qclt_le_dec _ _); qcnra.
Qed.
Lemma abs_0 : qc_abs 0 = 0%Qc.
Proof. reflexivity. Qed.

(** along one axis, the sample at the zoomed coordinate is within delta*G of the grid value *)
Lemma zoom_axis n i (f : Z -> Qc) G : 2 <= n -> 0 <= i < n -> (0 <= G)%Qc ->
  (forall k, 0 <= k < n - 1 -> (qc_abs (f (k + 1)%Z - f k) <= G)%Qc) ->
  let x := zoom_coord n n i in
  (qc_abs (lerp (f (qc_int x)) (f (qc_int x + 1)%Z) (x - qz (qc_int x)) - f i) <= zoom_delta * G)%Qc.
Proof.
  intros Hn Hi HG Hf x. destruct (zoom_same_coord n i Hn Hi) as (E0 & E1 & Ez & Ep). fold x in E0, E1, Ez, Ep.
  pose proof delta_pos.
  destruct (Z.eq_dec i 0) as [->|Hne].
  - assert (Ex : x = 0%Qc) by (specialize (Ez eq_refl); rewrite qz_0 in Ez; qclra).
    rewrite Ex. replace (qc_int 0) with 0 by reflexivity. rewrite qz_0.
    replace (lerp (f 0%Z) (f (0 + 1)%Z) (0 - 0) - f 0%Z)%Qc with 0%Qc by (unfold lerp; ring).
    rewrite abs_0. qcnra.
  - rewrite (Ep ltac:(lia)). replace (i - 1 + 1)%Z with i by lia.
    eapply Qcle_trans.
    + apply lerp_back with (e := (qz i - x)%Qc) (G := G); auto.
      * rewrite qz_sub, qz_1. ring.
      * replace (f i) with (f (i - 1 + 1)%Z) by (f_equal; lia). apply Hf. lia.
    + qcnra.
Qed.

Lemma zoom_same a G i j : 2 <= nrow a -> 2 <= ncol a -> slope_le a G -> 0 <= i < nrow a -> 0 <= j < ncol a ->
  exists v, at2 (zoom a (nrow a) (ncol a)) i j = Ok v /\ (qc_abs (v - at2 a i j) <= (1 + 1) * zoom_delta * G)%Qc.
Proof.
  intros Hr Hc [Sr Sc] Hi Hj. cbn [zoom at2].
  assert (HG : (0 <= G)%Qc).
  { eapply Qcle_trans; [apply qc_abs_nonneg|]. apply (Sr 0 0); lia. }
  destruct (zoom_coord_range (nrow a) (nrow a) i Hr Hi) as [X0 X1], (zoom_coord_range (ncol a) (ncol a) j Hc Hj) as [Y0 Y1].
  set (x := zoom_coord (nrow a) (nrow a) i) in *. set (y := zoom_coord (ncol a) (ncol a) j) in *.
  destruct (bilinear_cell a x y X0 X1 Y0 Y1) as (Hx & Hy & E).
  eexists; split; [exact E|].
  set (g := fun q => lerp (at2 a (qc_int x) q) (at2 a (qc_int x + 1)%Z q) (x - qz (qc_int x))).
  destruct (frac_cell x X0) as [F0 F1].
  assert (Hg : forall k, 0 <= k < ncol a - 1 -> (qc_abs (g (k + 1)%Z - g k) <= G)%Qc).
  { intros k Hk. unfold g. apply lerp_diff; [split; [auto | apply Qclt_le_weak; auto] | apply Sc; lia | apply Sc; lia]. }
  pose proof (zoom_axis (ncol a) j g G Hc Hj HG Hg) as H1. fold y in H1.
  pose proof (zoom_axis (nrow a) i (fun p => at2 a p j) G Hr Hi HG (fun k Hk => Sr k j Hk Hj)) as H2.
  fold x in H2. change (lerp _ _ (x - qz (qc_int x))) with (g j) in H2.
  replace ((1 + 1) * zoom_delta * G)%Qc with (zoom_delta * G + zoom_delta * G)%Qc by ring.
  eapply abs_triangle; [exact H1 | exact H2].
Qed.

(** ** interp.zoom *)
Lemma linspace_own n i : 0 <= i < n -> linspace0 (n - 1) n i = qz i.
Proof.
  intros H. unfold linspace0. destruct (Z.eqb_spec n 1).
  - replace i with 0 by lia. rewrite qz_0. reflexivity.
  - field. apply qz_neq0. lia.
Qed.
Lemma linspace_ends L n : 2 <= n -> linspace0 L n 0 = 0%Qc /\ linspace0 L n (n - 1) = qz L.
Proof.
  intros H. unfold linspace0. destruct (Z.eqb_spec n 1); [lia|]. split.
  - rewrite qz_0. unfold Qcdiv. ring.
  - field. apply qz_neq0. lia.
Qed.

Lemma spl_zoom_own spl a n : interpolates spl -> nrow a = n -> ncol a = n ->
  arr_eq (spl_zoom spl a n n) a.
Proof.
  intros I Hr Hc. unfold spl_zoom. split; [cbn; lia|]. split; [cbn; lia|]. cbn. intros i j Hi Hj.
  rewrite Hr, Hc. rewrite !linspace_own by lia. apply I; lia.
Qed.

Lemma spl_zoom_corners spl a n m : interpolates spl -> nrow a = n -> ncol a = n -> 1 <= n -> 2 <= m ->
  let z := spl_zoom spl a m m in
  nrow z = m /\ ncol z = m /\
  at2 z 0 0 = at2 a 0 0 /\ at2 z (m - 1) 0 = at2 a (n - 1) 0 /\
  at2 z 0 (m - 1) = at2 a 0 (n - 1) /\ at2 z (m - 1) (m - 1) = at2 a (n - 1) (n - 1).
Proof.
  intros I Hr Hc Hn Hm z. unfold z, spl_zoom. cbn. rewrite Hr, Hc.
  destruct (linspace_ends (n - 1) m Hm) as [-> ->]. rewrite <- qz_0.
  split; [reflexivity|]. split; [reflexivity|].
  repeat split; apply I; lia.
Qed.

(** ** Binning *)
Lemma bin_flux a b nr nc : 0 <= b -> 0 <= nr -> 0 <= nc -> nrow a = nr * b -> ncol a = nc * b ->
  flux (bin_img a b nr nc) = flux a.
Proof.
  intros Hb Hr Hc Er Ec. unfold flux. cbn [bin_img nrow ncol at2]. rewrite Er, Ec.
  rewrite (zsum_blocks nr b) by auto. apply zsum_ext. intros i Hi.
  rewrite <- zsum_swap. apply zsum_ext. intros x Hx.
  rewrite (zsum_blocks nc b) by auto. reflexivity.
Qed.

Lemma zsum_pick n k (f : Z -> Qc) : 0 <= k < n -> zsum n (fun i => if i =? k then f i else 0%Qc) = f k.
Proof.
  intros H. rewrite (zsum_single n k) by (auto; intros; rewrite (proj2 (Z.eqb_neq _ _)); auto).
  rewrite Z.eqb_refl. reflexivity.
Qed.

Lemma bin_lit b nr nc p q v : 0 < b -> 0 <= p < nr * b -> 0 <= q < nc * b ->
  arr_eq (bin_img (lit (nr * b) (nc * b) p q v) b nr nc) (lit nr nc (p / b) (q / b) v).
Proof.
  intros Hb Hp Hq. split; [reflexivity|]. split; [reflexivity|]. cbn. intros i j Hi Hj.
  pose proof (Z.div_mod p b ltac:(lia)). pose proof (Z.mod_pos_bound p b Hb).
  pose proof (Z.div_mod q b ltac:(lia)). pose proof (Z.mod_pos_bound q b Hb).
  destruct (Z.eqb_spec i (p / b)) as [->|Hni]; [destruct (Z.eqb_spec j (q / b)) as [->|Hnj]|]; cbn [andb].
  - rewrite (zsum_single b (p mod b)); [| lia |].
    2:{ intros x Hx Hne. apply zsum_zero_ext; intros y Hy.
        destruct (Z.eqb_spec (p / b * b + x) p); [exfalso; lia | reflexivity]. }
    rewrite (zsum_single b (q mod b)); [| lia |].
    2:{ intros y Hy Hne. destruct (Z.eqb_spec (q / b * b + y) q); [exfalso; lia | rewrite Bool.andb_false_r; reflexivity]. }
    rewrite (proj2 (Z.eqb_eq (p / b * b + p mod b) p)) by lia.
    rewrite (proj2 (Z.eqb_eq (q / b * b + q mod b) q)) by lia. reflexivity.
  - apply zsum_zero_ext; intros x Hx. apply zsum_zero_ext; intros y Hy.
    destruct (Z.eqb_spec (j * b + y) q) as [E|]; [|rewrite Bool.andb_false_r; reflexivity].
    exfalso. apply Hnj. subst q. rewrite Z.div_add_l by lia. rewrite Z.div_small by lia. lia.
  - apply zsum_zero_ext; intros x Hx. apply zsum_zero_ext; intros y Hy.
    destruct (Z.eqb_spec (i * b + x) p) as [E|]; [|reflexivity].
    exfalso. apply Hni. subst p. rewrite Z.div_add_l by lia. rewrite Z.div_small by lia. lia.
Qed.

Lemma stride_len_div w n k : 0 < n -> 0 <= k < n -> 0 <= w -> stride_len (w * n) k n = w.
Proof.
  intros Hn Hk Hw. unfold stride_len. destruct (Z.ltb_spec k (w * n)).
  - symmetry. apply Z.div_unique with (r := n - 1 - k); nia.
  - nia.
Qed.
Lemma all_bc_div w n k : 0 < n -> 0 <= w -> (k <= Z.to_nat n)%nat -> all_bc w (w * n) n k = true.
Proof.
  intros Hn Hw. induction k; intros Hk; cbn [all_bc]; auto.
  rewrite IHk by lia. rewrite stride_len_div by lia. unfold bc_ok. rewrite Z.eqb_refl. reflexivity.
Qed.

Lemma bc_ix_id w i : 0 <= i < w -> bc_ix w i = i.
Proof. intros. unfold bc_ix. destruct (Z.eqb_spec w 1); lia. Qed.

Lemma binImgs_ok a n nr nc : 0 < n -> 0 <= nr -> 0 <= nc -> nrow a = nr * n -> ncol a = nc * n ->
  exists r, binImgs a n = Ok r /\ arr_eq r (bin_img a n nr nc).
Proof.
  intros Hn Hr Hc Er Ec. unfold binImgs, bin_cols. rewrite Ec, Z.div_mul by lia.
  rewrite all_bc_div by (auto; lia). cbn [bind]. unfold bin_rows. cbn [nrow ncol at2]. rewrite Er, Z.div_mul by lia.
  rewrite all_bc_div by (auto; lia).
  eexists; split; [reflexivity|]. split; [reflexivity|]. split; [reflexivity|]. cbn. intros i j Hi Hj.
  apply zsum_ext. intros x Hx. rewrite !stride_len_div by lia. rewrite bc_ix_id by lia.
  apply zsum_ext. intros y Hy. rewrite stride_len_div by lia. rewrite bc_ix_id by lia. f_equal; lia.
Qed.

Lemma all_bc_fail w N n k : 0 < n -> bc_ok w (stride_len N 0 n) = false -> (0 < k)%nat -> all_bc w N n k = false.
Proof.
  intros Hn Hf. induction k as [|k IH]; intros Hk; [lia|]. cbn [all_bc]. destruct k.
  - change (Z.of_nat 0) with 0. rewrite Hf. apply Bool.andb_false_r.
  - rewrite IH by lia. reflexivity.
Qed.
Lemma stride_nondiv N n : 0 < n -> n <= N -> N mod n <> 0 -> bc_ok (N / n) (stride_len N 0 n) = false.
Proof.
  intros Hn HN Hm. unfold bc_ok, stride_len. destruct (Z.ltb_spec 0 N); [|lia].
  pose proof (Z.div_mod N n ltac:(lia)). pose proof (Z.mod_pos_bound N n Hn).
  assert (E : (N - 0 + n - 1) / n = N / n + 1).
  { symmetry. apply Z.div_unique with (r := N mod n - 1); nia. }
  rewrite E. assert (1 <= N / n) by (apply Z.div_le_lower_bound; lia).
  apply Bool.orb_false_iff; split; apply Z.eqb_neq; lia.
Qed.
Lemma binImgs_cols_bad a n : 0 < n -> n <= ncol a -> ncol a mod n <> 0 -> binImgs a n = Err ValueError.
Proof.
  intros Hn HN Hm. unfold binImgs, bin_cols. rewrite all_bc_fail; [reflexivity | auto | apply stride_nondiv; auto | lia].
Qed.

(** ** In-place FFT shift *)
Definition q_ix (h i : Z) : Z := if i <? h then i else i - h.
Definition s_ix (h i : Z) : Z := if i <? h then i + h else i - h.

Lemma shift_step_at {A} h k (f : Z -> Z -> A) x y i j :
  0 <= x < h -> 0 <= y < k -> 0 <= i -> 0 <= j ->
  shift_step h k f (x, y) i j =
  if (i <? 2 * h) && (j <? 2 * k) && (q_ix h i =? x) && (q_ix k j =? y) then f (s_ix h i) (s_ix k j) else f i j.
Proof.
  intros Hx Hy Hi Hj.
  assert (Ci : (i = x /\ i < h) \/ (i = x + h /\ h <= i < 2 * h) \/ (i <> x /\ i <> x + h)) by lia.
  assert (Cj : (j = y /\ j < k) \/ (j = y + k /\ k <= j < 2 * k) \/ (j <> y /\ j <> y + k)) by lia.
  assert (Ki : (i <? 2 * h) && (q_ix h i =? x) = (i =? x) || (i =? x + h)).
  { unfold q_ix. destruct (Z.ltb_spec i (2 * h)), (Z.ltb_spec i h); cbn [andb]; lia. }
  assert (Kj : (j <? 2 * k) && (q_ix k j =? y) = (j =? y) || (j =? y + k)).
  { unfold q_ix. destruct (Z.ltb_spec j (2 * k)), (Z.ltb_spec j k); cbn [andb]; lia. }
  replace ((i <? 2 * h) && (j <? 2 * k) && (q_ix h i =? x) && (q_ix k j =? y))
    with (((i <? 2 * h) && (q_ix h i =? x)) && ((j <? 2 * k) && (q_ix k j =? y)))
    by (destruct (i <? 2 * h), (j <? 2 * k), (q_ix h i =? x), (q_ix k j =? y); reflexivity).
  rewrite Ki, Kj. clear Ki Kj. unfold shift_step, upd2, s_ix.
  destruct Ci as [[-> Li]|[[-> Li]|[N1 N2]]]; destruct Cj as [[-> Lj]|[[-> Lj]|[M1 M2]]];
    repeat match goal with
    | |- context [?a =? ?b] => first [rewrite (proj2 (Z.eqb_eq a b)) by lia | rewrite (proj2 (Z.eqb_neq a b)) by lia]
    | |- context [?a <? ?b] => first [rewrite (proj2 (Z.ltb_lt a b)) by lia | rewrite (proj2 (Z.ltb_ge a b)) by lia]
    end; cbn [andb orb]; try reflexivity; f_equal; lia.
Qed.

Lemma s_ix_q h i : 0 <= i -> i < 2 * h -> q_ix h (s_ix h i) = q_ix h i /\ 0 <= s_ix h i /\ s_ix h i < 2 * h.
Proof. intros. unfold q_ix, s_ix. destruct (Z.ltb_spec i h); [destruct (Z.ltb_spec (i + h) h) | destruct (Z.ltb_spec (i - h) h)]; lia. Qed.

Definition in_pairs (l : list (Z * Z)) (p : Z * Z) : bool :=
  existsb (fun q => (fst p =? fst q) && (snd p =? snd q)) l.
Lemma in_pairs_spec l p : in_pairs l p = true <-> In p l.
Proof.
  unfold in_pairs. rewrite existsb_exists. split.
  - intros ([a b] & Hin & H). apply Bool.andb_true_iff in H. destruct H as [H1 H2].
    apply Z.eqb_eq in H1. apply Z.eqb_eq in H2. destruct p; cbn in *; subst; auto.
  - intros H. exists p. rewrite !Z.eqb_refl. auto.
Qed.

Lemma shift_fold {A} h k (l : list (Z * Z)) : NoDup l -> Forall (fun p => 0 <= fst p < h /\ 0 <= snd p < k) l ->
  forall (f : Z -> Z -> A) i j, 0 <= i -> 0 <= j ->
  fold_left (shift_step h k) l f i j =
  if (i <? 2 * h) && (j <? 2 * k) && in_pairs l (q_ix h i, q_ix k j) then f (s_ix h i) (s_ix k j) else f i j.
Proof.
  intros ND. induction ND as [|[x y] l Hn ND IH]; intros HF f i j Hi Hj.
  - cbn [fold_left]. replace (in_pairs [] _) with false by reflexivity. rewrite Bool.andb_false_r. reflexivity.
  - inversion HF as [|? ? [Hx Hy] HF']; subst. cbn [fst snd] in *. cbn [fold_left].
    rewrite IH by auto. cbn [in_pairs existsb fst snd].
    change (existsb (fun q : Z * Z => (q_ix h i =? fst q) && (q_ix k j =? snd q)) l) with (in_pairs l (q_ix h i, q_ix k j)).
    destruct (Z.ltb_spec i (2 * h)); [destruct (Z.ltb_spec j (2 * k))|]; cbn [andb].
    + destruct (s_ix_q h i) as (Q1 & B1 & B2); auto. destruct (s_ix_q k j) as (Q2 & C1 & C2); auto.
      rewrite (shift_step_at h k f x y (s_ix h i) (s_ix k j)) by auto.
      rewrite (shift_step_at h k f x y i j) by auto. rewrite Q1, Q2.
      rewrite (proj2 (Z.ltb_lt (s_ix h i) (2 * h))) by lia. rewrite (proj2 (Z.ltb_lt (s_ix k j) (2 * k))) by lia.
      rewrite (proj2 (Z.ltb_lt i (2 * h))) by lia. rewrite (proj2 (Z.ltb_lt j (2 * k))) by lia. cbn [andb].
      destruct (Z.eqb_spec (q_ix h i) x) as [Ex|]; [destruct (Z.eqb_spec (q_ix k j) y) as [Ey|]|]; cbn [andb orb];
        destruct (in_pairs l (q_ix h i, q_ix k j)) eqn:Ein; try reflexivity.
      exfalso. apply Hn. subst x y. apply in_pairs_spec; auto.
    + rewrite shift_step_at by auto. destruct (Z.ltb_spec i (2 * h)); [|lia]. destruct (Z.ltb_spec j (2 * k)); [lia|]. reflexivity.
    + rewrite shift_step_at by auto. destruct (Z.ltb_spec i (2 * h)); [lia|]. reflexivity.
Qed.

Lemma zseq_In n x : In x (zseq n) <-> 0 <= x < n.
Proof.
  unfold zseq. rewrite in_map_iff. split.
  - intros (m & <- & H). apply in_seq in H. lia.
  - intros H. exists (Z.to_nat x). split; [lia|]. apply in_seq. lia.
Qed.
Lemma zseq_NoDup n : NoDup (zseq n).
Proof. unfold zseq. apply FinFun.Injective_map_NoDup; [intros a b; lia | apply seq_NoDup]. Qed.

Lemma NoDup_app_intro {A} (l1 l2 : list A) : NoDup l1 -> NoDup l2 -> (forall a, In a l1 -> ~ In a l2) -> NoDup (l1 ++ l2).
Proof.
  intros H1 H2 H. induction H1 as [|a l1 Hn H1 IH]; cbn; auto. constructor.
  - rewrite in_app_iff. intros [Hi|Hi]; [auto|]. apply (H a); cbn; auto.
  - apply IH. intros b Hb. apply H. cbn; auto.
Qed.
Lemma grid_In (xs ys : list Z) p : In p (flat_map (fun x => map (fun y => (x, y)) ys) xs) <-> In (fst p) xs /\ In (snd p) ys.
Proof.
  rewrite in_flat_map. split.
  - intros (x & Hx & H). apply in_map_iff in H. destruct H as (y & <- & Hy). auto.
  - intros [H1 H2]. exists (fst p). split; auto. apply in_map_iff. exists (snd p). destruct p; auto.
Qed.
Lemma grid_NoDup (xs ys : list Z) : NoDup xs -> NoDup ys ->
  NoDup (flat_map (fun x => map (fun y => (x, y)) ys) xs).
Proof.
  intros Hx Hy. induction Hx as [|x xs Hn Hx IH]; cbn [flat_map]; [constructor|].
  apply NoDup_app_intro; auto.
  - apply FinFun.Injective_map_NoDup; auto. intros a b E. congruence.
  - intros [a b] Ha Hb. apply in_map_iff in Ha. destruct Ha as (y & E & _). inversion E; subst.
    apply grid_In in Hb. cbn in Hb. tauto.
Qed.

Lemma fftshift_inplace_at {A} (a : arr A) xs i j : Permutation xs (zseq (nrow a / 2)) ->
  0 <= i < nrow a -> 0 <= j < ncol a ->
  let h := nrow a / 2 in let k := ncol a / 2 in
  at2 (fftshift_inplace a xs) i j = if (i <? 2 * h) && (j <? 2 * k) then at2 a (s_ix h i) (s_ix k j) else at2 a i j.
Proof.
  intros HP Hi Hj h k. unfold fftshift_inplace. cbn [at2]. fold h k.
  assert (NDx : NoDup xs) by (eapply Permutation_NoDup; [apply Permutation_sym; eauto | apply zseq_NoDup]).
  rewrite shift_fold; try lia.
  - destruct (Z.ltb_spec i (2 * h)); [destruct (Z.ltb_spec j (2 * k))|]; cbn [andb]; auto.
    replace (in_pairs _ _) with true; auto. symmetry. apply in_pairs_spec. apply grid_In. cbn. split.
    + eapply Permutation_in; [apply Permutation_sym; eauto|]. apply zseq_In. unfold q_ix. destruct (Z.ltb_spec i h); lia.
    + apply zseq_In. unfold q_ix. destruct (Z.ltb_spec j k); lia.
  - apply grid_NoDup; auto. apply zseq_NoDup.
  - apply Forall_forall. intros p Hp. apply grid_In in Hp. destruct Hp as [H1 H2]. split.
    + apply zseq_In. eapply Permutation_in; eauto.
    + apply zseq_In; auto.
Qed.

Lemma s_ix_mod n i : Z.even n = true -> 0 <= i < n -> s_ix (n / 2) i = (i - n / 2) mod n.
Proof.
  intros He Hi. apply Z.even_spec in He. destruct He as [m ->]. rewrite (Z.mul_comm 2 m), Z.div_mul by lia.
  unfold s_ix. destruct (Z.ltb_spec i m).
  - apply Z.mod_unique with (q := -1); lia.
  - rewrite Z.mod_small; lia.
Qed.

Lemma fftshift_even {A} (a : arr A) xs : Z.even (nrow a) = true -> Z.even (ncol a) = true ->
  Permutation xs (zseq (nrow a / 2)) -> arr_eq (fftshift_inplace a xs) (fftshift a).
Proof.
  intros Er Ec HP. split; [reflexivity|]. split; [reflexivity|]. intros i j Hi Hj.
  assert (Hi' : 0 <= i < nrow a) by exact Hi. assert (Hj' : 0 <= j < ncol a) by exact Hj.
  rewrite fftshift_inplace_at by auto. unfold fftshift. cbn [at2].
  rewrite <- !s_ix_mod by auto.
  assert (forall n, Z.even n = true -> 2 * (n / 2) = n) as E2.
  { intros n Hn. apply Z.even_spec in Hn. destruct Hn as [m ->]. rewrite (Z.mul_comm 2 m), Z.div_mul by lia. lia. }
  rewrite !E2 by auto. rewrite !(proj2 (Z.ltb_lt _ _)) by lia. reflexivity.
Qed.

Lemma fftshift_twice {A} (a : arr A) xs ys : Permutation xs (zseq (nrow a / 2)) -> Permutation ys (zseq (nrow a / 2)) ->
  arr_eq (fftshift_inplace (fftshift_inplace a xs) ys) a.
Proof.
  intros HP HQ. split; [reflexivity|]. split; [reflexivity|]. intros i j Hi Hj.
  assert (Hi' : 0 <= i < nrow a) by exact Hi. assert (Hj' : 0 <= j < ncol a) by exact Hj.
  rewrite fftshift_inplace_at by auto. change (nrow (fftshift_inplace a xs)) with (nrow a). change (ncol (fftshift_inplace a xs)) with (ncol a).
  set (h := nrow a / 2). set (k := ncol a / 2).
  assert (Hh : 2 * h <= nrow a) by (unfold h; pose proof (Z.mul_div_le (nrow a) 2); lia).
  assert (Hk : 2 * k <= ncol a) by (unfold k; pose proof (Z.mul_div_le (ncol a) 2); lia).
  destruct (Z.ltb_spec i (2 * h)); [destruct (Z.ltb_spec j (2 * k))|]; cbn [andb].
  - destruct (s_ix_q h i) as (_ & B1 & B2); try lia. destruct (s_ix_q k j) as (_ & C1 & C2); try lia.
    rewrite fftshift_inplace_at by (auto; lia). fold h k.
    rewrite !(proj2 (Z.ltb_lt _ _)) by lia. cbn [andb].
    f_equal; unfold s_ix; [destruct (Z.ltb_spec i h); [destruct (Z.ltb_spec (i + h) h) | destruct (Z.ltb_spec (i - h) h)]
                          | destruct (Z.ltb_spec j k); [destruct (Z.ltb_spec (j + k) k) | destruct (Z.ltb_spec (j - k) k)]]; lia.
  - rewrite fftshift_inplace_at by (auto; lia). fold h k. rewrite (proj2 (Z.ltb_ge j (2 * k))) by lia. rewrite Bool.andb_false_r. reflexivity.
  - rewrite fftshift_inplace_at by (auto; lia). fold h k. rewrite (proj2 (Z.ltb_ge i (2 * h))) by lia. reflexivity.
Qed.

Lemma fftshift_odd_last {A} (a : arr A) xs j : Z.odd (nrow a) = true -> 3 <= nrow a -> 0 <= j < ncol a ->
  Permutation xs (zseq (nrow a / 2)) ->
  at2 (fftshift_inplace a xs) (nrow a - 1) j = at2 a (nrow a - 1) j /\
  at2 (fftshift a) (nrow a - 1) j = at2 a (nrow a / 2) ((j - ncol a / 2) mod ncol a).
Proof.
  intros Ho Hn Hj HP. apply Z.odd_spec in Ho. destruct Ho as [m Em]. split.
  - rewrite fftshift_inplace_at by (auto; lia).
    assert (nrow a / 2 = m) as -> by (rewrite Em; symmetry; apply Z.div_unique with (r := 1); lia).
    rewrite (proj2 (Z.ltb_ge _ _)) by lia. reflexivity.
  - unfold fftshift. cbn [at2].
    assert (Eh : nrow a / 2 = m) by (rewrite Em; symmetry; apply Z.div_unique with (r := 1); lia).
    rewrite Eh. f_equal. rewrite Z.mod_small; lia.
Qed.

(** ** ftShift2d *)
Lemma quad_ix_even n i : Z.even n = true -> 0 <= i < n -> quad_ix n i = ((n - 1 - i) - n / 2) mod n.
Proof.
  intros He Hi. apply Z.even_spec in He. destruct He as [m ->].
  unfold quad_ix. rewrite (Z.mul_comm 2 m), Z.div_mul by lia. rewrite round_div_mul by lia.
  unfold rev_ix. destruct (Z.ltb_spec i m).
  - rewrite Z.mod_small; lia.
  - apply Z.mod_unique with (q := -1); lia.
Qed.
Lemma round_half n m r : n = 4 * m + r -> 0 <= r < 4 -> round_div n 2 = 2 * m + (if r <? 2 then 0 else if r =? 2 then 1 else 2).
Proof.
  intros -> Hr. unfold round_div.
  assert (H : forall q e, 4 * m + r = 2 * q + e -> 0 <= e < 2 -> (4 * m + r) / 2 = q /\ (4 * m + r) mod 2 = e).
  { intros q e E He. split; [symmetry; apply Z.div_unique with (r := e) | symmetry; apply Z.mod_unique with (q := q)]; lia. }
  assert (r = 0 \/ r = 1 \/ r = 2 \/ r = 3) as [->|[->|[->| ->]]] by lia.
  - destruct (H (2 * m) 0) as [-> ->]; try lia. cbn. lia.
  - destruct (H (2 * m) 1) as [-> ->]; try lia.
    replace (Z.even (2 * m)) with true by (rewrite Z.even_mul; reflexivity). cbn. lia.
  - destruct (H (2 * m + 1) 0) as [-> ->]; try lia. cbn. lia.
  - destruct (H (2 * m + 1) 1) as [-> ->]; try lia.
    replace (Z.even (2 * m + 1)) with false by (rewrite Z.even_add, Z.even_mul; reflexivity). cbn. lia.
Qed.
Lemma quad_ix_odd3 n i : n mod 4 = 3 -> 0 <= i < n -> quad_ix n i = ((n - 1 - i) - n / 2) mod n.
Proof.
  intros Hm Hi. pose proof (Z.div_mod n 4 ltac:(lia)) as E. rewrite Hm in E. set (m := n / 4) in *.
  unfold quad_ix. rewrite (round_half n m 3) by lia. cbn [Z.ltb Z.eqb Z.compare].
  assert (n / 2 = 2 * m + 1) as -> by (symmetry; apply Z.div_unique with (r := 1); lia).
  unfold rev_ix. match goal with |- context [i <? ?s] => replace s with (2 * m + 2) by reflexivity end.
  destruct (Z.ltb_spec i (2 * m + 2)).
  - rewrite Z.mod_small; lia.
  - apply Z.mod_unique with (q := -1); lia.
Qed.

Lemma quad_ix_ok n i : shiftable n -> 0 <= i < n -> quad_ix n i = ((n - 1 - i) - n / 2) mod n.
Proof. intros [H|H]; [apply quad_ix_even | apply quad_ix_odd3]; auto. Qed.

Lemma ftShift2d_ok {A} (a : arr A) : shiftable (nrow a) -> shiftable (ncol a) ->
  exists r, ftShift2d false a = Ok r /\ arr_eq r (flip2 (fftshift a)).
Proof.
  intros Hr Hc. unfold ftShift2d. cbn [andb]. eexists; split; [reflexivity|].
  split; [reflexivity|]. split; [reflexivity|]. cbn. intros i j Hi Hj. rewrite !quad_ix_ok by auto. reflexivity.
Qed.

Lemma quad_ix_zero_1mod4 n : n mod 4 = 1 -> 5 <= n -> quad_ix n (n / 2) = n - 1 /\ quad_ix n (n / 2 - 1) = 0.
Proof.
  intros Hm Hn. pose proof (Z.div_mod n 4 ltac:(lia)) as E. rewrite Hm in E. set (m := n / 4) in *.
  assert (n / 2 = 2 * m) as -> by (symmetry; apply Z.div_unique with (r := 1); lia).
  unfold quad_ix. rewrite (round_half n m 1) by lia. cbn [Z.ltb Z.compare]. change (1 <? 2) with true. cbv iota. unfold rev_ix.
  destruct (Z.ltb_spec (2 * m) (2 * m + 0)); [lia|]. destruct (Z.ltb_spec (2 * m - 1) (2 * m + 0)); lia.
Qed.
Lemma quad_ix_zero_even n : Z.even n = true -> 2 <= n -> quad_ix n (n / 2 - 1) = 0 /\ quad_ix n (n / 2) = n - 1.
Proof.
  intros He Hn. apply Z.even_spec in He. destruct He as [m ->].
  unfold quad_ix. rewrite (Z.mul_comm 2 m), Z.div_mul by lia. rewrite round_div_mul by lia. unfold rev_ix.
  destruct (Z.ltb_spec (m - 1) m); [|lia]. destruct (Z.ltb_spec m m); lia.
Qed.

(** ** Multi-process FFT *)
Section MpProofs.
  Context {A B : Type} (F : A -> B) (data : Z -> A) (n p : Z).
  Hypothesis Hp : 1 <= p.

  Lemma zseq_nth m k : 0 <= k < m -> nth_error (zseq m) (Z.to_nat k) = Some k.
  Proof.
    intros H. unfold zseq. rewrite nth_error_map. rewrite (nth_error_nth' _ O) by (rewrite seq_length; lia).
    rewrite seq_nth by lia. cbn. f_equal. lia.
  Qed.

  Lemma worker_nth i r : 0 <= i < p -> i <= r < n -> (r - i) mod p = 0 ->
    nth_error (worker F data n p i) (Z.to_nat ((r - i) / p)) = Some (F (data r)).
  Proof.
    intros Hi Hr Hm. unfold worker, chunk. rewrite map_map, nth_error_map.
    pose proof (Z.div_mod (r - i) p ltac:(lia)) as E. rewrite Hm in E.
    assert (0 <= (r - i) / p) by (apply Z.div_pos; lia).
    rewrite zseq_nth.
    - cbn. do 2 f_equal. f_equal. lia.
    - split; auto. unfold stride_len. destruct (Z.ltb_spec i n); [|lia].
      apply Z.lt_le_trans with ((r - i) / p + 1); [lia|].
      replace ((r - i) / p + 1) with ((r - i + 1 * p) / p) by (rewrite Z.div_add by lia; lia).
      apply Z.div_le_mono; lia.
  Qed.

  Definition mp_inv (s : mp (B := B)) : Prop :=
    0 <= mp_pc s <= p /\
    (forall i, match mp_q s i with Some v => v = worker F data n p i /\ 0 <= i < p | None => mp_pc s <= i \/ i < 0 end) /\
    (forall r, 0 <= r < n -> r mod p < mp_pc s -> mp_out s r = Some (F (data r))).

  Lemma mp_init_inv out : mp_inv (mp_init out).
  Proof.
    split; [cbn; lia|]. split; cbn; intros.
    - lia.
    - pose proof (Z.mod_pos_bound r p). lia.
  Qed.

  Lemma mp_step_inv s t : mp_inv s -> mp_step F data n p s t -> mp_inv t.
  Proof.
    intros (Hpc & Hq & Ho) St. inversion St as [s0 i Hi Hn Es Et | s0 v Hlt Hv Es Et]; subst.
    - split; [cbn; lia|]. split; cbn.
      + intros j. destruct (Z.eqb_spec j i) as [->|]; [auto | apply Hq].
      + auto.
    - split; [cbn; lia|]. split; cbn.
      + intros j. specialize (Hq j). destruct (mp_q s j) eqn:Eq; auto. destruct (Z.eq_dec j (mp_pc s)) as [->|]; [congruence|]. lia.
      + intros r Hr Hm. unfold put_stride. pose proof (Hq (mp_pc s)) as Hw. rewrite Hv in Hw. destruct Hw as [-> Hlt'].
        pose proof (Z.div_mod r p ltac:(lia)) as Ed. pose proof (Z.mod_pos_bound r p ltac:(lia)) as Hb.
        destruct (Z.eq_dec (r mod p) (mp_pc s)) as [E|Hne].
        * assert (Hge : mp_pc s <= r) by (assert (0 <= r / p) by (apply Z.div_pos; lia); nia).
          assert (Hz : (r - mp_pc s) mod p = 0).
          { rewrite <- E. replace (r - r mod p) with (r / p * p) by lia. apply Z.mod_mul. lia. }
          rewrite (proj2 (Z.ltb_lt r n)) by lia. rewrite (proj2 (Z.leb_le (mp_pc s) r)) by lia.
          rewrite (proj2 (Z.eqb_eq _ 0) Hz). cbn [andb]. apply worker_nth; lia.
        * assert (Hnz : (r - mp_pc s) mod p <> 0).
          { intros Hz. apply Hne. apply Z.mod_divide in Hz; [|lia]. destruct Hz as [q Hq'].
            replace r with (mp_pc s + q * p) by lia. rewrite Z.mod_add by lia. rewrite Z.mod_small; lia. }
          rewrite (proj2 (Z.eqb_neq _ 0) Hnz). rewrite Bool.andb_false_r. apply Ho; auto. lia.
  Qed.

  Lemma mp_run_inv m s t : mp_run F data n p m s t -> mp_inv s -> mp_inv t.
  Proof. induction 1; auto. intros. apply IHmp_run. eapply mp_step_inv; eauto. Qed.

  Lemma mp_finished m out t : mp_run F data n p m (mp_init out) t -> mp_pc t = p ->
    forall r, 0 <= r < n -> mp_out t r = Some (F (data r)).
  Proof.
    intros R Hpc r Hr. destruct (mp_run_inv _ _ _ R (mp_init_inv out)) as (_ & _ & Ho). apply Ho; auto.
    rewrite Hpc. apply Z.mod_pos_bound. lia.
  Qed.

  Lemma mp_progress m out t : mp_run F data n p m (mp_init out) t -> mp_pc t < p -> exists u, mp_step F data n p t u.
  Proof.
    intros R Hlt. destruct (mp_run_inv _ _ _ R (mp_init_inv out)) as (Hpc & Hq & _).
    destruct (mp_q t (mp_pc t)) eqn:E.
    - eexists. eapply StepGet; eauto.
    - eexists. eapply (StepPut F data n p t (mp_pc t)); eauto. lia.
  Qed.

  (** every run ends: each step empties one of 2p slots *)
  Definition pending (s : mp (B := B)) : nat :=
    (length (filter (fun i => match mp_q s i with None => true | Some _ => false end) (zseq p)) + Z.to_nat (p - mp_pc s))%nat.
  Lemma filter_one (f g : Z -> bool) (l : list Z) i : NoDup l -> In i l -> f i = true -> g i = false ->
    (forall j, j <> i -> g j = f j) -> length (filter f l) = S (length (filter g l)).
  Proof.
    intros ND. induction ND as [|a l Hn ND IH]; intros Hin Hf Hg He; [contradiction|].
    cbn [filter]. destruct Hin as [->|Hin].
    - rewrite Hf, Hg. cbn. f_equal. f_equal. apply filter_ext_in. intros b Hb. symmetry. apply He. intros ->. auto.
    - assert (a <> i) by (intros ->; auto). rewrite (He a) by auto. destruct (f a); cbn; rewrite IH; auto.
  Qed.
  Lemma mp_step_pending s t : mp_inv s -> mp_step F data n p s t -> (pending t < pending s)%nat.
  Proof.
    intros (Hpc & Hq & _) St. inversion St as [s0 i Hi Hn Es Et | s0 v Hlt Hv Es Et]; subst; unfold pending; cbn.
    - rewrite (filter_one (fun k => match mp_q s k with None => true | Some _ => false end)
                          (fun k => match (if k =? i then Some (worker F data n p i) else mp_q s k) with None => true | Some _ => false end) (zseq p) i).
      + lia.
      + apply zseq_NoDup.
      + apply zseq_In; auto.
      + rewrite Hn; auto.
      + rewrite Z.eqb_refl; auto.
      + intros j Hj. rewrite (proj2 (Z.eqb_neq j i)) by auto. reflexivity.
    - lia.
  Qed.
  Lemma mp_run_bound m out t : mp_run F data n p m (mp_init out) t -> (m <= 2 * Z.to_nat p)%nat.
  Proof.
    assert (G : forall s, mp_inv s -> mp_run F data n p m s t -> (m + pending t <= pending s)%nat).
    { intros s Hs R. revert Hs. induction R; intros Hs; [lia|].
      pose proof (mp_step_pending _ _ Hs H). specialize (IHR (mp_step_inv _ _ Hs H)). lia. }
    intros R. specialize (G _ (mp_init_inv out) R). unfold pending at 2 in G. cbn in G.
    assert (length (filter (fun _ : Z => true) (zseq p)) <= Z.to_nat p)%nat.
    { unfold zseq. rewrite <- (seq_length (Z.to_nat p) 0) at 2. rewrite <- (map_length Z.of_nat).
      clear. induction (map Z.of_nat (seq 0 (Z.to_nat p))); cbn; lia. }
    lia.
  Qed.
End MpProofs.

(** ** Forms used by the property theorems *)
Lemma point_exact (bc : bool) a x y (c0 cx cy cxy : Qc) :
  (forall i j, 0 <= i < nrow a -> 0 <= j < ncol a -> at2 a i j = c0 + cx * qz i + cy * qz j + cxy * qz i * qz j)%Qc ->
  (0 <= x)%Qc -> (x < qz (nrow a - 1))%Qc -> (0 <= y)%Qc -> (y < qz (ncol a - 1))%Qc ->
  bilinear_point bc a x y = Ok (c0 + cx * x + cy * y + cxy * x * y)%Qc.
Proof.
  intros. destruct bc; [rewrite <- unchecked_agrees by auto|]; unfold bilinear_point; apply bilinear_exact_gen; auto.
Qed.
Lemma point_grid (bc : bool) a i j : 0 <= i < nrow a - 1 -> 0 <= j < ncol a - 1 ->
  bilinear_point bc a (qz i) (qz j) = Ok (at2 a i j).
Proof.
  intros. destruct bc; [rewrite <- unchecked_agrees by (apply qz_lt; lia)|]; unfold bilinear_point; apply grid_exact; auto.
Qed.
Lemma last_row_wrong a i j : 2 <= nrow a -> i = nrow a - 1 -> 0 <= j < ncol a - 1 -> at2 a i j <> at2 a (i - 1)%Z j ->
  bilinear_point true a (qz i) (qz j) <> Ok (at2 a i j).
Proof.
  intros Hr Hi Hj Hne E. rewrite last_row in E by auto. injection E as E. apply Hne. pose proof eps_pos.
  assert (Z0 : (interp_eps * (at2 a i j - at2 a (i - 1)%Z j) = 0)%Qc) by qclra.
  apply Qcmult_integral in Z0. destruct Z0 as [Z0|Z0]; [rewrite Z0 in H; exfalso; exact (Qclt_not_eq _ _ H eq_refl)|]. qclra.
Qed.
Lemma zoom_same_lit a G i j : 2 <= nrow a -> 2 <= ncol a -> slope_le a G -> 0 <= i < nrow a -> 0 <= j < ncol a ->
  exists v, at2 (zoom a (nrow a) (ncol a)) i j = Ok v /\ (qc_abs (v - at2 a i j) <= qfrac 2 100000000 * G)%Qc.
Proof.
  intros. replace (qfrac 2 100000000) with ((1 + 1) * zoom_delta)%Qc by (apply Qc_is_canon; reflexivity). apply zoom_same; auto.
Qed.
Lemma spline_square (spl : arr Qc -> Qc -> Qc -> Qc) (a : arr Qc) (n m : Z) :
  interpolates spl -> nrow a = n -> ncol a = n -> 1 <= n -> 2 <= m ->
  (exists z, interp_zoom spl false a (ZScalar n) = Some z /\ arr_eq z a) /\
  (exists z, interp_zoom spl false a (ZScalar m) = Some z /\ nrow z = m /\ ncol z = m /\
     at2 z 0 0 = at2 a 0 0 /\ at2 z (m - 1) 0 = at2 a (n - 1) 0 /\
     at2 z 0 (m - 1) = at2 a 0 (n - 1) /\ at2 z (m - 1) (m - 1) = at2 a (n - 1) (n - 1)).
Proof.
  intros I Hr Hc Hn Hm. split; eexists; (split; [reflexivity|]).
  - apply spl_zoom_own; auto.
  - apply (spl_zoom_corners spl a n m); auto.
Qed.
Lemma zoom_bad :
  (exists (a : arr Qc) (v : Qc), nrow a = 2 /\ ncol a = 2 /\ at2 (zoom a 2 2) 1 0 = Ok v /\ v <> at2 a 1 0) /\
  (forall spl (a : arr Qc) z, nrow a <> ncol a -> interp_zoom spl false a (ZPair (nrow a) (ncol a)) = Some z -> ~ arr_eq z a) /\
  (forall spl (a : arr Qc) sz, interp_zoom spl true a sz = None) /\
  (forall spl (a : arr Qc) n, interp_zoom_rbs spl a (ZScalar n) = Err TypeError).
Proof.
  split; [|split; [|split]].
  - exists (mkArr 2 2 (fun i j => qz i)), (qfrac 100000000 100000001).
    split; [reflexivity|]. split; [reflexivity|]. split; [qc_compute; repeat constructor | discriminate].
  - intros spl a z Hne E. cbn in E. injection E as <-. intros (Hr & _). cbn in Hr. congruence.
  - intros spl a [|]; reflexivity.
  - reflexivity.
Qed.
Lemma flux_arr_eq (a b : arr Qc) : arr_eq a b -> flux a = flux b.
Proof.
  intros (Hr & Hc & H). unfold flux. rewrite <- Hr, <- Hc. apply zsum_ext; intros i Hi. apply zsum_ext; intros j Hj. auto.
Qed.
Lemma binImgs_all (a : arr Qc) (n : Z) : 0 < n ->
  (forall nr nc, 0 <= nr -> 0 <= nc -> nrow a = nr * n -> ncol a = nc * n ->
     exists r, binImgs a n = Ok r /\ arr_eq r (bin_img a n nr nc) /\ flux r = flux a) /\
  (n <= ncol a -> ncol a mod n <> 0 -> binImgs a n = Err ValueError).
Proof.
  intros Hn. split; [|apply binImgs_cols_bad; auto]. intros nr nc Hr Hc Er Ec.
  destruct (binImgs_ok a n nr nc) as (r & E & Q); auto. exists r. split; auto. split; auto.
  rewrite (flux_arr_eq _ _ Q). apply bin_flux; auto. lia.
Qed.
Lemma mp_terminates {A B} (F : A -> B) (data : Z -> A) (n p : Z) : 1 <= p ->
  forall (m : nat) (out : Z -> option B) (t : mp),
    mp_run F data n p m (mp_init out) t ->
    (m <= 2 * Z.to_nat p)%nat /\ (mp_pc t < p -> exists u, mp_step F data n p t u).
Proof. intros Hp m out t R. split; [eapply mp_run_bound | eapply mp_progress]; eauto. Qed.
Lemma quad_centre n : (Z.even n = true /\ 2 <= n \/ n mod 4 = 1 /\ 5 <= n) ->
  quad_ix n (n / 2 - 1) = 0 /\ quad_ix n (n / 2) = n - 1.
Proof. intros [[]|[]]; [apply quad_ix_zero_even | destruct (quad_ix_zero_1mod4 n)]; auto. Qed.
Lemma ftShift2d_bad :
  (forall (A : Type) (a : arr A) r, ftShift2d false a = Ok r ->
     (Z.even (nrow a) = true /\ 2 <= nrow a \/ nrow a mod 4 = 1 /\ 5 <= nrow a) ->
     (Z.even (ncol a) = true /\ 2 <= ncol a \/ ncol a mod 4 = 1 /\ 5 <= ncol a) ->
     at2 r (nrow a / 2 - 1) (ncol a / 2 - 1) = at2 a 0 0 /\
     at2 r (nrow a / 2) (ncol a / 2) = at2 a (nrow a - 1) (ncol a - 1) /\
     at2 (fftshift a) (nrow a / 2) (ncol a / 2) = at2 a 0 0) /\
  (forall (A : Type) (a : arr A), 1 < nrow a * ncol a -> ftShift2d true a = Err ValueError).
Proof.
  split.
  - intros A a r E Hr Hc. unfold ftShift2d in E. cbn [andb] in E. injection E as <-. cbn [at2].
    destruct (quad_centre _ Hr) as [-> ->]. destruct (quad_centre _ Hc) as [-> ->].
    split; auto. split; auto. unfold fftshift. cbn [at2]. rewrite !Z.sub_diag, !Z.mod_0_l by lia. reflexivity.
  - intros A a H. unfold ftShift2d. rewrite (proj2 (Z.ltb_lt _ _) H). reflexivity.
Qed.

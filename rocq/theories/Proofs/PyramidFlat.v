(** With fewer modulation points than planes, what is left in memory moves the slopes of a flat wavefront. *)
From Coq Require Import ZArith Reals List Bool Lra Lia.
From Coquelicot Require Import Complex.
From Verif.Base Require Import Py PyFacts CSum CSumFacts.
From Verif.Model Require Import Numerics Pyramid.
From Verif.Spec Require Import PyramidSpec.
From Verif.Proofs Require Import NumericsProofs ShProofs PyramidProofs PyramidSymmetry.
From Verif.Proofs Require Import PyramidInversion.
Import ListNotations.
Open Scope R_scope.

Definition at_pixel (I J i j : Z) : R := if (i =? I)%Z && (j =? J)%Z then 1 else 0.
Lemma rsumn_pos n f k : (forall i, (0 <= i < Z.of_nat n)%Z -> 0 <= f i) -> (0 <= k < Z.of_nat n)%Z -> 0 < f k -> 0 < rsumn n f.
Proof.
  induction n as [|n IH]; intros H Hk P; [lia|]. cbn.
  assert (0 <= rsumn n f) by (apply rsumn_nonneg; intros; apply H; lia). assert (0 <= f (Z.of_nat n)) by (apply H; lia).
  destruct (Z.eq_dec k (Z.of_nat n)) as [->|]; [lra|]. assert (0 < rsumn n f) by (apply IH; [intros; apply H; lia|lia|exact P]). lra.
Qed.
Lemma rsum_pos n f k : (forall i, (0 <= i < n)%Z -> 0 <= f i) -> (0 <= k < n)%Z -> 0 < f k -> 0 < rsum n f.
Proof. intros H Hk P. unfold rsum. apply (rsumn_pos _ _ k); [intros; apply H; lia|lia|exact P]. Qed.
(** One plane's worth of light at one pixel of the detector. *)
Lemma intensity_parts c phase : (1 <= y_nmod c < 32)%Z -> exists (A : Z -> Z -> R) (M : R), 0 < M /\ (forall i j, 0 <= A i j) /\
  forall (t : Z -> Z -> C) i j, (0 <= i < y_N c)%Z -> (0 <= j < y_N c)%Z ->
    pyr_intensity c (pyr_write c (fun _ => preimage c t) phase) i j = A i j + M * cnorm2 (t i j).
Proof.
  intro Hm. set (S := pyr_slots c). assert (HS : (S = 32)%Z) by (unfold S, pyr_slots; lia).
  exists (fun i j => rsum S (fun k => if (shifted S k <? y_nmod c)%Z then cnorm2 (pyr_filter c (fun k => pyr_field c phase k) k i j) else 0)),
         (rsum S (fun k => if (shifted S k <? y_nmod c)%Z then 0 else 1)).
  split; [|split].
  - apply (rsum_pos _ _ 15).
    + intros k _. destruct (_ <? _)%Z; lra.
    + lia.
    + unfold shifted. rewrite HS. change ((15 + (32 - 32 / 2)) mod 32)%Z with 31%Z. destruct (Z.ltb_spec 31 (y_nmod c)); [lia|lra].
  - intros i j. apply rsum_nonneg. intros k _. destruct (_ <? _)%Z; [apply cnorm2_nonneg|lra].
  - intros t i j Hi Hj. unfold pyr_intensity. fold S. rewrite (Rmult_comm (rsum S _)), <- rsum_scale, <- rsum_add. apply rsum_ext. intros k Hk.
    destruct (Z.ltb_spec (shifted S k) (y_nmod c)) as [L|L].
    + rewrite Rmult_0_r, Rplus_0_r. f_equal. unfold pyr_filter, pyr_write. fold S. destruct (Z.ltb_spec (shifted S k) (y_nmod c)); [reflexivity|lia].
    + rewrite Rmult_1_r, Rplus_0_l. f_equal. apply filter_preimage; auto. unfold pyr_write. fold S. destruct (Z.ltb_spec (shifted S k) (y_nmod c)); [lia|reflexivity].
Qed.
Lemma rsum_pick n f : (1 <= n)%Z -> (forall i, (1 <= i < n)%Z -> f i = 0) -> rsum n f = f 0%Z.
Proof.
  intros Hn H. replace n with (1 + (n - 1))%Z by lia. rewrite rsum_split by lia. rewrite (rsum_ext (n - 1) _ (fun _ => 0)) by (intros i Hi; apply H; lia).
  rewrite rsum_const by lia. rewrite Rmult_0_r, Rplus_0_r. unfold rsum. change (Z.to_nat 1) with 1%nat. cbn. ring.
Qed.
Lemma detector_parts c ns phase : pyr_build (y_N c) (y_P c) (y_n c) (y_sep c) = Ok ns -> (0 < y_N c)%Z -> (0 < y_n c)%Z -> (0 < y_P c)%Z -> (1 <= y_nmod c < 32)%Z ->
  exists (D : Z -> Z -> R) (K : R), 0 < K /\ (forall i j, 0 <= D i j) /\
    forall I J, (0 <= I < ns)%Z -> (0 <= J < ns)%Z -> exists mem, forall i j, (0 <= i < ns)%Z -> (0 <= j < ns)%Z ->
      pyr_detector c false (pyr_write c mem phase) i j = D i j + K * at_pixel I J i j.
Proof.
  intros HB HN Hn HP Hm. destruct (built_facts c ns HB HN Hn HP) as (E & _ & HD & Hp & N2 & Hb & B1). fold (pyr_bin (y_P c) (y_n c)) in B1.
  destruct (intensity_parts c phase Hm) as (A & M & PM & PA & HA). assert (Rm : 0 < IZR (y_nmod c)) by (apply IZR_lt; lia).
  assert (CN : forall I J i j, cnorm2 (RtoC (at_pixel I J i j)) = at_pixel I J i j) by (intros; unfold cnorm2, RtoC, at_pixel; destruct (_ && _); cbn; ring).
  destruct (Z.eqb_spec (pyr_bin (y_P c) (y_n c)) 1) as [E1|E1].
  - specialize (B1 E1). exists (fun i j => A i j / IZR (y_nmod c)), (M / IZR (y_nmod c)). split; [apply Rdiv_lt_0_compat; auto|]. split.
    { intros i j. apply Rmult_le_pos; [apply PA|left; apply Rinv_0_lt_compat; auto]. }
    intros I J HI HJ. exists (fun _ => preimage c (fun i j => RtoC (at_pixel I J i j))). intros i j Hi Hj. unfold pyr_detector. rewrite E1. change (1 =? 1)%Z with true. cbv iota zeta.
    rewrite HA by lia. rewrite CN. field. lra.
  - set (b := (y_N c / ns)%Z) in *. assert (Rb : 0 < IZR b) by (apply IZR_lt; lia).
    assert (RB : forall f i j, rebin (y_N c) ns f i j = / (IZR b * IZR b) * rsum b (fun p => rsum b (fun q => f (i * b + p)%Z (j * b + q)%Z))).
    { intros f i j. unfold rebin. fold b. unfold Rdiv at 1. rewrite Rmult_comm.
      rewrite (rsum_ext b _ (fun p => / IZR b * rsum b (fun q => f (i * b + p)%Z (j * b + q)%Z))) by (intros; unfold Rdiv; ring).
      rewrite rsum_scale. field. lra. }
    exists (fun i j => rebin (y_N c) ns A i j / IZR (y_nmod c)), (M / (IZR b * IZR b) / IZR (y_nmod c)). split; [apply Rdiv_lt_0_compat; auto; apply Rdiv_lt_0_compat; nra|]. split.
    { intros i j. apply Rmult_le_pos; [|left; apply Rinv_0_lt_compat; auto]. rewrite RB. apply Rmult_le_pos; [left; apply Rinv_0_lt_compat; nra|].
      apply rsum_nonneg. intros p _. apply rsum_nonneg. intros q _. apply PA. }
    intros I J HI HJ. exists (fun _ => preimage c (fun i j => RtoC (at_pixel (I * b) (J * b) i j))). intros i j Hi Hj. unfold pyr_detector.
    destruct (Z.eqb_spec (pyr_bin (y_P c) (y_n c)) 1); [contradiction|]. cbv iota zeta. rewrite <- E. rewrite !RB.
    rewrite (rsum_ext b (fun p => rsum b (fun q => pyr_intensity c _ _ _)) (fun p => rsum b (fun q => A (i * b + p)%Z (j * b + q)%Z) + M * rsum b (fun q => at_pixel (I * b) (J * b) (i * b + p) (j * b + q)))).
    2:{ intros p Hp'. rewrite <- rsum_scale, <- rsum_add. apply rsum_ext. intros q Hq. rewrite HA by nia. rewrite CN. reflexivity. }
    rewrite rsum_add, rsum_scale.
    assert (PX : rsum b (fun p => rsum b (fun q => at_pixel (I * b) (J * b) (i * b + p) (j * b + q))) = at_pixel I J i j).
    { unfold at_pixel. rewrite rsum_pick.
      - rewrite rsum_pick.
        + rewrite !Z.add_0_r. destruct (Z.eqb_spec i I), (Z.eqb_spec (i * b) (I * b)), (Z.eqb_spec j J), (Z.eqb_spec (j * b) (J * b)); cbn; try reflexivity; exfalso; nia.
        + lia.
        + intros q Hq. destruct (Z.eqb_spec (j * b + q) (J * b)); [|rewrite andb_false_r; reflexivity]. exfalso. assert (j < J \/ j >= J)%Z as [|] by lia; nia.
      - lia.
      - intros p Hp'. rewrite (rsum_ext b _ (fun _ => 0)); [rewrite rsum_const by lia; ring|]. intros q Hq.
        destruct (Z.eqb_spec (i * b + p) (I * b)); [|reflexivity]. exfalso. assert (i < I \/ i >= I)%Z as [|] by lia; nia. }
    rewrite PX. field. split; lra.
Qed.
(** The lit pixels of a quadrant. *)
Definition lit (c : pyr) (a b : bool) : list (Z * Z) :=
  let h := (pyr_ndet (y_N c) (y_P c) (y_n c) / 2)%Z in filter (fun rc => quad_mask h (y_n c) (y_sep c) (y_sub c) a b (fst rc) (snd rc)) (raster h).
Definition corner (c : pyr) (a : bool) : Z := if a then (pyr_ndet (y_N c) (y_P c) (y_n c) / 2)%Z else 0%Z.
Lemma lit_In c a b r s : In (r, s) (lit c a b) -> (0 <= r < pyr_ndet (y_N c) (y_P c) (y_n c) / 2)%Z /\ (0 <= s < pyr_ndet (y_N c) (y_P c) (y_n c) / 2)%Z.
Proof. unfold lit. cbv zeta. intro H. apply filter_In in H as [H _]. apply raster_In in H. exact H. Qed.
Lemma lit_NoDup c a b : NoDup (lit c a b).
Proof. apply NoDup_filter. apply list_prod_NoDup; apply zseq_NoDup. Qed.
Lemma quad_spot c D K det a0 b0 r s l : 0 < K -> (forall i j, 0 <= D i j) -> lit c a0 b0 = (r, s) :: l ->
  (forall i j, (0 <= i < pyr_ndet (y_N c) (y_P c) (y_n c))%Z -> (0 <= j < pyr_ndet (y_N c) (y_P c) (y_n c))%Z -> det i j = D i j + K * at_pixel (corner c a0 + r) (corner c b0 + s) i j) ->
  forall a b, quad_flux c det a b =
    if eqb a a0 && eqb b b0 then match quad_flux c D a b with x :: q => (x + K) :: q | [] => [] end else quad_flux c D a b.
Proof.
  intros PK PD E H a b. set (ns := pyr_ndet (y_N c) (y_P c) (y_n c)) in *.
  assert (HH : (2 * (ns / 2) <= ns)%Z) by (apply Z.mul_div_le; lia).
  assert (IN : forall a b r s, In (r, s) (lit c a b) -> (0 <= corner c a + r < ns)%Z /\ (0 <= corner c b + s < ns)%Z).
  { intros a' b' r' s' I. apply lit_In in I. fold ns in I. unfold corner. fold ns. destruct a', b'; lia. }
  assert (Q : forall d, quad_flux c d a b = map (fun rc => Rabs (d (corner c a + fst rc)%Z (corner c b + snd rc)%Z)) (lit c a b)) by reflexivity.
  assert (I0 : In (r, s) (lit c a0 b0)) by (rewrite E; left; reflexivity).
  assert (P0 : forall r' s', In (r', s') (lit c a b) -> ~ (a = a0 /\ b = b0 /\ r' = r /\ s' = s) ->
     Rabs (det (corner c a + r')%Z (corner c b + s')%Z) = Rabs (D (corner c a + r')%Z (corner c b + s')%Z)).
  { intros r' s' I NE. destruct (IN _ _ _ _ I). rewrite H by auto. replace (at_pixel _ _ _ _) with 0; [rewrite Rmult_0_r, Rplus_0_r; reflexivity|].
    unfold at_pixel. pose proof (lit_In _ _ _ _ _ I) as L1. pose proof (lit_In _ _ _ _ _ I0) as L2. fold ns in L1, L2. unfold corner. fold ns.
    destruct (Z.eqb_spec ((if a then (ns / 2)%Z else 0%Z) + r') ((if a0 then (ns / 2)%Z else 0%Z) + r)), (Z.eqb_spec ((if b then (ns / 2)%Z else 0%Z) + s') ((if b0 then (ns / 2)%Z else 0%Z) + s)); try reflexivity.
    exfalso. apply NE. destruct a, a0, b, b0; repeat split; try lia. }
  rewrite !Q. destruct (eqb a a0 && eqb b b0) eqn:EB.
  - apply andb_true_iff in EB as [EA EB]. apply eqb_prop in EA. apply eqb_prop in EB. subst a0 b0. rewrite E. cbn [map fst snd]. f_equal.
    + destruct (IN _ _ _ _ I0). rewrite H by auto. unfold at_pixel. rewrite !Z.eqb_refl. cbn. pose proof (PD (corner c a + r)%Z (corner c b + s)%Z).
      rewrite !Rabs_pos_eq by lra. ring.
    + apply map_ext_in. intros [r' s'] I. cbn. apply P0; [rewrite E; right; exact I|]. intros (_ & _ & -> & ->).
      pose proof (lit_NoDup c a b) as ND. rewrite E in ND. inversion ND; contradiction.
  - apply map_ext_in. intros [r' s'] I. cbn. apply P0; [exact I|]. intros (-> & -> & _). rewrite !eqb_reflx in EB. discriminate.
Qed.
Lemma lit_length c a b : (length (lit c a b) * 2 = slope_size c)%nat.
Proof. unfold slope_size, lit. cbv zeta. rewrite quad_count. reflexivity. Qed.
Lemma spots c ns phase : pyr_build (y_N c) (y_P c) (y_n c) (y_sep c) = Ok ns -> (0 < y_N c)%Z -> (0 < y_n c)%Z -> (0 < y_P c)%Z -> (1 <= y_nmod c < 32)%Z ->
  (0 < slope_size c)%nat ->
  exists v K T, 0 < K /\ 0 <= T /\ forall b0 : bool, exists mem t,
    raw_slopes c (pyr_detector c false (pyr_write c mem phase)) = Some (((v + (if b0 then - K else K)) / (T + K)) :: t).
Proof.
  intros HB HN Hn HP Hm HS. destruct (detector_parts c ns phase HB HN Hn HP Hm) as (D & K & PK & PD & HD).
  destruct (built_facts c ns HB HN Hn HP) as (E & _). subst ns. set (ns := pyr_ndet (y_N c) (y_P c) (y_n c)) in *.
  assert (HH : (2 * (ns / 2) <= ns)%Z) by (apply Z.mul_div_le; lia).
  assert (LIT : forall a b, exists r s l, lit c a b = (r, s) :: l).
  { intros a b. pose proof (lit_length c a b). destruct (lit c a b) as [|[r s] l]; [cbn in *; lia|eauto]. }
  assert (QF : forall a b, exists x q, quad_flux c D a b = x :: q).
  { intros a b. destruct (LIT a b) as (r & s & l & E). change (quad_flux c D a b) with (map (fun rc => Rabs (D (corner c a + fst rc)%Z (corner c b + snd rc)%Z)) (lit c a b)). rewrite E. cbn. eauto. }
  destruct (QF false false) as (x1 & q1 & Q1). destruct (QF false true) as (x2 & q2 & Q2). destruct (QF true false) as (x3 & q3 & Q3). destruct (QF true true) as (x4 & q4 & Q4).
  set (T := rlsum (x1 :: q1) + rlsum (x2 :: q2) + rlsum (x3 :: q3) + rlsum (x4 :: q4)).
  assert (PT : 0 <= T) by (unfold T; rewrite <- Q1, <- Q2, <- Q3, <- Q4; pose proof (rlsum_nonneg _ (quad_nonneg c D false false)); pose proof (rlsum_nonneg _ (quad_nonneg c D false true));
    pose proof (rlsum_nonneg _ (quad_nonneg c D true false)); pose proof (rlsum_nonneg _ (quad_nonneg c D true true)); lra).
  exists (x1 + x3 - (x2 + x4)), K, T. split; [exact PK|]. split; [exact PT|].
  intro b0. destruct (LIT false b0) as (r & s & l & EL). assert (I0 : In (r, s) (lit c false b0)) by (rewrite EL; left; reflexivity). pose proof (lit_In _ _ _ _ _ I0) as L. fold ns in L.
    destruct (HD (corner c false + r)%Z (corner c b0 + s)%Z) as [mem HM]; [unfold corner; lia|unfold corner; fold ns; destruct b0; lia|]. exists mem.
    unfold raw_slopes. rewrite !(quad_spot c D K _ false b0 r s l PK PD EL HM). rewrite Q1, Q2, Q3, Q4.
    destruct b0; cbn [eqb andb].
    - replace (rlsum (x1 :: q1) + rlsum (x2 + K :: q2) + rlsum (x3 :: q3) + rlsum (x4 :: q4)) with (T + K) by (unfold T; cbn; ring).
      destruct (Req_EM_T (T + K) 0); [lra|]. cbn [zip4 app]. eexists. do 2 f_equal. f_equal. ring.
    - replace (rlsum (x1 + K :: q1) + rlsum (x2 :: q2) + rlsum (x3 :: q3) + rlsum (x4 :: q4)) with (T + K) by (unfold T; cbn; ring).
      destruct (Req_EM_T (T + K) 0); [lra|]. cbn [zip4 app]. eexists. do 2 f_equal. f_equal. ring.
Qed.
Lemma flat_exists c ns : pyr_build (y_N c) (y_P c) (y_n c) (y_sep c) = Ok ns -> (0 < y_N c)%Z -> (0 < y_n c)%Z -> (0 < y_P c)%Z -> (1 <= y_nmod c < 32)%Z ->
  (0 < slope_size c)%nat -> exists m0 flat, flat_slopes c m0 = Some flat.
Proof.
  intros HB HN Hn HP Hm HS. destruct (spots c ns (y_mask c) HB HN Hn HP Hm HS) as (v & K & T & _ & _ & H). destruct (H true) as (mem & t & E). exists mem. eexists. unfold flat_slopes.
  rewrite <- E. rewrite <- (raw_scale c (pyr_detector c false _) (IZR (y_nmod c))) by (apply IZR_lt; lia). apply raw_ext. intros i j. unfold pyr_detector. cbv iota zeta. field. apply IZR_neq. lia.
Qed.
Lemma flat_moves c ns m0 flat phase : pyr_build (y_N c) (y_P c) (y_n c) (y_sep c) = Ok ns -> (0 < y_N c)%Z -> (0 < y_n c)%Z -> (0 < y_P c)%Z -> (1 <= y_nmod c < 32)%Z ->
  (0 < slope_size c)%nat -> flat_slopes c m0 = Some flat ->
  exists mem, forall destroy, exists s, fst (pyr_frame c flat destroy mem phase) = Some s /\ length s = slope_size c /\ Exists (fun x => x <> 0) s.
Proof.
  intros HB HN Hn HP Hm HS HF. destruct (spots c ns phase HB HN Hn HP Hm HS) as (v & K & T & PK & PT & MEM).
  assert (FL : length flat = slope_size c) by (eapply raw_length; exact HF). destruct flat as [|f0 flat]; [cbn in FL; lia|].
  assert (ONE : exists b0 : bool, (v + (if b0 then - K else K)) / (T + K) <> f0).
  { destruct (Req_EM_T ((v + K) / (T + K)) f0) as [E1|]; [|exists false; assumption]. exists true. intro E2. rewrite <- E1 in E2.
    assert (X : v + - K = v + K) by (apply (Rmult_eq_reg_r (/ (T + K))); [exact E2|apply Rinv_neq_0_compat; lra]). lra. }
  destruct ONE as [b0 NE]. destruct (MEM b0) as (mem & t & HM). exists mem. intro destroy. unfold pyr_frame, pyr_slopes. cbn [fst]. pose proof (raw_length _ _ _ HM) as LS. rewrite HM. eexists. split; [reflexivity|]. split.
  - rewrite map_length, combine_length, FL, LS. apply Nat.min_id.
  - cbn [combine map fst snd]. apply Exists_cons_hd. lra.
Qed.

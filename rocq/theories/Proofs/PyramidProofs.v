From Coq Require Import ZArith Reals List Bool Lra Lia Permutation.
From Coquelicot Require Import Complex.
From Verif.Base Require Import Py PyFacts CSum CSumFacts.
From Verif.Model Require Import Numerics Pyramid.
From Verif.Spec Require Import PyramidSpec.
From Verif.Proofs Require Import NumericsProofs ShProofs.
Import ListNotations.
Open Scope R_scope.

(** ** Geometry *)
Lemma quot2_nonneg x : (0 <= x)%Z -> Z.quot x 2 = (x / 2)%Z.
Proof. intros. apply Z.quot_div_nonneg; lia. Qed.
Lemma quot2_neg x : (x < 0)%Z -> Z.quot x 2 = (- ((- x) / 2))%Z.
Proof. intros. replace x with (- (- x))%Z at 1 by lia. rewrite Z.quot_opp_l by lia. rewrite quot2_nonneg by lia. reflexivity. Qed.
Lemma place_iff h n sep : (2 <= n)%Z -> (0 <= h)%Z -> (0 <= sep <= 2 * h + 1)%Z ->
  pyr_place h n sep = if (2 * n + sep <=? 2 * h + 1)%Z then Ok tt else Err ValueError.
Proof.
  intros Hn Hh Hsep. unfold pyr_place, pyr_begin, pyr_end, trunc_div.
  rewrite (quot2_nonneg (2 * h - sep + 1)) by lia. set (e := ((2 * h - sep + 1) / 2)%Z).
  assert (He : (2 * e <= 2 * h - sep + 1 < 2 * e + 2)%Z) by (unfold e; pose proof (Z.div_mod (2 * h - sep + 1) 2 ltac:(lia)); pose proof (Z.mod_pos_bound (2 * h - sep + 1) 2 ltac:(lia)); lia).
  destruct (Z.leb_spec (2 * n + sep) (2 * h + 1)) as [H|H].
  - rewrite quot2_nonneg by lia. replace ((2 * h - (2 * n + sep) + 1) / 2)%Z with (e - n)%Z.
    + rewrite slice_len_in by lia. replace (e - (e - n))%Z with n by lia. unfold bc_ok. rewrite Z.eqb_refl. reflexivity.
    + apply (Z.div_unique_pos _ 2 _ ((2 * h - sep + 1) mod 2)%Z); [apply Z.mod_pos_bound; lia|]. pose proof (Z.div_mod (2 * h - sep + 1) 2 ltac:(lia)). unfold e. lia.
  - rewrite quot2_neg by lia. set (k := ((- (2 * h - (2 * n + sep) + 1)) / 2)%Z).
    assert (Hk : (2 * k <= 2 * n + sep - 2 * h - 1 < 2 * k + 2)%Z) by (unfold k; pose proof (Z.div_mod (- (2 * h - (2 * n + sep) + 1)) 2 ltac:(lia)); pose proof (Z.mod_pos_bound (- (2 * h - (2 * n + sep) + 1)) 2 ltac:(lia)); lia).
    assert (L : (slice_len h (- k) e < n)%Z).
    { unfold slice_len. rewrite (norm_ix_in h e) by lia. destruct (Z.eq_dec k 0) as [->|Hk0].
      - change (- 0)%Z with 0%Z. rewrite norm_ix_in by lia. lia.
      - unfold norm_ix. destruct (Z.ltb_spec (- k) 0); [|lia]. lia. }
    unfold bc_ok. destruct (Z.eqb_spec n (slice_len h (- k) e)); [lia|]. destruct (Z.eqb_spec n 1); [lia|]. reflexivity.
Qed.
Lemma build_iff N P n sep ns : (2 <= n <= P)%Z -> (0 < N)%Z -> (0 <= sep <= pyr_ndet N P n)%Z ->
  pyr_build N P n sep = Ok ns <->
  ns = pyr_ndet N P n /\ (N mod 2 = 0)%Z /\ (ns mod 2 = 0)%Z /\ (P / n = 1 \/ (0 < ns /\ N mod ns = 0))%Z /\ (2 * n + sep <= ns + 1)%Z.
Proof.
  intros Hn HN Hsep. unfold pyr_build. destruct (Z.eqb_spec n 0); [lia|].
  assert (Hb : (1 <= pyr_bin P n)%Z) by (unfold pyr_bin; apply Z.div_le_lower_bound; lia).
  destruct (Z.eqb_spec (pyr_bin P n) 0); [lia|]. set (m := pyr_ndet N P n) in *. cbv zeta.
  assert (Hm : (0 <= m)%Z) by (unfold m, pyr_ndet; apply Z.div_pos; lia).
  pose proof (Z.div_mod m 2 ltac:(lia)) as Em. pose proof (Z.mod_pos_bound m 2 ltac:(lia)) as Bm.
  pose proof (Z.div_mod N 2 ltac:(lia)) as EN. pose proof (Z.mod_pos_bound N 2 ltac:(lia)) as BN.
  rewrite place_iff by lia. unfold bc_ok, pyr_rebin_ok. fold (pyr_bin P n).
  destruct (Z.leb_spec (2 * n + sep) (2 * (m / 2) + 1)) as [Hf|Hf]; cbn [bind].
  2:{ split; [discriminate|]. intros (-> & _ & H2 & _ & H). lia. }
  destruct (Z.eqb_spec (2 * (N / 2)) N) as [H1|H1]; cbn [orb negb].
  2:{ destruct (Z.eqb_spec (2 * (N / 2)) 1); [lia|]. split; [discriminate|]. intros (_ & H & _). lia. }
  assert (M0 : (m <> 0)%Z) by lia.
  destruct (Z.eqb_spec (pyr_bin P n) 1) as [B1|B1].
  - cbn [bind]. destruct (Z.eqb_spec (m mod 2) 0) as [E2|E2]; cbn [negb]; split.
    + intros E. injection E as <-. repeat split; auto; lia.
    + intros (-> & _). reflexivity.
    + discriminate.
    + intros (-> & _ & H & _). lia.
  - destruct (Z.eqb_spec m 0); [lia|]. pose proof (Z.div_mod N m ltac:(lia)) as EM.
    destruct (Z.eqb_spec (m * (N / m)) N) as [D|D]; cbn [bind].
    + destruct (Z.eqb_spec (m mod 2) 0) as [E2|E2]; cbn [negb]; split.
      * intros E. injection E as <-. repeat split; auto; try lia.
      * intros (-> & _). reflexivity.
      * discriminate.
      * intros (-> & _ & H & _). lia.
    + split; [discriminate|]. intros (-> & _ & _ & [H|[_ H]] & _); [contradiction|]. lia.
Qed.
Lemma build_err N P n sep : (2 <= n <= P)%Z -> (0 < N)%Z -> (0 <= sep <= pyr_ndet N P n)%Z ->
  (exists ns, pyr_build N P n sep = Ok ns) \/ pyr_build N P n sep = Err ValueError.
Proof.
  intros Hn HN Hsep. unfold pyr_build. destruct (Z.eqb_spec n 0); [lia|].
  assert (Hb : (1 <= pyr_bin P n)%Z) by (unfold pyr_bin; apply Z.div_le_lower_bound; lia).
  destruct (Z.eqb_spec (pyr_bin P n) 0); [lia|]. cbv zeta. set (m := pyr_ndet N P n) in *.
  assert (Hm : (0 <= m)%Z) by (unfold m, pyr_ndet; apply Z.div_pos; lia).
  pose proof (Z.div_mod m 2 ltac:(lia)) as Em. pose proof (Z.mod_pos_bound m 2 ltac:(lia)) as Bm.
  rewrite place_iff by lia. destruct (Z.leb_spec (2 * n + sep) (2 * (m / 2) + 1)) as [Hf|Hf]; cbn [bind]; [|auto].
  destruct (negb (bc_ok N _)); [auto|]. unfold pyr_rebin_ok. destruct (_ =? 1)%Z; cbn [bind].
  - destruct (negb _); eauto.
  - destruct (Z.eqb_spec m 0); [lia|]. destruct (_ =? N)%Z; cbn [bind]; [|auto]. destruct (negb _); eauto.
Qed.
Lemma built_facts c ns : pyr_build (y_N c) (y_P c) (y_n c) (y_sep c) = Ok ns -> (0 < y_N c)%Z -> (0 < y_n c)%Z -> (0 < y_P c)%Z ->
  ns = pyr_ndet (y_N c) (y_P c) (y_n c) /\ (0 <= ns)%Z /\ (ns * (y_N c / ns) = y_N c)%Z /\ (0 < ns)%Z /\ (2 <= y_N c)%Z /\ (1 <= y_N c / ns)%Z /\
  ((y_P c / y_n c = 1)%Z -> ns = y_N c).
Proof.
  unfold pyr_build. intros H HN Hn HP. destruct (Z.eqb_spec (y_n c) 0); [discriminate|]. destruct (Z.eqb_spec (pyr_bin (y_P c) (y_n c)) 0) as [|Hb]; [discriminate|].
  cbv zeta in H. set (m := pyr_ndet (y_N c) (y_P c) (y_n c)) in *. set (N := y_N c) in *.
  assert (Hb' : (0 < pyr_bin (y_P c) (y_n c))%Z) by (assert (0 <= pyr_bin (y_P c) (y_n c))%Z by (unfold pyr_bin; apply Z.div_pos; lia); lia).
  assert (Hm : (0 <= m)%Z) by (unfold m, pyr_ndet; apply Z.div_pos; lia).
  destruct (pyr_place _ _ _) as [[]|]; cbn [bind] in H; [|discriminate].
  destruct (bc_ok N (2 * (N / 2))) eqn:B; cbn [negb] in H; [|discriminate].
  assert (N2 : (2 <= N)%Z).
  { unfold bc_ok in B. pose proof (Z.div_mod N 2 ltac:(lia)). pose proof (Z.mod_pos_bound N 2 ltac:(lia)).
    apply orb_true_iff in B as [B|B]; apply Z.eqb_eq in B; lia. }
  unfold pyr_rebin_ok in H. destruct (Z.eqb_spec (pyr_bin (y_P c) (y_n c)) 1) as [B1|B1]; cbn [bind] in H.
  - assert (m = N) by (unfold m, pyr_ndet; rewrite B1; apply Z.div_1_r).
    destruct (negb _); [discriminate|]. injection H as <-. rewrite H0 in *. rewrite Z.div_same by lia. repeat split; lia.
  - destruct (Z.eqb_spec m 0); [discriminate|]. destruct (Z.eqb_spec (m * (N / m)) N); cbn [bind] in H; [|discriminate].
    destruct (negb _); [discriminate|]. injection H as <-. assert (1 <= N / m)%Z by (generalize dependent (N / m)%Z; intros; nia). repeat split; auto; try lia. intros X. contradiction (B1 X).
Qed.

(** ** Light *)
Lemma light_scale n a f : light n (fun i j => a * f i j) = a * light n f.
Proof. unfold light. rewrite <- rsum_scale. apply rsum_ext. intros. apply rsum_scale. Qed.
Lemma light_ext n f g : same_image n f g -> light n f = light n g.
Proof. intros H. apply rsum_ext. intros i Hi. apply rsum_ext. intros j Hj. apply H; auto. Qed.
Lemma light_cyclic n f : (2 <= n)%Z -> light n (fun i j => f (shifted n i) (shifted n j)) = light n f.
Proof.
  intros Hn. unfold light, shifted. set (s := (n - n / 2)%Z).
  assert (Hs : (0 <= s < n)%Z) by (unfold s; pose proof (Z.div_mod n 2 ltac:(lia)); pose proof (Z.mod_pos_bound n 2 ltac:(lia)); lia).
  rewrite (rsum_cyclic n s (fun i => rsum n (fun j => f i ((j + s) mod n)%Z))) by auto. apply rsum_ext. intros i Hi. apply (rsum_cyclic n s (f i)); auto.
Qed.
Lemma filter_light c mem k : (2 <= y_N c)%Z ->
  light (y_N c) (fun i j => cnorm2 (pyr_filter c mem k i j)) = light (y_N c) (fun i j => cnorm2 (mem (shifted (pyr_slots c) k) i j)).
Proof.
  intros HN. unfold light, pyr_filter. rewrite idft2_energy by lia. set (m := mem _). set (N := y_N c) in *.
  assert (Rn : IZR N <> 0) by (apply IZR_neq; lia).
  transitivity (/ (IZR N * IZR N) * light N (fun u v => cnorm2 (dft2 N m u v))).
  - f_equal. rewrite <- light_cyclic by auto. apply light_ext. intros u v Hu Hv. rewrite cnorm2_mul, cis_norm. ring.
  - unfold light. rewrite dft2_energy by lia. field. auto.
Qed.
Lemma intensity_light c mem : (2 <= y_N c)%Z ->
  light (y_N c) (pyr_intensity c mem) = rsum (pyr_slots c) (fun k => light (y_N c) (fun i j => cnorm2 (mem k i j))).
Proof.
  intros HN. unfold light at 1, pyr_intensity.
  rewrite (rsum_ext (y_N c) _ (fun i => rsum (pyr_slots c) (fun k => rsum (y_N c) (fun j => cnorm2 (pyr_filter c mem k i j))))) by (intros; apply rsum_swap).
  rewrite rsum_swap. rewrite (rsum_ext _ _ (fun k => light (y_N c) (fun i j => cnorm2 (mem (shifted (pyr_slots c) k) i j)))) by (intros k Hk; apply filter_light; auto).
  unfold shifted. assert (32 <= pyr_slots c)%Z by (unfold pyr_slots; lia). set (S := pyr_slots c) in *.
  apply (rsum_cyclic S (S - S / 2) (fun k => light (y_N c) (fun i j => cnorm2 (mem k i j)))).
  pose proof (Z.div_mod S 2 ltac:(lia)); pose proof (Z.mod_pos_bound S 2 ltac:(lia)); lia.
Qed.
Lemma rebin_light N ns f : (0 < ns)%Z -> (ns * (N / ns) = N)%Z -> (1 <= N / ns)%Z ->
  light ns (rebin N ns f) = / (IZR (N / ns) * IZR (N / ns)) * light N f.
Proof.
  intros H0 HD Hb. set (b := (N / ns)%Z) in *. assert (Rb : IZR b <> 0) by (apply IZR_neq; lia).
  assert (E : forall i j, rebin N ns f i j = / (IZR b * IZR b) * rsum b (fun p => rsum b (fun q => f (i * b + p)%Z (j * b + q)%Z))).
  { intros i j. unfold rebin. fold b. unfold Rdiv at 1. rewrite Rmult_comm.
    rewrite (rsum_ext b _ (fun p => / IZR b * rsum b (fun q => f (i * b + p)%Z (j * b + q)%Z))) by (intros; unfold Rdiv; ring).
    rewrite rsum_scale. field. auto. }
  rewrite (light_ext ns _ _ (fun i j _ _ => E i j)). rewrite light_scale. f_equal. unfold light.
  rewrite <- HD. rewrite <- (rsum_blocks ns b (fun i => rsum (ns * b) (fun j => f i j))) by lia.
  apply rsum_ext. intros i Hi. rewrite rsum_swap. apply rsum_ext. intros p Hp.
  rewrite <- (rsum_blocks ns b (fun j => f (i * b + p)%Z j)) by lia. reflexivity.
Qed.
Lemma detector_light c ns mem : pyr_build (y_N c) (y_P c) (y_n c) (y_sep c) = Ok ns -> (0 < y_N c)%Z -> (0 < y_n c)%Z -> (0 < y_P c)%Z -> (0 < y_nmod c)%Z ->
  light ns (pyr_detector c false mem) = / IZR (y_nmod c) * (/ (IZR (y_N c / ns) * IZR (y_N c / ns)) * rsum (pyr_slots c) (fun k => light (y_N c) (fun i j => cnorm2 (mem k i j)))).
Proof.
  intros HB HN Hn HP Hm. destruct (built_facts c ns HB HN Hn HP) as (-> & H0 & HD & Hp & N2 & Hb & B1). rewrite <- intensity_light by auto.
  set (ns := pyr_ndet (y_N c) (y_P c) (y_n c)) in *. unfold pyr_detector. fold ns. fold (pyr_bin (y_P c) (y_n c)) in B1.
  assert (Rm : IZR (y_nmod c) <> 0) by (apply IZR_neq; lia).
  destruct (Z.eqb_spec (pyr_bin (y_P c) (y_n c)) 1) as [E|E].
  - specialize (B1 E). rewrite B1 in *. rewrite Z.div_same by lia.
    transitivity (light (y_N c) (fun i j => / IZR (y_nmod c) * pyr_intensity c mem i j)); [apply light_ext; intros i j _ _; unfold Rdiv; ring|].
    rewrite light_scale. field. auto.
  - transitivity (light ns (fun i j => / IZR (y_nmod c) * rebin (y_N c) ns (pyr_intensity c mem) i j)); [apply light_ext; intros i j _ _; unfold Rdiv; ring|].
    rewrite light_scale, rebin_light by auto. reflexivity.
Qed.
Lemma field_norm c phase k i j : cnorm2 (pyr_field c phase k i j) = y_mask c i j * y_mask c i j.
Proof. unfold pyr_field. rewrite cnorm2_mul, cis_norm, cnorm2_R. ring. Qed.
Lemma frame_light c ns mem phase : pyr_build (y_N c) (y_P c) (y_n c) (y_sep c) = Ok ns -> (0 < y_N c)%Z -> (0 < y_n c)%Z -> (0 < y_P c)%Z -> (32 <= y_nmod c)%Z ->
  light ns (pyr_detector c false (pyr_write c mem phase)) = light (y_N c) (fun i j => y_mask c i j * y_mask c i j) / (IZR (y_N c / ns) * IZR (y_N c / ns)).
Proof.
  intros HB HN Hn HP Hm. rewrite (detector_light c ns) by (auto; lia).
  destruct (built_facts c ns HB HN Hn HP) as (_ & _ & _ & _ & _ & Hb & _). assert (IZR (y_N c / ns) <> 0) by (apply IZR_neq; lia).
  assert (IZR (y_nmod c) <> 0) by (apply IZR_neq; lia).
  unfold pyr_slots. rewrite Z.max_r by lia. rewrite (rsum_ext _ _ (fun _ => light (y_N c) (fun i j => y_mask c i j * y_mask c i j))).
  - rewrite rsum_const by lia. field. auto.
  - intros k Hk. apply light_ext. intros i j _ _. unfold pyr_write. destruct (Z.ltb_spec k (y_nmod c)); [|lia]. apply field_norm.
Qed.

(** ** Memory *)
Lemma write_all c mem mem' phase : (32 <= y_nmod c)%Z -> forall k, (0 <= k < pyr_slots c)%Z -> pyr_write c mem phase k = pyr_write c mem' phase k.
Proof. intros Hm k Hk. unfold pyr_slots in Hk. unfold pyr_write. destruct (Z.ltb_spec k (y_nmod c)); [reflexivity|lia]. Qed.
Lemma shifted_range n k : (0 < n)%Z -> (0 <= shifted n k < n)%Z.
Proof. intros. apply Z.mod_pos_bound. auto. Qed.
Lemma intensity_ext c m m' :
  (forall k, (0 <= k < pyr_slots c)%Z -> exists p, forall i j, (0 <= i < y_N c)%Z -> (0 <= j < y_N c)%Z -> m k i j = (cis p * m' k i j)%C) ->
  forall i j, pyr_intensity c m i j = pyr_intensity c m' i j.
Proof.
  intros H i j. unfold pyr_intensity. apply rsum_ext. intros k Hk. unfold pyr_filter.
  assert (Hs : (0 <= shifted (pyr_slots c) k < pyr_slots c)%Z) by (apply shifted_range; unfold pyr_slots; lia).
  destruct (H _ Hs) as [p Hp].
  rewrite (idft2_ext _ _ (fun u v => cis p * (dft2 (y_N c) (m' (shifted (pyr_slots c) k)) (shifted (y_N c) u) (shifted (y_N c) v) * cis (pyr_phase c u v)))%C).
  - rewrite idft2_hom, cnorm2_mul, cis_norm. ring.
  - intros u v Hu Hv. rewrite (dft2_ext _ _ (fun i j => cis p * m' (shifted (pyr_slots c) k) i j)%C) by (intros; apply Hp; auto). rewrite dft2_hom. ring.
Qed.
Lemma detector_ext c maskd m m' : (forall i j, pyr_intensity c m i j = pyr_intensity c m' i j) -> forall i j, pyr_detector c maskd m i j = pyr_detector c maskd m' i j.
Proof.
  intros H i j. unfold pyr_detector.
  assert (E : (if (pyr_bin (y_P c) (y_n c) =? 1)%Z then pyr_intensity c m else rebin (y_N c) (pyr_ndet (y_N c) (y_P c) (y_n c)) (pyr_intensity c m)) i j =
              (if (pyr_bin (y_P c) (y_n c) =? 1)%Z then pyr_intensity c m' else rebin (y_N c) (pyr_ndet (y_N c) (y_P c) (y_n c)) (pyr_intensity c m')) i j).
  { destruct (_ =? 1)%Z; [apply H|]. unfold rebin. f_equal. apply rsum_ext. intros p Hp. f_equal. apply rsum_ext. intros q Hq. apply H. }
  rewrite E. reflexivity.
Qed.
Lemma frame_history c mem mem' phase i j : (32 <= y_nmod c)%Z ->
  pyr_detector c false (pyr_write c mem phase) i j = pyr_detector c false (pyr_write c mem' phase) i j.
Proof.
  intros Hm. apply detector_ext. apply intensity_ext. intros k Hk. exists 0. intros. rewrite cis_0, (write_all c mem mem' phase Hm k Hk). ring.
Qed.
Lemma piston_detector c maskd mem mem' phase p i j : (32 <= y_nmod c)%Z -> binary_mask c ->
  pyr_detector c maskd (pyr_write c mem (piston p phase)) i j = pyr_detector c maskd (pyr_write c mem' phase) i j.
Proof.
  intros Hm Hb. apply detector_ext. apply intensity_ext. intros k Hk. exists p. intros u v _ _. unfold pyr_slots in Hk. unfold pyr_write.
  destruct (Z.ltb_spec k (y_nmod c)); [|lia]. unfold pyr_field, piston. destruct (Hb u v) as [-> | ->].
  - ring.
  - replace ((phase u v + p + modulation c k u v + centring c u v) * 1) with (p + (phase u v + modulation c k u v + centring c u v) * 1) by ring.
    rewrite cis_add. ring.
Qed.
Lemma flat_detector c mem mem' p i j : (32 <= y_nmod c)%Z -> binary_mask c ->
  pyr_detector c false (pyr_write c mem (fun _ _ => p)) i j = / IZR (y_nmod c) * pyr_detector c true (pyr_write c mem' (y_mask c)) i j.
Proof.
  intros Hm Hb. transitivity (pyr_detector c false (pyr_write c mem' (y_mask c)) i j).
  - apply detector_ext. apply intensity_ext. intros k Hk. exists (p - 1). intros u v _ _. unfold pyr_slots in Hk. unfold pyr_write.
    destruct (Z.ltb_spec k (y_nmod c)); [|lia]. unfold pyr_field. destruct (Hb u v) as [-> | ->].
    + ring.
    + replace ((p + modulation c k u v + centring c u v) * 1) with ((p - 1) + (1 + modulation c k u v + centring c u v) * 1) by ring.
      rewrite cis_add. ring.
  - unfold pyr_detector. unfold Rdiv. ring.
Qed.
Lemma light_refuted c ns phase : pyr_build (y_N c) (y_P c) (y_n c) (y_sep c) = Ok ns -> (0 < y_N c)%Z -> (0 < y_n c)%Z -> (0 < y_P c)%Z -> (1 <= y_nmod c < 32)%Z ->
  exists mem mem', light ns (pyr_detector c false (pyr_write c mem phase)) <> light ns (pyr_detector c false (pyr_write c mem' phase)).
Proof.
  intros HB HN Hn HP Hm. exists (fun _ _ _ => RtoC 0), (fun _ _ _ => RtoC 1). intros S.
  rewrite !(detector_light c ns) in S by (auto; lia).
  destruct (built_facts c ns HB HN Hn HP) as (_ & _ & _ & _ & N2 & Hb & _). assert (Rb : 0 < IZR (y_N c / ns)) by (apply IZR_lt; lia).
  assert (Rm : 0 < IZR (y_nmod c)) by (apply IZR_lt; lia). assert (RN : 0 < IZR (y_N c)) by (apply IZR_lt; lia).
  apply Rmult_eq_reg_l in S; [|apply Rinv_neq_0_compat; lra]. apply Rmult_eq_reg_l in S; [|apply Rinv_neq_0_compat; nra].
  revert S. unfold pyr_slots. rewrite Z.max_l by lia. replace 32%Z with (y_nmod c + (32 - y_nmod c))%Z by lia. rewrite !rsum_split by lia. intros S.
  rewrite (rsum_ext (y_nmod c) (fun k => light (y_N c) (fun i j => cnorm2 (pyr_write c (fun _ _ _ => RtoC 1) phase k i j)))
            (fun k => light (y_N c) (fun i j => cnorm2 (pyr_write c (fun _ _ _ => RtoC 0) phase k i j)))) in S.
  2:{ intros k Hk. unfold pyr_write. destruct (Z.ltb_spec k (y_nmod c)); [reflexivity|lia]. }
  apply Rplus_eq_reg_l in S.
  rewrite (rsum_ext _ _ (fun _ => 0)) in S.
  2:{ intros k Hk. unfold pyr_write. destruct (Z.ltb_spec (y_nmod c + k) (y_nmod c)); [lia|]. unfold light.
      rewrite (rsum_ext _ _ (fun _ => 0)); [rewrite rsum_const by lia; ring|]. intros i Hi. rewrite (rsum_ext _ _ (fun _ => 0)); [rewrite rsum_const by lia; ring|].
      intros j Hj. unfold cnorm2, RtoC. cbn. ring. }
  rewrite (rsum_ext _ (fun k => light (y_N c) _) (fun _ => IZR (y_N c) * (IZR (y_N c) * 1))) in S.
  2:{ intros k Hk. unfold pyr_write. destruct (Z.ltb_spec (y_nmod c + k) (y_nmod c)); [lia|]. unfold light.
      rewrite <- rsum_const by lia. apply rsum_ext. intros i Hi. rewrite <- rsum_const by lia. apply rsum_ext. intros j Hj. unfold cnorm2, RtoC. cbn. ring. }
  rewrite !rsum_const in S by lia. assert (H : 0 < IZR (32 - y_nmod c)) by (apply IZR_lt; lia).
  assert (0 < IZR (32 - y_nmod c) * (IZR (y_N c) * (IZR (y_N c) * 1))) by (apply Rmult_lt_0_compat; nra). lra.
Qed.

Lemma history_refuted c ns phase : pyr_build (y_N c) (y_P c) (y_n c) (y_sep c) = Ok ns -> (0 < y_N c)%Z -> (0 < y_n c)%Z -> (0 < y_P c)%Z -> (1 <= y_nmod c < 32)%Z ->
  exists mem mem', ~ same_image ns (pyr_detector c false (pyr_write c mem phase)) (pyr_detector c false (pyr_write c mem' phase)).
Proof.
  intros HB HN Hn HP Hm. destruct (light_refuted c ns phase HB HN Hn HP Hm) as (m & m' & H). exists m, m'. intros S. apply H. apply light_ext. exact S.
Qed.

(** ** Slopes *)
Lemma quad_ext c d d' a b : (forall i j, d i j = d' i j) -> quad_flux c d a b = quad_flux c d' a b.
Proof. intros H. unfold quad_flux. apply map_ext. intros. rewrite H. reflexivity. Qed.
Lemma raw_ext c d d' : (forall i j, d i j = d' i j) -> raw_slopes c d = raw_slopes c d'.
Proof. intros H. unfold raw_slopes. rewrite !(quad_ext c d d') by auto. reflexivity. Qed.
Lemma quad_scale c d s a b : 0 < s -> quad_flux c (fun i j => s * d i j) a b = map (Rmult s) (quad_flux c d a b).
Proof. intros Hs. unfold quad_flux. rewrite map_map. apply map_ext. intros. rewrite Rabs_mult, (Rabs_pos_eq s) by lra. reflexivity. Qed.
Lemma rlsum_scale s l : rlsum (map (Rmult s) l) = s * rlsum l.
Proof. induction l as [|x l IH]; cbn; [ring|]. unfold rlsum in IH. rewrite IH. ring. Qed.
Lemma zip4_scale s f g a b c d : (forall x y z w, g (s * x) (s * y) (s * z) (s * w) = f x y z w) ->
  zip4 g (map (Rmult s) a) (map (Rmult s) b) (map (Rmult s) c) (map (Rmult s) d) = zip4 f a b c d.
Proof.
  intros H. revert b c d. induction a as [|x a IH]; intros b c d; [reflexivity|]. destruct b, c, d; try reflexivity. cbn. rewrite H, IH. reflexivity.
Qed.
Lemma raw_scale c d s : 0 < s -> raw_slopes c (fun i j => s * d i j) = raw_slopes c d.
Proof.
  intros Hs. unfold raw_slopes. rewrite !quad_scale by auto. rewrite !rlsum_scale.
  set (q1 := quad_flux c d false false). set (q2 := quad_flux c d false true). set (q3 := quad_flux c d true false). set (q4 := quad_flux c d true true).
  destruct (Req_EM_T (rlsum q1 + rlsum q2 + rlsum q3 + rlsum q4) 0) as [E|E]; destruct (Req_EM_T _ 0) as [F|F]; try reflexivity.
  - exfalso. apply F. transitivity (s * (rlsum q1 + rlsum q2 + rlsum q3 + rlsum q4)); [ring|]. rewrite E. ring.
  - exfalso. apply E. apply (Rmult_eq_reg_l s); [|lra]. rewrite Rmult_0_r, <- F. ring.
  - f_equal. f_equal; apply zip4_scale; intros; field; split; auto; lra.
Qed.
Lemma rlsum_nonneg l : Forall (fun x => 0 <= x) l -> 0 <= rlsum l.
Proof. induction 1 as [|x l Hx _ IH]; cbn; [lra|]. unfold rlsum in IH. lra. Qed.
Lemma rlsum_In l x : Forall (fun x => 0 <= x) l -> In x l -> 0 <= x <= rlsum l.
Proof.
  induction 1 as [|y l Hy HF IH]; [intros []|]. intros [->|Hin]; cbn.
  - apply rlsum_nonneg in HF. unfold rlsum in HF. lra.
  - specialize (IH Hin). unfold rlsum in IH. lra.
Qed.
Lemma zip4_In f a b c d r : In r (zip4 f a b c d) -> exists x y z w, In x a /\ In y b /\ In z c /\ In w d /\ r = f x y z w.
Proof.
  revert b c d. induction a as [|x a IH]; intros b c d H; [destruct H|]. destruct b as [|y b], c as [|z c], d as [|w d]; try destruct H as [].
  - exists x, y, z, w. cbn. auto 6.
  - destruct (IH _ _ _ H) as (x' & y' & z' & w' & H1 & H2 & H3 & H4 & E). exists x', y', z', w'. cbn. auto 8.
Qed.
Lemma quad_nonneg c d a b : Forall (fun x => 0 <= x) (quad_flux c d a b).
Proof. unfold quad_flux. apply Forall_forall. intros x H. apply in_map_iff in H as (rc & <- & _). apply Rabs_pos. Qed.
Lemma raw_bounded c d s : raw_slopes c d = Some s -> Forall (fun x => -1 <= x <= 1) s.
Proof.
  unfold raw_slopes. set (q1 := quad_flux c d false false). set (q2 := quad_flux c d false true). set (q3 := quad_flux c d true false). set (q4 := quad_flux c d true true).
  destruct (Req_EM_T _ 0) as [E|E]; [discriminate|]. intros X. injection X as <-. set (T := rlsum q1 + rlsum q2 + rlsum q3 + rlsum q4) in *.
  assert (T0 : 0 < T).
  { pose proof (rlsum_nonneg q1 (quad_nonneg _ _ _ _)). pose proof (rlsum_nonneg q2 (quad_nonneg _ _ _ _)).
    pose proof (rlsum_nonneg q3 (quad_nonneg _ _ _ _)). pose proof (rlsum_nonneg q4 (quad_nonneg _ _ _ _)). unfold T in *. lra. }
  assert (B : forall u, - T <= u <= T -> -1 <= u / T <= 1).
  { intros u Hu. assert (0 < / T) by (apply Rinv_0_lt_compat; auto). assert (T * / T = 1) by (field; lra). unfold Rdiv. split; nra. }
  apply Forall_app. split; apply Forall_forall; intros r Hr; apply zip4_In in Hr as (x & y & z & w & H1 & H2 & H3 & H4 & ->);
    apply rlsum_In in H1; [|apply quad_nonneg| |apply quad_nonneg]; apply rlsum_In in H2; [|apply quad_nonneg| |apply quad_nonneg];
    apply rlsum_In in H3; [|apply quad_nonneg| |apply quad_nonneg]; apply rlsum_In in H4; [|apply quad_nonneg| |apply quad_nonneg];
    apply B; unfold T; lra.
Qed.
Lemma raster_In h r c : In (r, c) (raster h) <-> (0 <= r < h)%Z /\ (0 <= c < h)%Z.
Proof. unfold raster. rewrite in_prod_iff, !zseq_In. reflexivity. Qed.
Lemma filter_perm {A} (p : A -> bool) l l' : Permutation l l' -> length (filter p l) = length (filter p l').
Proof. induction 1; cbn; auto; repeat match goal with |- context [if ?x then _ else _] => destruct x end; cbn; congruence. Qed.
Lemma quad_count h n sep sub a b :
  length (filter (fun rc => quad_mask h n sep sub a b (fst rc) (snd rc)) (raster h)) =
  length (filter (fun rc => quad_mask h n sep sub false false (fst rc) (snd rc)) (raster h)).
Proof.
  set (fl := fun rc : Z * Z => ((if a then h - 1 - fst rc else fst rc)%Z, (if b then h - 1 - snd rc else snd rc)%Z)).
  assert (ND : NoDup (raster h)) by (apply list_prod_NoDup; apply zseq_NoDup).
  assert (INV : forall rc, fl (fl rc) = rc) by (intros [r c]; unfold fl; destruct a, b; cbn; f_equal; lia).
  assert (P : Permutation (map fl (raster h)) (raster h)).
  { apply NoDup_Permutation; auto.
    - apply FinFun.Injective_map_NoDup; auto. intros x y E. rewrite <- (INV x), E. apply INV.
    - intros [r c]. rewrite in_map_iff, raster_In. split.
      + intros ([r' c'] & E & H). apply raster_In in H. unfold fl in E. cbn in E. injection E as <- <-. destruct a, b; lia.
      + intros H. exists (fl (r, c)). rewrite INV. split; [reflexivity|]. unfold fl. cbn. apply raster_In. destruct a, b; lia. }
  assert (F : forall (p : Z * Z -> bool) l, length (filter (fun rc => p (fl rc)) l) = length (filter p (map fl l))).
  { intros p l. induction l as [|x l IH]; [reflexivity|]. cbn. destruct (p (fl x)); cbn; rewrite IH; reflexivity. }
  transitivity (length (filter (fun rc => quad_mask h n sep sub false false (fst rc) (snd rc)) (map fl (raster h)))).
  - rewrite <- F. f_equal.
  - apply filter_perm; exact P.
Qed.
Lemma zip4_length f a b c d n : length a = n -> length b = n -> length c = n -> length d = n -> length (zip4 f a b c d) = n.
Proof.
  revert b c d n. induction a as [|x a IH]; intros b c d n Ha Hb Hc Hd; [cbn in *; auto|].
  destruct b, c, d; cbn in *; subst; try discriminate. f_equal. apply IH; congruence.
Qed.
Lemma raw_length c d s : raw_slopes c d = Some s -> length s = slope_size c.
Proof.
  unfold raw_slopes. destruct (Req_EM_T _ 0); [discriminate|]. intros E. injection E as <-. rewrite app_length. unfold slope_size. cbv zeta.
  set (k := length _) at 3.
  assert (Q : forall a b, length (quad_flux c d a b) = k) by (intros; unfold quad_flux, k; rewrite map_length; apply quad_count).
  rewrite !(zip4_length _ _ _ _ _ k) by apply Q. lia.
Qed.
Lemma combine_self (s : list R) : map (fun p => fst p - snd p) (combine s s) = map (fun _ => 0) s.
Proof. induction s as [|x s IH]; [reflexivity|]. cbn. f_equal; [lra|exact IH]. Qed.
Lemma flat_zero c m0 flat destroy mem p : (32 <= y_nmod c)%Z -> binary_mask c -> flat_slopes c m0 = Some flat ->
  exists s, fst (pyr_frame c flat destroy mem (fun _ _ => p)) = Some s /\ length s = slope_size c /\ Forall (fun x => x = 0) s.
Proof.
  intros Hm Hb Hf. unfold pyr_frame. cbn [fst]. unfold pyr_slopes.
  rewrite (raw_ext c _ (fun i j => / IZR (y_nmod c) * pyr_detector c true (pyr_write c m0 (y_mask c)) i j)) by (intros; apply flat_detector; auto).
  rewrite raw_scale by (apply Rinv_0_lt_compat; apply IZR_lt; lia). unfold flat_slopes in Hf. rewrite Hf. rewrite combine_self.
  eexists. split; [reflexivity|]. split; [rewrite map_length; eapply raw_length; eauto|]. apply Forall_forall. intros x Hx. apply in_map_iff in Hx as (? & <- & _). reflexivity.
Qed.
Lemma frame_piston c flat d1 d2 mem mem' phase p : (32 <= y_nmod c)%Z -> binary_mask c ->
  fst (pyr_frame c flat d1 mem (piston p phase)) = fst (pyr_frame c flat d2 mem' phase).
Proof.
  intros Hm Hb. unfold pyr_frame. cbn [fst]. unfold pyr_slopes.
  rewrite (raw_ext c _ (pyr_detector c false (pyr_write c mem' phase))) by (intros; apply piston_detector; auto). reflexivity.
Qed.

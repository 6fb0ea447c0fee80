(** Symmetries of the pyramid sensor: mirrored and transposed wavefronts. *)
From Coq Require Import ZArith Reals List Bool Lia Lra Permutation.
From Coquelicot Require Import Complex.
From Verif.Base Require Import Py PyFacts CSum CSumFacts.
From Verif.Model Require Import Numerics Pyramid.
From Verif.Spec Require Import PyramidSpec.
From Verif.Proofs Require Import NumericsProofs ShProofs PyramidProofs.
Import ListNotations.
Open Scope R_scope.

(** ** Sums read backwards *)
Lemma rsumn_rev n f : rsumn n f = rsumn n (fun i => f (Z.of_nat n - 1 - i)%Z).
Proof.
  revert f. induction n as [|n IH]; intro f; [reflexivity|]. pose proof (rsumn_split 1 n (fun i => f (Z.of_nat (S n) - 1 - i)%Z)) as E. change (1 + n)%nat with (S n) in E. rewrite E. clear E.
  cbn [rsumn]. rewrite Rplus_0_l, Rplus_comm. f_equal.
  - f_equal. lia.
  - rewrite IH. apply rsumn_ext. intros i Hi. f_equal. lia.
Qed.
Lemma rsum_rev n f : (0 <= n)%Z -> rsum n f = rsum n (fun i => f (n - 1 - i)%Z).
Proof. intro H. unfold rsum. rewrite rsumn_rev. apply rsumn_ext. intros i Hi. f_equal. lia. Qed.
Lemma csum_parts n f : csum n f = (rsum n (fun i => fst (f i)), rsum n (fun i => snd (f i))).
Proof.
  unfold csum, rsum. induction (Z.to_nat n) as [|m IH]; [reflexivity|]. cbn [csumn rsumn]. rewrite IH. reflexivity.
Qed.
Lemma csum_rev n f : (0 <= n)%Z -> csum n f = csum n (fun i => f (n - 1 - i)%Z).
Proof. intro H. rewrite !csum_parts. f_equal; [apply (rsum_rev n (fun i => fst (f i)))|apply (rsum_rev n (fun i => snd (f i)))]; auto. Qed.
Lemma rsum_reflect n q f : (0 < n)%Z -> rsum n (fun k => f ((q - k) mod n)%Z) = rsum n f.
Proof.
  intro H. rewrite rsum_rev by lia. pose proof (Z.mod_pos_bound (q - n + 1) n H) as B.
  rewrite <- (rsum_cyclic n ((q - n + 1) mod n)%Z f B). apply rsum_ext. intros k Hk. f_equal. rewrite Zplus_mod_idemp_r. f_equal. lia.
Qed.

(** ** Fourier transforms of mirrored and transposed arrays *)
Lemma cis_int x k : cis (x + 2 * PI * IZR k) = cis x.
Proof. rewrite cis_add, cis_Z, Cmult_1_r. reflexivity. Qed.
Lemma dft2_T n f u v : dft2 n (fun i j => f j i) u v = dft2 n f v u.
Proof.
  unfold dft2. rewrite (csum_ext n _ (fun i => csum n (fun j => f j i * cis (- (2 * PI * IZR (v * j) / IZR n)) * cis (- (2 * PI * IZR (u * i) / IZR n))))%C) by (intros; symmetry; apply csum_scale_r).
  rewrite csum_swap. apply csum_ext. intros j Hj. rewrite <- csum_scale_r. apply csum_ext. intros i Hi. ring.
Qed.
Lemma idft2_T n f u v : idft2 n (fun i j => f j i) u v = idft2 n f v u.
Proof.
  unfold idft2. f_equal. rewrite (csum_ext n _ (fun i => csum n (fun j => f j i * cis (2 * PI * IZR (j * v) / IZR n) * cis (2 * PI * IZR (i * u) / IZR n)))%C) by (intros; symmetry; apply csum_scale_r).
  rewrite csum_swap. apply csum_ext. intros j Hj. rewrite <- csum_scale_r. apply csum_ext. intros i Hi. ring.
Qed.
Lemma dft2_period n f u v u' : (0 < n)%Z -> (u' mod n = u mod n)%Z -> dft2 n f u' v = dft2 n f u v.
Proof.
  intros H E. unfold dft2. apply csum_ext. intros i Hi. f_equal.
  assert (N : IZR n <> 0) by (apply IZR_neq; lia).
  pose proof (Z.div_mod u n ltac:(lia)) as E1. pose proof (Z.div_mod u' n ltac:(lia)) as E2.
  rewrite <- (cis_int (- (2 * PI * IZR (u' * i) / IZR n)) ((u' / n - u / n) * i)). f_equal.
  assert (E3 : (u' = u + n * (u' / n - u / n))%Z) by lia. set (d := (u' / n - u / n)%Z) in *. rewrite E3, !mult_IZR, !plus_IZR, !mult_IZR. field. auto.
Qed.
(** Filter an array in Fourier space: lines 347-353 for one plane. *)
Definition filt (n : Z) (G : Z -> Z -> C) (f : Z -> Z -> C) (x y : Z) : C :=
  idft2 n (fun u v => dft2 n f (shifted n u) (shifted n v) * G u v)%C x y.
Lemma filt_ext n G f g x y : (forall i j, (0 <= i < n)%Z -> (0 <= j < n)%Z -> f i j = g i j) -> filt n G f x y = filt n G g x y.
Proof. intro H. unfold filt. apply idft2_ext. intros u v _ _. f_equal. apply dft2_ext. auto. Qed.
Lemma filt_T n G f x y : (forall u v, G u v = G v u) -> filt n G (fun i j => f j i) x y = filt n G f y x.
Proof.
  intro H. unfold filt. rewrite <- (idft2_T n (fun u v => dft2 n f (shifted n u) (shifted n v) * G u v)%C). apply idft2_ext. intros u v _ _. rewrite dft2_T. f_equal. apply H.
Qed.
Lemma dft2_mirror n f u v : (0 < n)%Z ->
  dft2 n (fun i j => f (n - 1 - i)%Z j * cis (- (2 * PI * IZR i / IZR n)))%C u v = (cis (2 * PI * IZR (u + 1) / IZR n) * dft2 n f (- (u + 1)) v)%C.
Proof.
  intro H. assert (N : IZR n <> 0) by (apply IZR_neq; lia). unfold dft2. rewrite csum_rev by lia. rewrite <- csum_scale. apply csum_ext. intros i Hi.
  rewrite (csum_ext n _ (fun j => f i j * cis (- (2 * PI * IZR (v * j) / IZR n)) * cis (- (2 * PI * IZR (n - 1 - i) / IZR n)))%C).
  2:{ intros j Hj. replace (n - 1 - (n - 1 - i))%Z with i by lia. ring. }
  rewrite csum_scale_r. set (g := csum n _).
  assert (E : (cis (- (2 * PI * IZR (n - 1 - i) / IZR n)) * cis (- (2 * PI * IZR (u * (n - 1 - i)) / IZR n)) = cis (2 * PI * IZR (u + 1) / IZR n) * cis (- (2 * PI * IZR (- (u + 1) * i) / IZR n)))%C).
  { rewrite <- !cis_add. rewrite <- (cis_int (2 * PI * IZR (u + 1) / IZR n + _) (- (u + 1))). f_equal. rewrite !mult_IZR, !opp_IZR, !minus_IZR, !plus_IZR. field. auto. }
  rewrite <- Cmult_assoc, E. ring.
Qed.
Lemma shifted_even n u : (0 < n)%Z -> (n mod 2 = 0)%Z -> (shifted n u = (u + n / 2) mod n)%Z.
Proof. intros H E. unfold shifted. f_equal. pose proof (Z.div_mod n 2 ltac:(lia)). lia. Qed.
Lemma shifted_mirror n u : (0 < n)%Z -> (n mod 2 = 0)%Z -> ((- (shifted n u + 1)) mod n = shifted n (n - 1 - u) mod n)%Z.
Proof.
  intros H E. rewrite !shifted_even by auto. rewrite Z.mod_mod by lia. pose proof (Z.div_mod n 2 ltac:(lia)) as D. rewrite E in D. 
  pose proof (Z.div_mod (u + n / 2) n ltac:(lia)) as D2. set (q := ((u + n / 2) / n)%Z) in *. set (r := ((u + n / 2) mod n)%Z) in *.
  replace (n - 1 - u + n / 2)%Z with (- (r + 1) + (2 - q) * n)%Z by lia. rewrite Z.mod_add by lia. reflexivity.
Qed.
Lemma filt_mirror n G f x y : (0 < n)%Z -> (n mod 2 = 0)%Z -> (forall u v, (0 <= u < n)%Z -> G (n - 1 - u)%Z v = G u v) ->
  cnorm2 (filt n G (fun i j => f (n - 1 - i)%Z j * cis (- (2 * PI * IZR i / IZR n)))%C x y) = cnorm2 (filt n G f (n - 1 - x) y).
Proof.
  intros H E S. assert (N : IZR n <> 0) by (apply IZR_neq; lia).
  assert (K : filt n G (fun i j => f (n - 1 - i)%Z j * cis (- (2 * PI * IZR i / IZR n)))%C x y =
              (cis (2 * PI * IZR (n / 2 + n - x) / IZR n) * filt n G f (n - 1 - x) y)%C).
  { unfold filt. rewrite (idft2_ext n _ (fun u v => cis (2 * PI * IZR (shifted n u + 1) / IZR n) * (dft2 n f (shifted n (n - 1 - u)) (shifted n v) * G (n - 1 - u)%Z v))%C).
    2:{ intros u v Hu Hv. rewrite dft2_mirror by auto. rewrite S by auto. rewrite (dft2_period n f (shifted n (n - 1 - u)) (shifted n v) (- (shifted n u + 1))) by (auto; apply shifted_mirror; auto). ring. }
    unfold idft2. rewrite Cmult_assoc, (Cmult_comm (cis _) (RtoC _)), <- Cmult_assoc. f_equal. rewrite csum_rev by lia. rewrite <- csum_scale. apply csum_ext. intros w Hw.
    replace (n - 1 - (n - 1 - w))%Z with w by lia. rewrite <- !csum_scale_r. rewrite <- csum_scale. apply csum_ext. intros v Hv.
    set (F := dft2 n f (shifted n w) (shifted n v)).
    assert (Q : (cis (2 * PI * IZR (shifted n (n - 1 - w) + 1) / IZR n) * cis (2 * PI * IZR ((n - 1 - w) * x) / IZR n) =
                 cis (2 * PI * IZR (n / 2 + n - x) / IZR n) * cis (2 * PI * IZR (w * (n - 1 - x)) / IZR n))%C).
    { rewrite <- !cis_add. rewrite shifted_even by auto. pose proof (Z.div_mod (n - 1 - w + n / 2) n ltac:(lia)) as D. set (q := ((n - 1 - w + n / 2) / n)%Z) in *. set (r := ((n - 1 - w + n / 2) mod n)%Z) in *.
      rewrite <- (cis_int (2 * PI * IZR (r + 1) / IZR n + _) (q - x + w)). f_equal. replace (r + 1)%Z with (n - w + n / 2 - n * q)%Z by lia. set (h := (n / 2)%Z) in *.
      rewrite !mult_IZR, !plus_IZR, !minus_IZR, !plus_IZR, !mult_IZR, !minus_IZR. field. auto. }
    transitivity (F * G w v * cis (2 * PI * IZR (v * y) / IZR n) * (cis (2 * PI * IZR (shifted n (n - 1 - w) + 1) / IZR n) * cis (2 * PI * IZR ((n - 1 - w) * x) / IZR n)))%C; [ring|].
    rewrite Q. ring. }
  rewrite K, cnorm2_mul, cis_norm, Rmult_1_l. reflexivity.
Qed.
Lemma filt_scale n G c f x y : filt n G (fun i j => c * f i j)%C x y = (c * filt n G f x y)%C.
Proof. unfold filt. rewrite <- idft2_hom. apply idft2_ext. intros u v _ _. rewrite dft2_hom. ring. Qed.

(** ** The prism *)
Lemma prism_T c u v : pyr_phase c u v = pyr_phase c v u.
Proof. unfold pyr_phase, tip_tilt. cbv zeta. destruct (u <? _)%Z; destruct (v <? _)%Z; ring. Qed.
Lemma prism_mirror c u v : (y_N c mod 2 = 0)%Z -> (0 <= u < y_N c)%Z -> pyr_phase c (y_N c - 1 - u) v = pyr_phase c u v.
Proof.
  intros E Hu. pose proof (Z.div_mod (y_N c) 2 ltac:(lia)) as D. rewrite E in D. unfold pyr_phase, tip_tilt. cbv zeta. set (h := (y_N c / 2)%Z) in *.
  set (ap := ((_ : R) * PI)%R). clearbody ap. replace (y_N c) with (2 * h)%Z by lia.
  destruct (Z.ltb_spec (2 * h - 1 - u) h); destruct (Z.ltb_spec u h); try lia; destruct (v <? h)%Z; rewrite !minus_IZR, ?mult_IZR; lra.
Qed.


Lemma field_mirror c phase k k' i j : binary_mask c -> same_image (y_N c) (upside_down (y_N c) (y_mask c)) (y_mask c) -> (0 < y_N c)%Z -> (0 <= i < y_N c)%Z -> (0 <= j < y_N c)%Z ->
  modulation c k' i j = modulation c k (y_N c - 1 - i) j ->
  pyr_field c (upside_down (y_N c) phase) k' i j =
  (cis (PI * IZR (y_N c - 1) / IZR (y_N c)) * (pyr_field c phase k (y_N c - 1 - i) j * cis (- (2 * PI * IZR i / IZR (y_N c)))))%C.
Proof.
  intros B M HN Hi Hj E. assert (N : IZR (y_N c) <> 0) by (apply IZR_neq; lia). unfold pyr_field. rewrite E. specialize (M i j Hi Hj). unfold upside_down in *. rewrite M.
  destruct (B i j) as [-> | ->]; [ring|]. rewrite !Rmult_1_r. unfold centring, tip_tilt.
  set (ph := phase _ _). set (md := modulation _ _ _ _). rewrite !Cmult_assoc, (Cmult_comm (cis (PI * _ / _)) (RtoC 1)), <- !Cmult_assoc. f_equal. rewrite <- !cis_add. f_equal. rewrite !minus_IZR. field. auto.
Qed.
Lemma field_T c phase k k' i j : same_image (y_N c) (transposed (y_mask c)) (y_mask c) -> (0 <= i < y_N c)%Z -> (0 <= j < y_N c)%Z ->
  modulation c k' i j = modulation c k j i -> pyr_field c (transposed phase) k' i j = pyr_field c phase k j i.
Proof.
  intros M Hi Hj E. unfold pyr_field. rewrite E. specialize (M i j Hi Hj). unfold transposed in *. rewrite M. do 2 f_equal. f_equal. unfold centring, tip_tilt. ring.
Qed.
(** ** Modulation *)
Lemma cos_int x k : cos (x + 2 * PI * IZR k) = cos x.
Proof. pose proof (cis_int x k) as H. unfold cis in H. congruence. Qed.
Lemma sin_int x k : sin (x + 2 * PI * IZR k) = sin x.
Proof. pose proof (cis_int x k) as H. unfold cis in H. congruence. Qed.
Lemma modulation_mirror c k i j : (0 < y_nmod c)%Z -> (y_nmod c mod 4 = 0)%Z ->
  modulation c ((- (y_nmod c / 4) - k) mod y_nmod c) i j = modulation c k (y_N c - 1 - i) j.
Proof.
  intros H D4. unfold modulation, tip_tilt. assert (N : IZR (y_nmod c) <> 0) by (apply IZR_neq; lia). set (n := y_nmod c) in *.
  pose proof (Z.div_mod n 4 ltac:(lia)) as D. rewrite D4 in D. set (q := (n / 4)%Z) in *. pose proof (Z.div_mod (- q - k) n ltac:(lia)) as E. set (d := ((- q - k) / n)%Z) in *.
  set (r := ((- q - k) mod n)%Z) in *. assert (Er : r = (- q - k - n * d)%Z) by lia.
  assert (A : 2 * PI * IZR r / IZR n + PI / 4 = - (2 * PI * IZR k / IZR n + PI / 4) + 2 * PI * IZR (- d)).
  { rewrite Er, !minus_IZR, !opp_IZR, mult_IZR. assert (Q : IZR n = 4 * IZR q) by (rewrite <- mult_IZR; f_equal; lia).
    assert (Q0 : IZR q <> 0) by (intro X; rewrite X in Q; lra). rewrite Q. field. auto. }
  rewrite A, cos_int, sin_int, cos_neg, sin_neg, !minus_IZR. field.
Qed.
Lemma modulation_T c k i j : (0 < y_nmod c)%Z -> modulation c ((0 - k) mod y_nmod c) i j = modulation c k j i.
Proof.
  intros H. unfold modulation, tip_tilt. assert (N : IZR (y_nmod c) <> 0) by (apply IZR_neq; lia). set (n := y_nmod c) in *.
  pose proof (Z.div_mod (0 - k) n ltac:(lia)) as E. set (d := ((0 - k) / n)%Z) in *. set (r := ((0 - k) mod n)%Z) in *. assert (Er : r = (- k - n * d)%Z) by lia.
  assert (A : 2 * PI * IZR r / IZR n + PI / 4 = (PI / 2 - (2 * PI * IZR k / IZR n + PI / 4)) + 2 * PI * IZR (- d)).
  { rewrite Er, !minus_IZR, !opp_IZR, mult_IZR. field. auto. }
  rewrite A, cos_int, sin_int, cos_shift, sin_shift. ring.
Qed.
(** ** Images *)
Lemma intensity_planes c mem phase x y : (32 <= y_nmod c)%Z ->
  pyr_intensity c (pyr_write c mem phase) x y = rsum (y_nmod c) (fun k => cnorm2 (filt (y_N c) (fun u v => cis (pyr_phase c u v)) (pyr_field c phase k) x y)).
Proof.
  intro H. unfold pyr_intensity. assert (E : pyr_slots c = y_nmod c) by (unfold pyr_slots; lia). rewrite E.
  rewrite <- (rsum_cyclic (y_nmod c) (y_nmod c - y_nmod c / 2) (fun k => cnorm2 (filt _ _ (pyr_field c phase k) x y))).
  2:{ pose proof (Z.div_mod (y_nmod c) 2 ltac:(lia)); pose proof (Z.mod_pos_bound (y_nmod c) 2 ltac:(lia)); lia. }
  apply rsum_ext. intros k Hk. unfold pyr_filter, filt. rewrite E. f_equal. apply idft2_ext. intros u v _ _. f_equal. f_equal. unfold pyr_write.
  change ((k + (y_nmod c - y_nmod c / 2)) mod y_nmod c)%Z with (shifted (y_nmod c) k).
  pose proof (shifted_range (y_nmod c) k ltac:(lia)) as R. destruct (Z.ltb_spec (shifted (y_nmod c) k) (y_nmod c)); [reflexivity|lia].
Qed.
Lemma intensity_mirror c mem mem' phase x y : (32 <= y_nmod c)%Z -> (y_nmod c mod 4 = 0)%Z -> (0 < y_N c)%Z -> (y_N c mod 2 = 0)%Z -> binary_mask c ->
  same_image (y_N c) (upside_down (y_N c) (y_mask c)) (y_mask c) ->
  pyr_intensity c (pyr_write c mem (upside_down (y_N c) phase)) x y = pyr_intensity c (pyr_write c mem' phase) (y_N c - 1 - x) y.
Proof.
  intros H32 H4 HN HE B M. rewrite !intensity_planes by auto. rewrite <- (rsum_reflect (y_nmod c) (- (y_nmod c / 4))) by lia. apply rsum_ext. intros k Hk.
  rewrite (filt_ext _ _ _ (fun i j => cis (PI * IZR (y_N c - 1) / IZR (y_N c)) * (pyr_field c phase k (y_N c - 1 - i) j * cis (- (2 * PI * IZR i / IZR (y_N c)))))%C).
  2:{ intros i j Hi Hj. apply field_mirror; auto. apply modulation_mirror; auto. lia. }
  rewrite filt_scale, cnorm2_mul, cis_norm, Rmult_1_l. apply (filt_mirror (y_N c) _ (pyr_field c phase k)); auto. intros u v Hu. f_equal. apply prism_mirror; auto.
Qed.
Lemma intensity_T c mem mem' phase x y : (32 <= y_nmod c)%Z -> same_image (y_N c) (transposed (y_mask c)) (y_mask c) ->
  pyr_intensity c (pyr_write c mem (transposed phase)) x y = pyr_intensity c (pyr_write c mem' phase) y x.
Proof.
  intros H32 M. rewrite !intensity_planes by auto. rewrite <- (rsum_reflect (y_nmod c) 0) by lia. apply rsum_ext. intros k Hk.
  rewrite (filt_ext _ _ _ (fun i j => pyr_field c phase k j i)).
  2:{ intros i j Hi Hj. apply field_T; auto. apply modulation_T; auto. lia. }
  rewrite filt_T; [reflexivity|]. intros u v. f_equal. apply prism_T.
Qed.
Lemma rebin_mirror N ns f g i j : (0 < ns)%Z -> (ns * (N / ns) = N)%Z -> (forall x y, f x y = g (N - 1 - x)%Z y) -> rebin N ns f i j = rebin N ns g (ns - 1 - i) j.
Proof.
  intros H0 HD E. unfold rebin. set (b := (N / ns)%Z) in *. f_equal. destruct (Z_lt_ge_dec b 0) as [L|L].
  { unfold rsum. destruct b; try lia. reflexivity. }
  rewrite (rsum_rev b (fun p => _ / IZR b)) by lia. apply rsum_ext. intros p Hp. f_equal. apply rsum_ext. intros q Hq. rewrite E. f_equal. nia.
Qed.
Lemma rebin_T N ns f g i j : (forall x y, f x y = g y x) -> rebin N ns f i j = rebin N ns g j i.
Proof.
  intros E. unfold rebin. set (b := (N / ns)%Z). f_equal. 
  rewrite (rsum_ext b _ (fun p => / IZR b * rsum b (fun q => g (j * b + q)%Z (i * b + p)%Z))).
  2:{ intros p Hp. unfold Rdiv. rewrite Rmult_comm. f_equal. apply rsum_ext. intros. apply E. }
  rewrite rsum_scale, rsum_swap, <- rsum_scale. apply rsum_ext. intros q Hq. unfold Rdiv. rewrite Rmult_comm. reflexivity.
Qed.
Lemma detector_mirror c ns maskd mem mem' phase i j : pyr_build (y_N c) (y_P c) (y_n c) (y_sep c) = Ok ns -> (0 < y_N c)%Z -> (0 < y_n c)%Z -> (0 < y_P c)%Z ->
  (32 <= y_nmod c)%Z -> (y_nmod c mod 4 = 0)%Z -> (y_N c mod 2 = 0)%Z -> binary_mask c ->
  same_image (y_N c) (upside_down (y_N c) (y_mask c)) (y_mask c) ->
  pyr_detector c maskd (pyr_write c mem (upside_down (y_N c) phase)) i j = pyr_detector c maskd (pyr_write c mem' phase) (ns - 1 - i) j.
Proof.
  intros HB HN Hn HP H32 H4 HE B M. destruct (built_facts c ns HB HN Hn HP) as (E1 & E2 & E3 & E4 & E5 & E6 & E7).
  assert (X : (if (pyr_bin (y_P c) (y_n c) =? 1)%Z then pyr_intensity c (pyr_write c mem (upside_down (y_N c) phase)) else rebin (y_N c) (pyr_ndet (y_N c) (y_P c) (y_n c)) (pyr_intensity c (pyr_write c mem (upside_down (y_N c) phase)))) i j =
              (if (pyr_bin (y_P c) (y_n c) =? 1)%Z then pyr_intensity c (pyr_write c mem' phase) else rebin (y_N c) (pyr_ndet (y_N c) (y_P c) (y_n c)) (pyr_intensity c (pyr_write c mem' phase))) (ns - 1 - i)%Z j).
  { destruct (Z.eqb_spec (pyr_bin (y_P c) (y_n c)) 1) as [D|D].
    - rewrite (E7 D). apply intensity_mirror; auto.
    - rewrite <- E1. apply rebin_mirror; auto. intros x y. apply intensity_mirror; auto. }
  unfold pyr_detector. cbv zeta. rewrite X. reflexivity.
Qed.
Lemma detector_T c maskd mem mem' phase i j : (32 <= y_nmod c)%Z -> same_image (y_N c) (transposed (y_mask c)) (y_mask c) ->
  pyr_detector c maskd (pyr_write c mem (transposed phase)) i j = pyr_detector c maskd (pyr_write c mem' phase) j i.
Proof.
  intros H32 M.
  assert (X : (if (pyr_bin (y_P c) (y_n c) =? 1)%Z then pyr_intensity c (pyr_write c mem (transposed phase)) else rebin (y_N c) (pyr_ndet (y_N c) (y_P c) (y_n c)) (pyr_intensity c (pyr_write c mem (transposed phase)))) i j =
              (if (pyr_bin (y_P c) (y_n c) =? 1)%Z then pyr_intensity c (pyr_write c mem' phase) else rebin (y_N c) (pyr_ndet (y_N c) (y_P c) (y_n c)) (pyr_intensity c (pyr_write c mem' phase))) j i).
  { destruct (Z.eqb_spec (pyr_bin (y_P c) (y_n c)) 1) as [D|D]; [apply intensity_T; auto|]. apply rebin_T. intros x y. apply intensity_T; auto. }
  unfold pyr_detector. cbv zeta. rewrite X. reflexivity.
Qed.
(** The detector sees the wavefront inside the array only. *)
Lemma detector_phase c maskd mem mem' phase phase' : (32 <= y_nmod c)%Z -> same_image (y_N c) phase phase' -> forall i j,
  pyr_detector c maskd (pyr_write c mem phase) i j = pyr_detector c maskd (pyr_write c mem' phase') i j.
Proof.
  intros H E. apply detector_ext. intros x y. rewrite !intensity_planes by auto. apply rsum_ext. intros k Hk. f_equal. apply filt_ext. intros i j Hi Hj. unfold pyr_field. rewrite (E i j Hi Hj). reflexivity.
Qed.
(** ** Signals *)
Lemma rlsum_perm l l' : Permutation l l' -> rlsum l = rlsum l'.
Proof. induction 1; cbn; try lra; unfold rlsum in *; cbn; lra. Qed.
Lemma filter_map {A B} (f : A -> B) (p : B -> bool) l : filter p (map f l) = map f (filter (fun x => p (f x)) l).
Proof. induction l as [|x l IH]; [reflexivity|]. cbn. destruct (p (f x)); cbn; rewrite IH; reflexivity. Qed.
Lemma perm_filter {A} (p : A -> bool) l l' : Permutation l l' -> Permutation (filter p l) (filter p l').
Proof.
  induction 1; cbn; auto.
  - destruct (p x); auto.
  - destruct (p x), (p y); auto. constructor.
  - etransitivity; eauto.
Qed.
Lemma filter_ext_raster h p q : (forall r c, (0 <= r < h)%Z -> (0 <= c < h)%Z -> p (r, c) = q (r, c)) -> filter p (raster h) = filter q (raster h).
Proof. intro H. apply filter_ext_in. intros [r c] I. apply raster_In in I as [Hr Hc]. apply H; auto. Qed.
Lemma sum_raster h (fl : Z * Z -> Z * Z) (p : Z * Z -> bool) (g : Z * Z -> R) : (forall x, fl (fl x) = x) -> (forall x, In x (raster h) -> In (fl x) (raster h)) ->
  rlsum (map (fun x => g (fl x)) (filter (fun x => p (fl x)) (raster h))) = rlsum (map g (filter p (raster h))).
Proof.
  intros INV IN. assert (ND : NoDup (raster h)) by (apply list_prod_NoDup; apply zseq_NoDup).
  assert (P : Permutation (map fl (raster h)) (raster h)).
  { apply NoDup_Permutation; auto.
    - apply FinFun.Injective_map_NoDup; auto. intros x y E. rewrite <- (INV x), E. apply INV.
    - intros x. rewrite in_map_iff. split; [intros (y & <- & H); auto|]. intro H. exists (fl x). auto. }
  rewrite <- (map_map fl g). rewrite <- (filter_map fl p). apply rlsum_perm. apply Permutation_map. apply perm_filter. exact P.
Qed.
Lemma quad_mirror c ns d d' a b : ns = pyr_ndet (y_N c) (y_P c) (y_n c) -> (ns mod 2 = 0)%Z -> (forall i j, d' i j = d (ns - 1 - i)%Z j) ->
  rlsum (quad_flux c d' a b) = rlsum (quad_flux c d (negb a) b).
Proof.
  intros En E D. unfold quad_flux. cbv zeta. rewrite <- En. pose proof (Z.div_mod ns 2 ltac:(lia)) as DM. rewrite E in DM. set (h := (ns / 2)%Z) in *.
  rewrite <- (sum_raster h (fun rc => ((h - 1 - fst rc)%Z, snd rc)) _ (fun rc => Rabs (d ((if negb a then h else 0) + fst rc)%Z ((if b then h else 0) + snd rc)%Z))).
  - f_equal. rewrite (filter_ext_raster h _ (fun rc => quad_mask h (y_n c) (y_sep c) (y_sub c) (negb a) b (h - 1 - fst rc) (snd rc))).
    + apply map_ext. intros [r q]. cbn [fst snd]. rewrite D. f_equal. f_equal. destruct a; cbn [negb]; lia.
    + intros r q Hr Hq. cbn [fst snd]. unfold quad_mask. destruct a; cbn [negb]; [reflexivity|]. replace (h - 1 - (h - 1 - r))%Z with r by lia. reflexivity.
  - intros [r q]. cbn. f_equal. lia.
  - intros [r q] I. apply raster_In in I. apply raster_In. cbn. lia.
Qed.
Lemma quad_T c d d' a b : symmetric_subaps c -> (forall i j, d' i j = d j i) -> rlsum (quad_flux c d' a b) = rlsum (quad_flux c d b a).
Proof.
  intros S D. unfold quad_flux. cbv zeta. set (h := (_ / 2)%Z).
  rewrite <- (sum_raster h (fun rc => (snd rc, fst rc)) _ (fun rc => Rabs (d ((if b then h else 0) + fst rc)%Z ((if a then h else 0) + snd rc)%Z))).
  - f_equal. rewrite (filter_ext_raster h _ (fun rc => quad_mask h (y_n c) (y_sep c) (y_sub c) b a (snd rc) (fst rc))).
    + apply map_ext. intros [r q]. cbn [fst snd]. rewrite D. reflexivity.
    + intros r q Hr Hq. cbn [fst snd]. unfold quad_mask. cbv zeta. rewrite S. set (A := pyr_begin _ _ _).
      destruct (A <=? _)%Z, (_ <? A + _)%Z, (A <=? _)%Z, (_ <? A + _)%Z; reflexivity.
  - intros [r q]. reflexivity.
  - intros [r q] I. apply raster_In in I. apply raster_In. cbn. tauto.
Qed.
Lemma zip4_sum f k w x y z a b c d n : (forall p q r s, f p q r s = (w * p + x * q + y * r + z * s) * k) -> length a = n -> length b = n -> length c = n -> length d = n ->
  rlsum (zip4 f a b c d) = (w * rlsum a + x * rlsum b + y * rlsum c + z * rlsum d) * k.
Proof.
  intros H. revert b c d n. unfold rlsum. induction a as [|p a IH]; intros b c d n Ha Hb Hc Hd; destruct b, c, d; cbn in *; subst; try discriminate; [ring|].
  rewrite H, (IH b c d (length a)) by congruence. ring.
Qed.
Lemma raw_signals c d s : raw_slopes c d = Some s ->
  let S a b := rlsum (quad_flux c d a b) in let T := S false false + S false true + S true false + S true true in
  T <> 0 /\ signal_x c s = (S false false + S true false - (S false true + S true true)) / T /\ signal_y c s = (S false false + S false true - (S true false + S true true)) / T.
Proof.
  unfold raw_slopes. set (q1 := quad_flux c d false false). set (q2 := quad_flux c d false true). set (q3 := quad_flux c d true false). set (q4 := quad_flux c d true true).
  cbv zeta. intro H. destruct (Req_EM_T _ 0) as [|NZ]; [discriminate|]. split; [exact NZ|]. injection H as <-. set (T := rlsum q1 + rlsum q2 + rlsum q3 + rlsum q4) in *.
  set (k := (slope_size c / 2)%nat).
  assert (Q : forall a b, length (quad_flux c d a b) = k).
  { intros a b. unfold k, slope_size, quad_flux. cbv zeta. rewrite map_length, quad_count. rewrite Nat.div_mul by lia. reflexivity. }
  unfold signal_x, signal_y. fold k. set (za := zip4 _ q1 q2 q3 q4). set (zb := zip4 _ q1 q2 q3 q4).
  assert (L : length za = k) by (apply zip4_length; apply Q).
  split.
  - rewrite firstn_app, L, Nat.sub_diag, firstn_O, app_nil_r, firstn_all2 by lia. unfold za. rewrite (zip4_sum _ (/ T) 1 (-1) 1 (-1) q1 q2 q3 q4 k); try apply Q; [unfold Rdiv; ring|intros; unfold Rdiv; ring].
  - rewrite skipn_app, L, Nat.sub_diag, skipn_O, skipn_all2, app_nil_l by lia. unfold zb. rewrite (zip4_sum _ (/ T) 1 1 (-1) (-1) q1 q2 q3 q4 k); try apply Q; [unfold Rdiv; ring|intros; unfold Rdiv; ring].
Qed.
Lemma raw_total c d s : raw_slopes c d = Some s -> forall d', 
  rlsum (quad_flux c d' false false) + rlsum (quad_flux c d' false true) + rlsum (quad_flux c d' true false) + rlsum (quad_flux c d' true true) =
  rlsum (quad_flux c d false false) + rlsum (quad_flux c d false true) + rlsum (quad_flux c d true false) + rlsum (quad_flux c d true true) ->
  exists s', raw_slopes c d' = Some s'.
Proof.
  intros H d' E. apply raw_signals in H as (NZ & _). unfold raw_slopes. cbv zeta. rewrite E. destruct (Req_EM_T _ 0); [contradiction|eauto].
Qed.
Lemma raw_mirror c ns d d' s : ns = pyr_ndet (y_N c) (y_P c) (y_n c) -> (ns mod 2 = 0)%Z -> (forall i j, d' i j = d (ns - 1 - i)%Z j) -> raw_slopes c d = Some s ->
  exists s', raw_slopes c d' = Some s' /\ signal_x c s' = signal_x c s /\ signal_y c s' = - signal_y c s.
Proof.
  intros En E D H. pose proof (fun a b => quad_mirror c ns d d' a b En E D) as Q.
  destruct (raw_total c d s H d') as (s' & H'). { rewrite !Q. cbn [negb]. ring. }
  exists s'. split; auto. apply raw_signals in H as (NZ & -> & ->). apply raw_signals in H' as (_ & -> & ->). rewrite !Q. cbn [negb].
  set (S1 := rlsum (quad_flux c d false false)) in *. set (S2 := rlsum (quad_flux c d false true)) in *. set (S3 := rlsum (quad_flux c d true false)) in *. set (S4 := rlsum (quad_flux c d true true)) in *. replace (S3 + S4 + S1 + S2) with (S1 + S2 + S3 + S4) by ring. unfold Rdiv. split; ring.
Qed.
Lemma raw_T c d d' s : symmetric_subaps c -> (forall i j, d' i j = d j i) -> raw_slopes c d = Some s ->
  exists s', raw_slopes c d' = Some s' /\ signal_x c s' = signal_y c s /\ signal_y c s' = signal_x c s.
Proof.
  intros S D H. pose proof (fun a b => quad_T c d d' a b S D) as Q.
  destruct (raw_total c d s H d') as (s' & H'). { rewrite !Q. ring. }
  exists s'. split; auto. apply raw_signals in H as (NZ & -> & ->). apply raw_signals in H' as (_ & -> & ->). rewrite !Q.
  set (S1 := rlsum (quad_flux c d false false)) in *. set (S2 := rlsum (quad_flux c d false true)) in *. set (S3 := rlsum (quad_flux c d true false)) in *. set (S4 := rlsum (quad_flux c d true true)) in *. replace (S1 + S3 + S2 + S4) with (S1 + S2 + S3 + S4) by ring. unfold Rdiv. split; ring.
Qed.
(** ** With the reference subtracted *)
Lemma sub_sum (a b : list R) : length a = length b -> rlsum (map (fun p => fst p - snd p) (combine a b)) = rlsum a - rlsum b.
Proof. revert b. unfold rlsum. induction a as [|x a IH]; intros [|y b] H; cbn in *; try discriminate; [ring|]. rewrite IH by congruence. ring. Qed.
Lemma combine_firstn {A B} (a : list A) (b : list B) k : firstn k (combine a b) = combine (firstn k a) (firstn k b).
Proof. revert a b. induction k as [|k IH]; intros [|x a] [|y b]; cbn; auto; try (destruct (firstn k a); reflexivity). f_equal. apply IH. Qed.
Lemma combine_skipn {A B} (a : list A) (b : list B) k : length a = length b -> skipn k (combine a b) = combine (skipn k a) (skipn k b).
Proof. revert a b. induction k as [|k IH]; intros [|x a] [|y b] H; cbn in *; try discriminate; auto. Qed.
Lemma signals_sub c a b : length a = length b ->
  signal_x c (map (fun p => fst p - snd p) (combine a b)) = signal_x c a - signal_x c b /\ signal_y c (map (fun p => fst p - snd p) (combine a b)) = signal_y c a - signal_y c b.
Proof.
  intro H. unfold signal_x, signal_y. rewrite firstn_map, skipn_map, combine_firstn, combine_skipn by auto. rewrite !sub_sum; auto.
  - rewrite !skipn_length. congruence.
  - rewrite !firstn_length. congruence.
Qed.
Lemma slopes_inv c flat d s : pyr_slopes c flat d = Some s -> exists r, raw_slopes c d = Some r /\ s = map (fun p => fst p - snd p) (combine r flat).
Proof. unfold pyr_slopes. destruct (raw_slopes c d) as [r|]; [|discriminate]. intro H. injection H as <-. eauto. Qed.
Lemma frame_mirror c ns m0 flat destroy destroy' mem mem' phase phase' s :
  pyr_build (y_N c) (y_P c) (y_n c) (y_sep c) = Ok ns -> (0 < y_N c)%Z -> (2 <= y_n c <= y_P c)%Z -> (0 <= y_sep c <= ns)%Z ->
  (32 <= y_nmod c)%Z -> (y_nmod c mod 4 = 0)%Z -> binary_mask c -> same_image (y_N c) (upside_down (y_N c) (y_mask c)) (y_mask c) ->
  flat_slopes c m0 = Some flat -> same_image (y_N c) phase' (upside_down (y_N c) phase) -> fst (pyr_frame c flat destroy mem phase) = Some s ->
  exists s', fst (pyr_frame c flat destroy' mem' phase') = Some s' /\ signal_x c s' = signal_x c s /\ signal_y c s' = - signal_y c s.
Proof.
  intros HB HN Hn Hsep H32 H4 B M Hf HP H. destruct (built_facts c ns HB HN ltac:(lia) ltac:(lia)) as (En & _).
  pose proof HB as HB'. apply build_iff in HB' as (_ & HE & Hns & _); [|lia|auto|lia].
  unfold pyr_frame in *. cbn [fst] in *. apply slopes_inv in H as (r & Hr & ->).
  assert (D : forall i j, pyr_detector c false (pyr_write c mem' phase') i j = pyr_detector c false (pyr_write c mem phase) (ns - 1 - i) j).
  { intros i j. rewrite (detector_phase c false mem' mem' phase' (upside_down (y_N c) phase)) by auto. apply detector_mirror; auto; lia. }
  destruct (raw_mirror c ns _ _ r En Hns D Hr) as (r' & Hr' & X & Y). unfold pyr_slopes. rewrite Hr'. eexists. split; [reflexivity|].
  unfold flat_slopes in Hf.
  assert (DF : forall i j, pyr_detector c true (pyr_write c m0 (y_mask c)) i j = pyr_detector c true (pyr_write c m0 (y_mask c)) (ns - 1 - i) j).
  { intros i j. rewrite (detector_phase c true m0 m0 (y_mask c) (upside_down (y_N c) (y_mask c))) at 1 by (auto; intros a b Ha Hb; symmetry; apply M; auto). apply detector_mirror; auto; lia. }
  destruct (raw_mirror c ns _ _ flat En Hns DF Hf) as (f' & Hf' & FX & FY). rewrite Hf in Hf'. injection Hf' as <-.
  assert (Lf := raw_length _ _ _ Hf). assert (Lr := raw_length _ _ _ Hr). assert (Lr' := raw_length _ _ _ Hr').
  destruct (signals_sub c r flat ltac:(congruence)) as [-> ->]. destruct (signals_sub c r' flat ltac:(congruence)) as [-> ->]. lra.
Qed.
Lemma frame_T c m0 flat destroy destroy' mem mem' phase phase' s :
  (32 <= y_nmod c)%Z -> same_image (y_N c) (transposed (y_mask c)) (y_mask c) -> symmetric_subaps c ->
  flat_slopes c m0 = Some flat -> same_image (y_N c) phase' (transposed phase) -> fst (pyr_frame c flat destroy mem phase) = Some s ->
  exists s', fst (pyr_frame c flat destroy' mem' phase') = Some s' /\ signal_x c s' = signal_y c s /\ signal_y c s' = signal_x c s.
Proof.
  intros H32 M S Hf HP H. unfold pyr_frame in *. cbn [fst] in *. apply slopes_inv in H as (r & Hr & ->).
  assert (D : forall i j, pyr_detector c false (pyr_write c mem' phase') i j = pyr_detector c false (pyr_write c mem phase) j i).
  { intros i j. rewrite (detector_phase c false mem' mem' phase' (transposed phase)) by auto. apply detector_T; auto. }
  destruct (raw_T c _ _ r S D Hr) as (r' & Hr' & X & Y). unfold pyr_slopes. rewrite Hr'. eexists. split; [reflexivity|].
  unfold flat_slopes in Hf.
  assert (DF : forall i j, pyr_detector c true (pyr_write c m0 (y_mask c)) i j = pyr_detector c true (pyr_write c m0 (y_mask c)) j i).
  { intros i j. rewrite (detector_phase c true m0 m0 (y_mask c) (transposed (y_mask c))) at 1 by (auto; intros a b Ha Hb; symmetry; apply M; auto). apply detector_T; auto. }
  destruct (raw_T c _ _ flat S DF Hf) as (f' & Hf' & FX & FY). rewrite Hf in Hf'. injection Hf' as <-.
  assert (Lf := raw_length _ _ _ Hf). assert (Lr := raw_length _ _ _ Hr). assert (Lr' := raw_length _ _ _ Hr').
  destruct (signals_sub c r flat ltac:(congruence)) as [-> ->]. destruct (signals_sub c r' flat ltac:(congruence)) as [-> ->]. lra.
Qed.

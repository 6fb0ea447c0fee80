From Coq Require Import Reals.
From Coquelicot Require Import Complex.
From Verif.Base Require Import Vec CSum CSumFacts PyFacts.
From Verif.Model Require Import Numerics Science LgsReal.
From Verif.Spec Require Import LgsSpec.
From Verif.Proofs Require Import NumericsProofs ScienceFourier.
From Coq Require Import Lra Lia.
Open Scope Z_scope.
Open Scope R_scope.

(** ** Path differences *)
Lemma focal_sag lambda D h H : focal_path lambda D h H H = 2 * PI / lambda * (sag D h - sag D H).
Proof. unfold focal_path, sag. ring. Qed.
Lemma focal_centre lambda D H : focal_path lambda D H H H = 0.
Proof. rewrite focal_sag. ring. Qed.
Lemma tilt_centre lambda D d gs gsH H : tilt_path lambda D d gs gsH gsH H = 0.
Proof. unfold tilt_path. replace (gsH - gsH) with 0 by ring. rewrite Rplus_0_l. ring. Qed.
Lemma tilt_on_axis lambda D h gsH H : tilt_path lambda D 0 0 h gsH H = 0.
Proof.
  unfold tilt_path. set (K := h - gsH + H). replace (0 / H - 0) with 0 by (unfold Rdiv; ring).
  replace ((K * 0 - 0 - D / 2) * (K * 0 - 0 - D / 2)) with ((D / 2 - 0 + K * 0) * (D / 2 - 0 + K * 0)) by field.
  replace ((H * 0 - 0 - D / 2) * (H * 0 - 0 - D / 2)) with ((D / 2 - 0 + H * 0) * (D / 2 - 0 + H * 0)) by field. ring.
Qed.
Lemma sag_dec D h h' : 0 < D -> 0 <= h < h' -> sag D h' < sag D h.
Proof.
  intros HD [H0 H1]. unfold sag. set (r := D / 2 * (D / 2)). assert (Hr : 0 < r) by (unfold r; apply Rmult_lt_0_compat; lra).
  assert (A : 0 < r + h * h) by (pose proof (Rmult_le_pos h h H0 H0); lra). assert (H0' : 0 <= h') by lra.
  assert (B : 0 < r + h' * h') by (pose proof (Rmult_le_pos h' h' H0' H0'); lra).
  pose proof (sqrt_lt_R0 _ A) as SA. pose proof (sqrt_lt_R0 _ B) as SB. pose proof (sqrt_sqrt _ (Rlt_le _ _ A)) as QA. pose proof (sqrt_sqrt _ (Rlt_le _ _ B)) as QB.
  set (a := sqrt (r + h * h)) in *. set (b := sqrt (r + h' * h')) in *.
  assert (La : h < a) by (apply Rnot_le_lt; intros X; pose proof (Rmult_le_compat a h a h ltac:(lra) ltac:(lra) X X); lra).
  assert (Lb : h' < b) by (apply Rnot_le_lt; intros X; pose proof (Rmult_le_compat b h' b h' ltac:(lra) ltac:(lra) X X); lra).
  assert (E : (b - a) * (b + a) = (h' - h) * (h' + h)) by (replace ((b - a) * (b + a)) with (b * b - a * a) by ring; rewrite QA, QB; ring).
  apply Rnot_le_lt. intros X. assert (X' : h' - h <= b - a) by lra.
  assert (Y : (h' - h) * (b + a) <= (b - a) * (b + a)) by (apply Rmult_le_compat_r; lra).
  rewrite E in Y. apply Rmult_le_reg_l in Y; lra.
Qed.
Lemma focal_sign lambda D h H : 0 < lambda -> 0 < D -> 0 <= h -> 0 <= H ->
  (H < h -> focal_path lambda D h H H < 0) /\ (h < H -> 0 < focal_path lambda D h H H).
Proof.
  intros Hl HD Hh HH. rewrite focal_sag. assert (P : 0 < 2 * PI / lambda) by (apply Rdiv_lt_0_compat; [pose proof PI_RGT_0; lra | exact Hl]).
  split; intros L.
  - pose proof (sag_dec D H h HD ltac:(lra)) as Q. replace 0 with (2 * PI / lambda * 0) by ring. apply Rmult_lt_compat_l; lra.
  - pose proof (sag_dec D h H HD ltac:(lra)) as Q. apply Rmult_lt_0_compat; lra.
Qed.
Lemma focal_mismatch lambda D gsH H : 0 < lambda -> 0 <= gsH -> 0 <= H -> gsH <> H -> focal_path lambda D gsH gsH H <> 0.
Proof.
  intros Hl Hg HH Hne. unfold focal_path. assert (P : 2 * PI / lambda <> 0) by (apply Rgt_not_eq, Rdiv_lt_0_compat; [pose proof PI_RGT_0; lra | exact Hl]).
  apply Rmult_integral_contrapositive. split; [exact P|]. intros E. assert (S : sqrt (D / 2 * (D / 2) + gsH * gsH) = sqrt (D / 2 * (D / 2) + H * H)) by lra.
  pose proof (Rle_0_sqr (D / 2)) as Q. unfold Rsqr in Q. pose proof (Rle_0_sqr gsH) as Q1. pose proof (Rle_0_sqr H) as Q2. unfold Rsqr in *.
  apply sqrt_inj in S; try lra. apply Hne. apply Rsqr_inj; auto. unfold Rsqr. lra.
Qed.

(** ** Convolution *)
Definition e_ (P a : Z) : C := cis (2 * PI * IZR a / IZR P).
Lemma e_add P a b : (0 < P)%Z -> e_ P (a + b) = (e_ P a * e_ P b)%C.
Proof. intros H. unfold e_. rewrite <- cis_add. f_equal. rewrite plus_IZR. field. apply not_0_IZR. lia. Qed.
Lemma e_neg P a : (0 < P)%Z -> cis (- (2 * PI * IZR a / IZR P)) = e_ P (- a).
Proof. intros H. unfold e_. f_equal. rewrite opp_IZR. field. apply not_0_IZR. lia. Qed.
Lemma conv1 P (a b : Z -> C) p : (0 < P)%Z ->
  csum P (fun x => csum P (fun u => a u * e_ P (u * x)) * csum P (fun u => b u * e_ P (u * x)) * e_ P (- (p * x)))%C =
  (RtoC (IZR P) * csum P (fun u => a u * b ((p - u) mod P)%Z))%C.
Proof.
  intros HP.
  transitivity (csum P (fun x => csum P (fun u => csum P (fun w => a u * b w * e_ P ((u + w - p) * x)%Z)))%C).
  { apply csum_ext. intros x _. rewrite <- csum_scale_r, <- csum_scale_r. apply csum_ext. intros u _.
    rewrite <- Cmult_assoc, <- csum_scale_r, <- csum_scale. apply csum_ext. intros w _.
    replace ((u + w - p) * x)%Z with (u * x + (w * x + - (p * x)))%Z by ring. rewrite !e_add by exact HP. ring. }
  rewrite csum_swap, <- csum_scale. apply csum_ext. intros u Hu. rewrite csum_swap.
  transitivity (csum P (fun w => a u * b w * (if ((u + w - p) mod P =? 0)%Z then RtoC (IZR P) else RtoC 0)))%C.
  { apply csum_ext. intros w _. rewrite csum_scale. f_equal. apply (root_sum P (u + w - p) HP). }
  pose proof (Z.mod_pos_bound (p - u) P HP) as B.
  rewrite (csum_single P ((p - u) mod P)%Z); [|exact B|].
  - replace ((u + (p - u) mod P - p) mod P)%Z with 0%Z; [rewrite Z.eqb_refl; ring|].
    pose proof (Z.div_mod (p - u) P ltac:(lia)). replace (u + (p - u) mod P - p)%Z with ((- ((p - u) / P)) * P)%Z by lia. rewrite Z.mod_mul; lia.
  - intros w Hw Hne. destruct (Z.eqb_spec ((u + w - p) mod P) 0) as [E|E]; [|ring]. exfalso. apply Hne.
    apply Z.mod_divide in E; [|lia]. destruct E as (q & E). apply (Z.mod_unique _ _ (- q)); lia.
Qed.
Definition raw_idft (P : Z) (a : Z -> Z -> C) (x y : Z) : C := csum P (fun v => csum P (fun u => a u v * e_ P (u * x)) * e_ P (v * y))%C.
Lemma idft_raw P a x y : idft2 P a x y = (RtoC (/ (IZR P * IZR P)) * raw_idft P a x y)%C.
Proof.
  unfold idft2, raw_idft. f_equal. transitivity (csum P (fun u => csum P (fun v => a u v * e_ P (v * y) * e_ P (u * x))))%C.
  { apply csum_ext. intros u _. rewrite <- csum_scale_r. reflexivity. }
  rewrite csum_swap. apply csum_ext. intros v _. rewrite <- csum_scale_r. apply csum_ext. intros u _. ring.
Qed.
Lemma dft_conv P a b p q : (0 < P)%Z ->
  dft2 P (fun x y => raw_idft P a x y * raw_idft P b x y)%C p q =
  (RtoC (IZR P) * (RtoC (IZR P) * csum P (fun v => csum P (fun u => a u v * b ((p - u) mod P)%Z ((q - v) mod P)%Z))))%C.
Proof.
  intros HP. unfold dft2.
  transitivity (csum P (fun x => RtoC (IZR P) * csum P (fun v => csum P (fun u => a u v * e_ P (u * x)) * csum P (fun u => b u ((q - v) mod P)%Z * e_ P (u * x))) * e_ P (- (p * x))))%C.
  { apply csum_ext. intros x _. rewrite (e_neg P (p * x) HP). f_equal.
    rewrite <- (conv1 P (fun v => csum P (fun u => a u v * e_ P (u * x)))%C (fun v => csum P (fun u => b u v * e_ P (u * x)))%C q HP).
    apply csum_ext. intros y _. rewrite (e_neg P (q * y) HP). reflexivity. }
  transitivity (RtoC (IZR P) * csum P (fun v => csum P (fun x => csum P (fun u => a u v * e_ P (u * x)) * csum P (fun u => b u ((q - v) mod P)%Z * e_ P (u * x)) * e_ P (- (p * x)))))%C.
  { rewrite csum_swap, <- csum_scale. apply csum_ext. intros x _. rewrite <- Cmult_assoc, <- csum_scale_r. f_equal. }
  f_equal. rewrite <- csum_scale. apply csum_ext. intros v _.
  apply (conv1 P (fun u => a u v) (fun u => b u ((q - v) mod P)%Z) p HP).
Qed.
Lemma csum_RR n m (f : Z -> Z -> R) : csum n (fun i => csum m (fun j => RtoC (f i j))) = RtoC (rsum n (fun i => rsum m (fun j => f i j))).
Proof. rewrite <- csum_R. apply csum_ext. intros. apply csum_R. Qed.
Lemma uplink_at P a b p q : (0 < P)%Z ->
  dft2 P (fun x y => idft2 P (fun i j => RtoC (a i j)) x y * idft2 P (fun i j => RtoC (b i j)) x y)%C p q =
  RtoC (/ (IZR P * IZR P) * rsum P (fun u => rsum P (fun v => a u v * b ((p - u) mod P)%Z ((q - v) mod P)%Z))).
Proof.
  intros HP. set (k := / (IZR P * IZR P)). assert (NP : IZR P <> 0) by (apply not_0_IZR; lia).
  transitivity (dft2 P (fun x y => RtoC (k * k) * (raw_idft P (fun i j => RtoC (a i j)) x y * raw_idft P (fun i j => RtoC (b i j)) x y))%C p q).
  { apply dft2_ext. intros x y _ _. rewrite !idft_raw. fold k. rewrite RtoC_mult. ring. }
  rewrite dft2_hom, dft_conv by exact HP. rewrite csum_swap.
  transitivity (RtoC (k * k) * (RtoC (IZR P) * (RtoC (IZR P) * RtoC (rsum P (fun u => rsum P (fun v => a u v * b ((p - u) mod P)%Z ((q - v) mod P)%Z)%R)))))%C.
  { do 3 f_equal. rewrite <- csum_RR. apply csum_ext. intros u _. apply csum_ext. intros v _. rewrite RtoC_mult. reflexivity. }
  rewrite <- !RtoC_mult. f_equal. unfold k. field. auto.
Qed.
Lemma quad_rev h i : (0 < h)%Z -> (0 <= i < 2 * h)%Z -> quad_ix (2 * h) (2 * h - 1 - i) = ((i + h) mod (2 * h))%Z.
Proof.
  intros Hh Hi. rewrite quad_ix_even; [|rewrite Z.even_mul; reflexivity | lia].
  replace (2 * h / 2)%Z with h by (rewrite Z.mul_comm, Z.div_mul; lia). replace (2 * h - 1 - (2 * h - 1 - i) - h)%Z with (i + h + (-1) * (2 * h))%Z by ring.
  rewrite Z.mod_add by lia. reflexivity.
Qed.
Lemma uplink_conv h a b i j : (0 < h)%Z -> (0 <= i < 2 * h)%Z -> (0 <= j < 2 * h)%Z ->
  apply_uplink (2 * h) a b i j = convolved (2 * h) h a b i j / (IZR (2 * h) * IZR (2 * h)).
Proof.
  intros Hh Hi Hj. unfold apply_uplink, ft_shift. rewrite !quad_rev by auto. rewrite uplink_at by lia. cbn [fst RtoC].
  unfold convolved, Rdiv. rewrite Rmult_comm. f_equal. apply rsum_ext. intros u _. apply rsum_ext. intros v _. f_equal. f_equal; rewrite Zminus_mod_idemp_l; reflexivity.
Qed.
Lemma rsum_scale_r n c f : rsum n (fun i => f i * c) = rsum n f * c.
Proof. rewrite Rmult_comm, <- rsum_scale. apply rsum_ext. intros. ring. Qed.
Lemma shifted_sum P c s f : (0 < P)%Z -> rsum P (fun i => f ((i + c - s) mod P)%Z) = rsum P f.
Proof.
  intros HP. rewrite <- (rsum_cyclic P ((c - s) mod P) f) by (apply Z.mod_pos_bound; lia). apply rsum_ext. intros i _. f_equal.
  rewrite Zplus_mod_idemp_r. f_equal. lia.
Qed.
Lemma conv_light P c a b : (0 < P)%Z -> light P (convolved P c a b) = light P a * light P b.
Proof.
  intros HP. unfold light, convolved.
  transitivity (rsum P (fun s => rsum P (fun t => a s t * rsum P (fun i => rsum P (fun j => b ((i + c - s) mod P)%Z ((j + c - t) mod P)%Z))))).
  { transitivity (rsum P (fun i => rsum P (fun s => rsum P (fun j => rsum P (fun t => a s t * b ((i + c - s) mod P)%Z ((j + c - t) mod P)%Z))))).
    { apply rsum_ext. intros i _. apply rsum_swap. }
    rewrite rsum_swap. apply rsum_ext. intros s _.
    transitivity (rsum P (fun i => rsum P (fun t => rsum P (fun j => a s t * b ((i + c - s) mod P)%Z ((j + c - t) mod P)%Z)))).
    { apply rsum_ext. intros i _. apply rsum_swap. }
    rewrite rsum_swap. apply rsum_ext. intros t _. rewrite <- rsum_scale. apply rsum_ext. intros i _. apply rsum_scale. }
  rewrite <- rsum_scale_r. apply rsum_ext. intros s _. rewrite <- rsum_scale_r. apply rsum_ext. intros t _. f_equal.
  transitivity (rsum P (fun i => rsum P (fun j => b ((i + c - s) mod P)%Z j))).
  { apply rsum_ext. intros i _. apply (shifted_sum P c t (fun j => b ((i + c - s) mod P)%Z j) HP). }
  apply (shifted_sum P c s (fun i => rsum P (fun j => b i j)) HP).
Qed.
Lemma rsumn_single n k f : (0 <= k < Z.of_nat n)%Z -> (forall i, (0 <= i < Z.of_nat n)%Z -> i <> k -> f i = 0) -> rsumn n f = f k.
Proof.
  intros Hk H. assert (E : csumn n (fun i => RtoC (f i)) = RtoC (f k)).
  { apply (csumn_single n k (fun i => RtoC (f i))); auto. intros i Hi Hne. rewrite H; auto. }
  pose proof (csum_R (Z.of_nat n) f) as Q. unfold csum, rsum in Q. rewrite Nat2Z.id in Q. rewrite Q in E. injection E. auto.
Qed.
Lemma rsum_single n k f : (0 <= k < n)%Z -> (forall i, (0 <= i < n)%Z -> i <> k -> f i = 0) -> rsum n f = f k.
Proof. intros Hk H. apply rsumn_single; rewrite Z2Nat.id by lia; auto. Qed.
Lemma mod_solve P i c s k : (0 < P)%Z -> (0 <= s < P)%Z -> (0 <= k < P)%Z -> (((i + c - s) mod P = k)%Z <-> s = ((i + c - k) mod P)%Z).
Proof.
  intros HP Hs Hk. split; intros E.
  - pose proof (Z.div_mod (i + c - s) P ltac:(lia)). apply (Z.mod_unique _ _ ((i + c - s) / P)); lia.
  - pose proof (Z.div_mod (i + c - k) P ltac:(lia)). symmetry. apply (Z.mod_unique _ _ ((i + c - k) / P)); lia.
Qed.
Lemma conv_point P c a w k l i j : (0 < P)%Z -> (0 <= k < P)%Z -> (0 <= l < P)%Z ->
  convolved P c a (point w k l) i j = w * a ((i + c - k) mod P)%Z ((j + c - l) mod P)%Z.
Proof.
  intros HP Hk Hl. unfold convolved. set (s0 := ((i + c - k) mod P)%Z). set (t0 := ((j + c - l) mod P)%Z).
  assert (S : (0 <= s0 < P)%Z) by (apply Z.mod_pos_bound; lia). assert (T : (0 <= t0 < P)%Z) by (apply Z.mod_pos_bound; lia).
  rewrite (rsum_single P s0); [|exact S|].
  - rewrite (rsum_single P t0); [|exact T|].
    + unfold point. rewrite (proj2 (mod_solve P i c s0 k HP S Hk) eq_refl), (proj2 (mod_solve P j c t0 l HP T Hl) eq_refl), !Z.eqb_refl. cbn [andb]. ring.
    + intros t Ht Hne. unfold point. destruct (Z.eqb_spec ((j + c - t) mod P) l) as [E|E]; [apply (mod_solve P j c t l HP Ht Hl) in E; contradiction|].
      rewrite Bool.andb_false_r. ring.
  - intros s Hs Hne. apply (eq_trans (y := rsum P (fun _ => 0))); [|unfold rsum; apply rsumn_zero]. apply rsum_ext. intros t _. unfold point.
    destruct (Z.eqb_spec ((i + c - s) mod P) k) as [E|E]; [apply (mod_solve P i c s k HP Hs Hk) in E; contradiction|]. cbn [andb]. ring.
Qed.

(** ** The geometric beacon *)
Lemma quad_centred h i : (0 < h)%Z -> (0 <= i < 2 * h)%Z -> quad_ix (2 * h) i = ((h - 1 - i) mod (2 * h))%Z.
Proof.
  intros Hh Hi. rewrite quad_ix_even; [|rewrite Z.even_mul; reflexivity | lia].
  replace (2 * h / 2)%Z with h by (rewrite Z.mul_comm, Z.div_mul; lia). f_equal. lia.
Qed.
Lemma dft_zero P f : (0 < P)%Z -> dft2 P f 0 0 = csum P (fun i => csum P (fun j => f i j)).
Proof.
  intros HP. unfold dft2. apply csum_ext. intros i _. replace (- (2 * PI * IZR (0 * i) / IZR P)) with 0 by (rewrite Z.mul_0_l; field; apply not_0_IZR; lia).
  rewrite cis_0, Cmult_1_r. apply csum_ext. intros j _. replace (- (2 * PI * IZR (0 * j) / IZR P)) with 0 by (rewrite Z.mul_0_l; field; apply not_0_IZR; lia).
  rewrite cis_0, Cmult_1_r. reflexivity.
Qed.
Lemma dft_le P f u v : Cmod (dft2 P f u v) <= rsum P (fun i => rsum P (fun j => Cmod (f i j))).
Proof.
  unfold dft2. eapply Rle_trans; [apply cmod_csum|]. apply rsum_le. intros i _. rewrite Cmod_mult, cmod_cis, Rmult_1_r.
  eapply Rle_trans; [apply cmod_csum|]. apply rsum_le. intros j _. rewrite Cmod_mult, cmod_cis, Rmult_1_r. apply Rle_refl.
Qed.
(** a flat wavefront through any transmission [m] peaks at (h-1, h-1) *)
Lemma flat_beacon_peak h n (m : Z -> Z -> R) i j : (0 < h)%Z -> (forall a b, 0 <= m a b) -> (0 <= i < 2 * h)%Z -> (0 <= j < 2 * h)%Z ->
  beacon_psf (2 * h) n (fun a b => RtoC (m a b)) i j <= beacon_psf (2 * h) n (fun a b => RtoC (m a b)) (h - 1) (h - 1).
Proof.
  intros Hh Hm Hi Hj. unfold beacon_psf, ft_shift. rewrite (quad_centred h (h - 1)) by lia. replace (h - 1 - (h - 1))%Z with 0%Z by lia. rewrite Z.mod_0_l by lia.
  set (f := fun a b => if ((a <? n) && (b <? n))%Z%bool then RtoC (m a b) else RtoC 0).
  set (g := fun a b => if ((a <? n) && (b <? n))%Z%bool then m a b else 0).
  assert (G : forall a b, f a b = RtoC (g a b) /\ Cmod (f a b) = g a b).
  { intros a b. unfold f, g. destruct ((a <? n) && (b <? n))%Z%bool; (split; [reflexivity|]); rewrite Cmod_R; [apply Rabs_pos_eq, Hm | apply Rabs_R0]. }
  rewrite dft_zero by lia. rewrite !cnorm2_mod.
  assert (Z0 : csum (2 * h) (fun a => csum (2 * h) (fun b => f a b)) = RtoC (rsum (2 * h) (fun a => rsum (2 * h) (fun b => g a b)))).
  { rewrite <- csum_RR. apply csum_ext. intros a _. apply csum_ext. intros b _. apply G. }
  rewrite Z0, Cmod_R. rewrite Rabs_pos_eq.
  2:{ apply rsum_nonneg. intros a _. apply rsum_nonneg. intros b _. unfold g. destruct ((a <? n) && (b <? n))%Z%bool; [apply Hm | lra]. }
  assert (L : Cmod (dft2 (2 * h) f (quad_ix (2 * h) i) (quad_ix (2 * h) j)) <= rsum (2 * h) (fun a => rsum (2 * h) (fun b => g a b))).
  { eapply Rle_trans; [apply dft_le|]. apply Req_le. apply rsum_ext. intros a _. apply rsum_ext. intros b _. apply G. }
  pose proof (Cmod_ge_0 (dft2 (2 * h) f (quad_ix (2 * h) i) (quad_ix (2 * h) j))). apply Rmult_le_compat; auto.
Qed.
Lemma full_flat_beacon h i j : (0 < h)%Z -> (0 <= i < 2 * h)%Z -> (0 <= j < 2 * h)%Z ->
  beacon_psf (2 * h) (2 * h) (fun _ _ => RtoC 1) i j = point (IZR (2 * h) ^ 4) (h - 1) (h - 1) i j.
Proof.
  intros Hh Hi Hj. set (P := (2 * h)%Z). assert (HP : (0 < P)%Z) by (unfold P; lia).
  unfold beacon_psf, ft_shift. set (p := quad_ix P i). set (q := quad_ix P j).
  assert (D : dft2 P (fun a b => if ((a <? P) && (b <? P))%Z%bool then RtoC 1 else RtoC 0) p q =
    ((if (p mod P =? 0)%Z then RtoC (IZR P) else RtoC 0) * (if (q mod P =? 0)%Z then RtoC (IZR P) else RtoC 0))%C).
  { rewrite (dft2_ext P _ (fun _ _ => RtoC 1)).
    2:{ intros a b Ha Hb. destruct (Z.ltb_spec a P), (Z.ltb_spec b P); try lia. reflexivity. }
    unfold dft2. assert (S : forall r, csum P (fun x => cis (- (2 * PI * IZR (r * x) / IZR P))) = if (r mod P =? 0)%Z then RtoC (IZR P) else RtoC 0).
    { intros r. transitivity (csum P (fun x => cis (2 * PI * IZR ((- r) * x) / IZR P))).
      - apply csum_ext. intros x _. f_equal. rewrite Z.mul_opp_l, opp_IZR. field. apply not_0_IZR. lia.
      - rewrite root_sum by exact HP. destruct (Z.eqb_spec (r mod P) 0) as [E|E].
        + rewrite Z.mod_opp_l_z by lia. reflexivity.
        + destruct (Z.eqb_spec (- r mod P) 0) as [E2|E2]; [|reflexivity]. exfalso. apply E. rewrite <- (Z.opp_involutive r), Z.mod_opp_l_z; lia. }
    rewrite csum_scale. rewrite S. rewrite Cmult_comm. f_equal. rewrite <- S. apply csum_ext. intros x _. ring. }
  rewrite D. unfold p, q, P. rewrite !quad_centred by auto. rewrite !Zmod_mod.
  assert (Z0 : forall k, (0 <= k < 2 * h)%Z -> ((h - 1 - k) mod (2 * h) =? 0)%Z = (k =? h - 1)%Z).
  { intros k Hk. destruct (Z.eqb_spec k (h - 1)) as [->|E].
    - replace (h - 1 - (h - 1))%Z with 0%Z by lia. rewrite Z.mod_0_l by lia. reflexivity.
    - apply Z.eqb_neq. intros X. apply Z.mod_divide in X; [|lia]. destruct X as (t & X). apply E. assert (t = 0)%Z by nia. subst. lia. }
  rewrite !Z0 by auto. unfold point. destruct (i =? h - 1)%Z, (j =? h - 1)%Z; cbn [andb]; rewrite ?cnorm2_mul, ?cnorm2_R; unfold cnorm2; cbn [fst snd Cmult RtoC]; ring.
Qed.
Lemma uplink_ext P a b b' i j : (0 < P)%Z -> (forall i j, (0 <= i < P)%Z -> (0 <= j < P)%Z -> b i j = b' i j) -> apply_uplink P a b i j = apply_uplink P a b' i j.
Proof.
  intros HP H. unfold apply_uplink, ft_shift. f_equal. apply dft2_ext. intros x y _ _. f_equal. apply idft2_ext. intros u v Hu Hv. rewrite H; auto.
Qed.
Lemma flat_beacon_shifts h a i j : (0 < h)%Z -> (0 <= i < 2 * h)%Z -> (0 <= j < 2 * h)%Z ->
  apply_uplink (2 * h) a (beacon_psf (2 * h) (2 * h) (fun _ _ => RtoC 1)) i j = IZR (2 * h) ^ 2 * a ((i + 1) mod (2 * h))%Z ((j + 1) mod (2 * h))%Z.
Proof.
  intros Hh Hi Hj. rewrite (uplink_ext _ _ _ (point (IZR (2 * h) ^ 4) (h - 1) (h - 1))) by (try lia; intros; apply full_flat_beacon; auto; lia).
  rewrite uplink_conv, conv_point by lia. replace (i + h - (h - 1))%Z with (i + 1)%Z by lia. replace (j + h - (h - 1))%Z with (j + 1)%Z by lia. field. apply not_0_IZR. lia.
Qed.
Lemma tilt_edges lambda D d gs h H : H <> 0 ->
  tilt_path lambda D d gs h H H = 2 * PI / lambda * (edge_difference D (beamR d gs H h) h - edge_difference D (beamR d gs H H) H).
Proof.
  intros HH. unfold tilt_path, edge_difference. cbv zeta. replace (h - H + H) with h by ring.
  assert (B : forall k, beamR d gs H k = d - k * (d / H - gs)) by (intros; unfold beamR; field; auto). rewrite !B.
  replace ((h * (d / H - gs) - d - D / 2) * (h * (d / H - gs) - d - D / 2)) with ((d - h * (d / H - gs) + D / 2) * (d - h * (d / H - gs) + D / 2)) by ring.
  replace ((H * (d / H - gs) - d - D / 2) * (H * (d / H - gs) - d - D / 2)) with ((d - H * (d / H - gs) + D / 2) * (d - H * (d / H - gs) + D / 2)) by ring.
  replace (D / 2 - d + H * (d / H - gs)) with (D / 2 - (d - H * (d / H - gs))) by ring.
  replace (D / 2 - d + h * (d / H - gs)) with (D / 2 - (d - h * (d / H - gs))) by ring. ring.
Qed.

From Coq Require Import Reals.
From Coquelicot Require Import Complex.
From Verif.Base Require Import Vec CSum CSumFacts PyFacts.
From Verif.Model Require Import Numerics Convolve.
From Verif.Spec Require Import NumericsSpec FourierSpec.
From Verif.Proofs Require Import NumericsProofs LgsRealProofs.
From Coq Require Import Lra Lia.
Open Scope Z_scope.
Open Scope R_scope.

Definition raw_idftr (P Q : Z) (a : Z -> Z -> C) (x y : Z) : C := csum Q (fun v => csum P (fun u => a u v * e_ P (u * x)) * e_ Q (v * y))%C.
Lemma idftr_raw P Q a x y : idftr P Q a x y = (RtoC (/ (IZR P * IZR Q)) * raw_idftr P Q a x y)%C.
Proof.
  unfold idftr, raw_idftr. f_equal. transitivity (csum P (fun u => csum Q (fun v => a u v * e_ Q (v * y) * e_ P (u * x))))%C.
  { apply csum_ext. intros u _. rewrite <- csum_scale_r. reflexivity. }
  rewrite csum_swap. apply csum_ext. intros v _. rewrite <- csum_scale_r. apply csum_ext. intros u _. ring.
Qed.
Lemma dftr_conv P Q a b p q : (0 < P)%Z -> (0 < Q)%Z ->
  dftr P Q (fun x y => raw_idftr P Q a x y * raw_idftr P Q b x y)%C p q =
  (RtoC (IZR Q) * (RtoC (IZR P) * csum Q (fun v => csum P (fun u => a u v * b ((p - u) mod P)%Z ((q - v) mod Q)%Z))))%C.
Proof.
  intros HP HQ. unfold dftr.
  transitivity (csum P (fun x => RtoC (IZR Q) * csum Q (fun v => csum P (fun u => a u v * e_ P (u * x)) * csum P (fun u => b u ((q - v) mod Q)%Z * e_ P (u * x))) * e_ P (- (p * x))))%C.
  { apply csum_ext. intros x _. rewrite (e_neg P (p * x) HP). f_equal.
    rewrite <- (conv1 Q (fun v => csum P (fun u => a u v * e_ P (u * x)))%C (fun v => csum P (fun u => b u v * e_ P (u * x)))%C q HQ).
    apply csum_ext. intros y _. rewrite (e_neg Q (q * y) HQ). reflexivity. }
  transitivity (RtoC (IZR Q) * csum Q (fun v => csum P (fun x => csum P (fun u => a u v * e_ P (u * x)) * csum P (fun u => b u ((q - v) mod Q)%Z * e_ P (u * x)) * e_ P (- (p * x)))))%C.
  { rewrite csum_swap, <- csum_scale. apply csum_ext. intros x _. rewrite <- Cmult_assoc, <- csum_scale_r. f_equal. }
  f_equal. rewrite <- csum_scale. apply csum_ext. intros v _.
  apply (conv1 P (fun u => a u v) (fun u => b u ((q - v) mod Q)%Z) p HP).
Qed.
Lemma dftr_ext P Q f g u v : (forall i j, f i j = g i j) -> dftr P Q f u v = dftr P Q g u v.
Proof. intros H. unfold dftr. apply csum_ext. intros i _. f_equal. apply csum_ext. intros j _. rewrite H. reflexivity. Qed.
Lemma dftr_hom P Q c f u v : dftr P Q (fun i j => c * f i j)%C u v = (c * dftr P Q f u v)%C.
Proof.
  unfold dftr. rewrite <- csum_scale. apply csum_ext. intros i _. rewrite Cmult_assoc. f_equal. rewrite <- csum_scale.
  apply csum_ext. intros j _. ring.
Qed.
(** The forward transform of the product of two inverse transforms. *)
Lemma conv_at P Q a b p q : (0 < P)%Z -> (0 < Q)%Z ->
  dftr P Q (fun x y => idftr P Q (fun i j => RtoC (a i j)) x y * idftr P Q (fun i j => RtoC (b i j)) x y)%C p q =
  RtoC (/ (IZR P * IZR Q) * rsum P (fun u => rsum Q (fun v => a u v * b ((p - u) mod P)%Z ((q - v) mod Q)%Z))).
Proof.
  intros HP HQ. set (k := / (IZR P * IZR Q)). assert (NP : IZR P <> 0) by (apply not_0_IZR; lia). assert (NQ : IZR Q <> 0) by (apply not_0_IZR; lia).
  transitivity (dftr P Q (fun x y => RtoC (k * k) * (raw_idftr P Q (fun i j => RtoC (a i j)) x y * raw_idftr P Q (fun i j => RtoC (b i j)) x y))%C p q).
  { apply dftr_ext. intros x y. rewrite !idftr_raw. fold k. rewrite RtoC_mult. ring. }
  rewrite dftr_hom, dftr_conv by auto. rewrite csum_swap.
  transitivity (RtoC (k * k) * (RtoC (IZR Q) * (RtoC (IZR P) * RtoC (rsum P (fun u => rsum Q (fun v => a u v * b ((p - u) mod P)%Z ((q - v) mod Q)%Z)%R)))))%C.
  { do 3 f_equal. rewrite <- csum_RR. apply csum_ext. intros u _. apply csum_ext. intros v _. rewrite RtoC_mult. reflexivity. }
  rewrite <- !RtoC_mult. f_equal. unfold k. field. auto.
Qed.
(** The inverse transform of the product of two forward transforms: the same with the signs of the exponents
    changed, so without the second division. *)
Lemma conj_e P z : (0 < P)%Z -> Cconj (e_ P z) = e_ P (- z).
Proof.
  intros HP. unfold e_. rewrite cis_conj. f_equal. rewrite opp_IZR. field. apply not_0_IZR. lia.
Qed.
Lemma Cconj_invol z : Cconj (Cconj z) = z.
Proof. destruct z as [x y]. unfold Cconj. cbn. rewrite Ropp_involutive. reflexivity. Qed.
Lemma Cconj_R x : Cconj (RtoC x) = RtoC x.
Proof. unfold Cconj, RtoC. cbn. rewrite Ropp_0. reflexivity. Qed.
Lemma dftr_conj P Q a u v : (0 < P)%Z -> (0 < Q)%Z ->
  dftr P Q (fun i j => RtoC (a i j)) u v = Cconj (raw_idftr P Q (fun i j => RtoC (a i j)) u v).
Proof.
  intros HP HQ. unfold dftr, raw_idftr. rewrite csum_conj.
  transitivity (csum P (fun i => csum Q (fun j => RtoC (a i j) * e_ Q (- (v * j)) * e_ P (- (u * i)))))%C.
  { apply csum_ext. intros i _. rewrite (e_neg P (u * i) HP), <- csum_scale_r. apply csum_ext. intros j _. rewrite (e_neg Q (v * j) HQ). reflexivity. }
  rewrite csum_swap. apply csum_ext. intros j _. rewrite <- cconj_mul, csum_conj, conj_e, <- csum_scale_r by exact HQ.
  apply csum_ext. intros i _. rewrite <- cconj_mul, conj_e, Cconj_R by exact HP.
  rewrite (Z.mul_comm j v), (Z.mul_comm i u). ring.
Qed.
Lemma idftr_conj P Q f i j : (0 < P)%Z -> (0 < Q)%Z -> idftr P Q (fun u v => Cconj (f u v)) i j = (RtoC (/ (IZR P * IZR Q)) * Cconj (dftr P Q f i j))%C.
Proof.
  intros HP HQ. unfold idftr, dftr. f_equal. rewrite csum_conj. apply csum_ext. intros u _. rewrite <- cconj_mul, csum_conj.
  rewrite cis_conj, Ropp_involutive. rewrite (Z.mul_comm i u). f_equal. apply csum_ext. intros v _. rewrite <- cconj_mul, cis_conj, Ropp_involutive.
  rewrite (Z.mul_comm j v). reflexivity.
Qed.
Lemma corr_at P Q a b p q : (0 < P)%Z -> (0 < Q)%Z ->
  idftr P Q (fun u v => dftr P Q (fun i j => RtoC (a i j)) u v * dftr P Q (fun i j => RtoC (b i j)) u v)%C p q =
  RtoC (rsum P (fun u => rsum Q (fun v => a u v * b ((p - u) mod P)%Z ((q - v) mod Q)%Z))).
Proof.
  intros HP HQ. assert (NP : IZR P <> 0) by (apply not_0_IZR; lia). assert (NQ : IZR Q <> 0) by (apply not_0_IZR; lia).
  transitivity (idftr P Q (fun u v => Cconj (raw_idftr P Q (fun i j => RtoC (a i j)) u v * raw_idftr P Q (fun i j => RtoC (b i j)) u v))%C p q).
  { unfold idftr. f_equal. apply csum_ext. intros u _. f_equal. apply csum_ext. intros v _. f_equal. rewrite !dftr_conj by auto. apply cconj_mul. }
  rewrite idftr_conj, dftr_conv by auto. rewrite csum_swap.
  rewrite (csum_ext P _ (fun u => csum Q (fun v => RtoC (a u v * b ((p - u) mod P)%Z ((q - v) mod Q)%Z)))).
  2: { intros u _. apply csum_ext. intros v _. rewrite RtoC_mult. reflexivity. }
  rewrite csum_RR, <- !RtoC_mult, Cconj_R, <- RtoC_mult. f_equal. field. auto.
Qed.

(** ** Circular sums *)
Lemma rsum_shift P s f : (0 < P)%Z -> rsum P (fun i => f ((i + s) mod P)%Z) = rsum P f.
Proof. intros HP. rewrite <- (shifted_sum P s 0 f HP). apply rsum_ext. intros i _. f_equal. f_equal. lia. Qed.
Lemma rsumn_rev n f : rsumn n (fun i => f (Z.of_nat n - 1 - i)%Z) = rsumn n f.
Proof.
  revert f. induction n as [|n IH]; intros f; [reflexivity|]. cbn [rsumn].
  replace (Z.of_nat (Datatypes.S n) - 1 - Z.of_nat n)%Z with 0%Z by lia.
  pose proof (rsumn_split 1 n f) as E. cbn [rsumn] in E. change (1 + n)%nat with (Datatypes.S n) in E. cbn [rsumn] in E. rewrite E.
  rewrite <- (IH (fun i => f (Z.of_nat 1 + i)%Z)). rewrite (rsumn_ext n _ (fun i => f (Z.of_nat 1 + (Z.of_nat n - 1 - i))%Z)).
  - cbn. lra.
  - intros i Hi. f_equal. lia.
Qed.
Lemma rsum_rev n f : (0 <= n)%Z -> rsum n (fun i => f (n - 1 - i)%Z) = rsum n f.
Proof. intros H. unfold rsum. rewrite <- (rsumn_rev (Z.to_nat n) f). rewrite Z2Nat.id by exact H. reflexivity. Qed.
Lemma rsum_reflect P k f : (0 < P)%Z -> rsum P (fun s => f ((k - s) mod P)%Z) = rsum P f.
Proof.
  intros HP. rewrite <- (rsum_rev P (fun s => f ((k - s) mod P)%Z)) by lia. rewrite <- (rsum_shift P (k - (P - 1)) f HP).
  apply rsum_ext. intros i _. f_equal. f_equal. lia.
Qed.
Lemma rsum_reflect2 P Q k l f : (0 < P)%Z -> (0 < Q)%Z -> rsum P (fun s => rsum Q (fun t => f ((k - s) mod P)%Z ((l - t) mod Q)%Z)) = rsum P (fun s => rsum Q (fun t => f s t)).
Proof.
  intros HP HQ. rewrite <- (rsum_reflect P k (fun s => rsum Q (fun t => f s t)) HP). apply rsum_ext. intros s _.
  apply (rsum_reflect Q l (fun t => f ((k - s) mod P)%Z t) HQ).
Qed.
Lemma mod_back P k s : (0 < P)%Z -> (0 <= s < P)%Z -> ((k - (k - s) mod P) mod P = s)%Z.
Proof. intros HP Hs. rewrite Zminus_mod_idemp_r. replace (k - (k - s))%Z with s by lia. apply Z.mod_small. exact Hs. Qed.

Lemma conv_about_comm P Q c d a b i j : (0 < P)%Z -> (0 < Q)%Z -> conv_about P Q c d a b i j = conv_about P Q c d b a i j.
Proof.
  intros HP HQ. unfold conv_about.
  rewrite <- (rsum_reflect2 P Q (i + c) (j + d) (fun s t => b s t * a ((i + c - s) mod P)%Z ((j + d - t) mod Q)%Z) HP HQ).
  apply rsum_ext. intros s Hs. apply rsum_ext. intros t Ht. rewrite !mod_back by auto. ring.
Qed.
Lemma conv_about_total P Q c d a b : (0 < P)%Z -> (0 < Q)%Z -> total P Q (conv_about P Q c d a b) = total P Q a * total P Q b.
Proof.
  intros HP HQ. unfold total, conv_about.
  transitivity (rsum P (fun s => rsum Q (fun t => a s t * rsum P (fun i => rsum Q (fun j => b ((i + c - s) mod P)%Z ((j + d - t) mod Q)%Z))))).
  { transitivity (rsum P (fun i => rsum P (fun s => rsum Q (fun j => rsum Q (fun t => a s t * b ((i + c - s) mod P)%Z ((j + d - t) mod Q)%Z))))).
    { apply rsum_ext. intros i _. apply rsum_swap. }
    rewrite rsum_swap. apply rsum_ext. intros s _.
    transitivity (rsum P (fun i => rsum Q (fun t => rsum Q (fun j => a s t * b ((i + c - s) mod P)%Z ((j + d - t) mod Q)%Z)))).
    { apply rsum_ext. intros i _. apply rsum_swap. }
    rewrite rsum_swap. apply rsum_ext. intros t _. rewrite <- rsum_scale. apply rsum_ext. intros i _. apply rsum_scale. }
  rewrite <- rsum_scale_r. apply rsum_ext. intros s _. rewrite <- rsum_scale_r. apply rsum_ext. intros t _. f_equal.
  transitivity (rsum P (fun i => rsum Q (fun j => b ((i + c - s) mod P)%Z j))).
  { apply rsum_ext. intros i _. apply (shifted_sum Q d t (fun j => b ((i + c - s) mod P)%Z j) HQ). }
  apply (shifted_sum P c s (fun i => rsum Q (fun j => b i j)) HP).
Qed.
Lemma conv_about_star P Q c d a k l i j : (0 < P)%Z -> (0 < Q)%Z -> (0 <= k < P)%Z -> (0 <= l < Q)%Z ->
  conv_about P Q c d a (star k l) i j = a ((i + c - k) mod P)%Z ((j + d - l) mod Q)%Z.
Proof.
  intros HP HQ Hk Hl. unfold conv_about. set (s0 := ((i + c - k) mod P)%Z). set (t0 := ((j + d - l) mod Q)%Z).
  assert (S : (0 <= s0 < P)%Z) by (apply Z.mod_pos_bound; lia). assert (T : (0 <= t0 < Q)%Z) by (apply Z.mod_pos_bound; lia).
  rewrite (rsum_single P s0); [|exact S|].
  - rewrite (rsum_single Q t0); [|exact T|].
    + unfold star. rewrite (proj2 (mod_solve P i c s0 k HP S Hk) eq_refl), (proj2 (mod_solve Q j d t0 l HQ T Hl) eq_refl), !Z.eqb_refl. cbn [andb]. ring.
    + intros t Ht Hne. unfold star. destruct (Z.eqb_spec ((j + d - t) mod Q) l) as [E|E]; [apply (mod_solve Q j d t l HQ Ht Hl) in E; contradiction|].
      rewrite Bool.andb_false_r. ring.
  - intros s Hs Hne. apply (eq_trans (y := rsum Q (fun _ => 0))); [|unfold rsum; apply rsumn_zero]. apply rsum_ext. intros t _. unfold star.
    destruct (Z.eqb_spec ((i + c - s) mod P) k) as [E|E]; [apply (mod_solve P i c s k HP Hs Hk) in E; contradiction|]. cbn [andb]. ring.
Qed.

(** ** convolve *)
Lemma convolve_gen P Q a b : (0 < P)%Z -> (0 < Q)%Z ->
  exists r, convolve P Q P Q a b = Some r /\ forall i j, r i j = conv_about P Q (- (P / 2)) (- (Q / 2)) a b i j / (IZR P * IZR Q).
Proof.
  intros HP HQ. unfold convolve. rewrite !Z.eqb_refl. cbn [andb]. eexists. split; [reflexivity|]. intros i j. cbv beta. rewrite conv_at by auto. cbn [fst RtoC].
  unfold conv_about, Rdiv, fftshift_ix. rewrite Rmult_comm. f_equal. apply rsum_ext. intros u _. apply rsum_ext. intros v _. f_equal.
  rewrite !Zminus_mod_idemp_l. reflexivity.
Qed.
Lemma conv_about_mod P Q c d c' d' a b i j : ((c - c') mod P = 0)%Z -> ((d - d') mod Q = 0)%Z -> (0 < P)%Z -> (0 < Q)%Z ->
  conv_about P Q c d a b i j = conv_about P Q c' d' a b i j.
Proof.
  intros E F HP HQ. unfold conv_about. apply rsum_ext. intros s _. apply rsum_ext. intros t _. f_equal. f_equal.
  - apply Z.mod_divide in E; [|lia]. destruct E as (k & E). replace (i + c - s)%Z with (i + c' - s + k * P)%Z by lia. apply Z.mod_add. lia.
  - apply Z.mod_divide in F; [|lia]. destruct F as (k & F). replace (j + d - t)%Z with (j + d' - t + k * Q)%Z by lia. apply Z.mod_add. lia.
Qed.
Lemma even_half P : Z.even P = true -> ((- (P / 2) - P / 2) mod P = 0)%Z.
Proof.
  intros E. apply Z.even_spec in E. destruct E as (h & ->). rewrite (Z.mul_comm 2 h), Z.div_mul by lia. replace (- h - h)%Z with ((-1) * (h * 2))%Z by lia.
  apply Z_mod_mult.
Qed.
Lemma convolve_even P Q a b : (0 < P)%Z -> (0 < Q)%Z -> Z.even P = true -> Z.even Q = true ->
  exists r, convolve P Q P Q a b = Some r /\ forall i j, r i j = conv_about P Q (P / 2) (Q / 2) a b i j / (IZR P * IZR Q).
Proof.
  intros HP HQ EP EQ. destruct (convolve_gen P Q a b HP HQ) as (r & E & H). exists r. split; [exact E|]. intros i j. rewrite H. f_equal.
  apply conv_about_mod; auto using even_half.
Qed.

(** ** Convolve *)
Lemma quad_ix_shift P i : (0 < P)%Z -> shiftable P -> (0 <= i < P)%Z -> quad_ix P i = fftshift_ix P (P - 1 - i).
Proof. intros HP HS Hi. unfold fftshift_ix. apply quad_ix_ok; auto. Qed.
Lemma object_gen P Q a b : (0 < P)%Z -> (0 < Q)%Z -> shiftable P -> shiftable Q ->
  exists r, convolve_object P Q P Q a b = Some r /\
  forall i j, inside P Q i j -> r i j = RtoC (conv_about P Q (- (P / 2)) (- (Q / 2)) a b (P - 1 - i) (Q - 1 - j) / (IZR P * IZR Q)).
Proof.
  intros HP HQ SP SQ. unfold convolve_object. rewrite !Z.eqb_refl. cbn [andb]. eexists. split; [reflexivity|]. intros i j [Hi Hj]. cbv beta.
  rewrite (quad_ix_shift P), (quad_ix_shift Q), conv_at by auto.
  unfold conv_about, Rdiv, fftshift_ix. rewrite Rmult_comm. f_equal. f_equal. apply rsum_ext. intros u _. apply rsum_ext. intros v _. f_equal.
  rewrite !Zminus_mod_idemp_l. reflexivity.
Qed.

(** ** Correlation *)
Lemma corr_gen n P s r k i j : (0 < P)%Z ->
  corr_imgs n P s r k i j = conv_about P P (- (P / 2)) (- (P / 2)) (s (fftshift_ix n k)) (r (fftshift_ix n k)) i j.
Proof.
  intros HP. unfold corr_imgs. rewrite corr_at by auto. cbn [fst RtoC]. unfold conv_about, fftshift_ix. apply rsum_ext. intros u _. apply rsum_ext. intros v _.
  f_equal. rewrite !Zminus_mod_idemp_l. reflexivity.
Qed.
Lemma corr_sym P Q a b i j : (0 < P)%Z -> (0 < Q)%Z -> Z.even P = true -> Z.even Q = true -> half_turn_symmetric P Q b ->
  conv_about P Q (- (P / 2)) (- (Q / 2)) a b i j = corr_about P Q (P / 2) (Q / 2) a b i j.
Proof.
  intros HP HQ EP EQ H. unfold conv_about, corr_about. apply rsum_ext. intros s _. apply rsum_ext. intros t _. f_equal.
  rewrite <- H by (split; apply Z.mod_pos_bound; lia). f_equal; rewrite Zminus_mod_idemp_r.
  - apply Z.even_spec in EP. destruct EP as (h & ->). rewrite (Z.mul_comm 2 h), Z.div_mul by lia. replace (2 * h - (i + - h - s))%Z with (s - (i - h) + 1 * (h * 2))%Z by lia. apply Z.mod_add. lia.
  - apply Z.even_spec in EQ. destruct EQ as (h & ->). rewrite (Z.mul_comm 2 h), Z.div_mul by lia. replace (2 * h - (j + - h - t))%Z with (t - (j - h) + 1 * (h * 2))%Z by lia. apply Z.mod_add. lia.
Qed.
Lemma rsum_le n f g : (forall i, (0 <= i < n)%Z -> f i <= g i) -> rsum n f <= rsum n g.
Proof.
  intros H. assert (0 <= rsum n (fun i => g i + (-1) * f i)). { apply rsum_nonneg. intros i Hi. specialize (H i Hi). lra. }
  rewrite rsum_add, rsum_scale in H0. lra.
Qed.
Lemma total_displaced P Q x y f : (0 < P)%Z -> (0 < Q)%Z -> total P Q (displaced P Q x y f) = total P Q f.
Proof.
  intros HP HQ. unfold total, displaced. transitivity (rsum P (fun i => rsum Q (fun j => f ((i - x) mod P)%Z j))).
  - apply rsum_ext. intros i _. apply (rsum_shift Q (- y) (fun j => f ((i - x) mod P)%Z j) HQ).
  - apply (rsum_shift P (- x) (fun i => rsum Q (fun j => f i j)) HP).
Qed.
(** The correlation of a displaced image with the image itself is greatest at that displacement. *)
Lemma corr_peak P Q c d x y b i j : (0 < P)%Z -> (0 < Q)%Z ->
  corr_about P Q c d (displaced P Q x y b) b i j <= corr_about P Q c d (displaced P Q x y b) b (c + x) (d + y).
Proof.
  intros HP HQ. set (sq := fun i j => b i j * b i j).
  assert (E : corr_about P Q c d (displaced P Q x y b) b (c + x) (d + y) = total P Q sq).
  { rewrite <- (total_displaced P Q x y sq HP HQ). unfold corr_about, total. apply rsum_ext. intros s _. apply rsum_ext. intros t _. unfold displaced, sq.
    replace (c + x - c)%Z with x by lia. replace (d + y - d)%Z with y by lia. reflexivity. }
  rewrite E. apply Rle_trans with (total P Q (fun s t => / 2 * displaced P Q x y sq s t + / 2 * displaced P Q (i - c) (j - d) sq s t)).
  - apply rsum_le. intros s _. apply rsum_le. intros t _. unfold displaced, sq. set (p := b ((s - x) mod P)%Z ((t - y) mod Q)%Z). set (q := b _ _).
    pose proof (Rle_0_sqr (p - q)). unfold Rsqr in H. lra.
  - right. unfold total. rewrite (rsum_ext P _ (fun s => / 2 * rsum Q (fun t => displaced P Q x y sq s t) + / 2 * rsum Q (fun t => displaced P Q (i - c) (j - d) sq s t))).
    2: { intros s _. rewrite rsum_add, !rsum_scale. reflexivity. }
    rewrite rsum_add, !rsum_scale.
    change (/ 2 * total P Q (displaced P Q x y sq) + / 2 * total P Q (displaced P Q (i - c) (j - d) sq) = total P Q sq).
    rewrite !total_displaced by auto. lra.
Qed.

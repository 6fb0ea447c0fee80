(** The single mode fibre: proofs. *)
From Coquelicot Require Import Complex.
From Verif.Base Require Import Vec CSum CSumFacts.
From Coq Require Import Reals Lra Lia.
From Verif.Model Require Import Science.
From Verif.Model Require Import Fibre.
From Verif.Spec Require Import FibreSpec.
Local Open Scope R_scope.

Lemma sum_ext n f g : (forall i j, inside n i j -> f i j = g i j) -> img_sum n f = img_sum n g.
Proof. intros H. unfold img_sum. apply rsum_ext. intros i Hi. apply rsum_ext. intros j Hj. apply H. split; assumption. Qed.
Lemma sum_add n f g : img_sum n (fun i j => f i j + g i j) = img_sum n f + img_sum n g.
Proof. unfold img_sum. rewrite <- rsum_add. apply rsum_ext. intros i Hi. apply rsum_add. Qed.
Lemma sum_scale n c f : img_sum n (fun i j => c * f i j) = c * img_sum n f.
Proof. unfold img_sum. rewrite <- rsum_scale. apply rsum_ext. intros i Hi. apply rsum_scale. Qed.
Lemma sum_nonneg n f : (forall i j, inside n i j -> 0 <= f i j) -> 0 <= img_sum n f.
Proof. intros H. unfold img_sum. apply rsum_nonneg. intros i Hi. apply rsum_nonneg. intros j Hj. apply H. split; assumption. Qed.
Lemma sum_le n f g : (forall i j, inside n i j -> f i j <= g i j) -> img_sum n f <= img_sum n g.
Proof.
  intros H. assert (E : img_sum n g = img_sum n f + img_sum n (fun i j => g i j + (-1) * f i j)).
  { rewrite sum_add, sum_scale. ring. }
  rewrite E. assert (0 <= img_sum n (fun i j => g i j + (-1) * f i j)); [|lra].
  apply sum_nonneg. intros i j Hij. specialize (H i j Hij). lra.
Qed.
Lemma rsumn_part n k f : (forall i, (0 <= i < Z.of_nat n)%Z -> 0 <= f i) -> (0 <= k < Z.of_nat n)%Z -> f k <= rsumn n f.
Proof.
  induction n as [|n IH]; intros H Hk; [lia|]. cbn [rsumn].
  assert (H' : forall i, (0 <= i < Z.of_nat n)%Z -> 0 <= f i) by (intros i Hi; apply H; lia).
  destruct (Z.eq_dec k (Z.of_nat n)) as [->|Hne].
  - pose proof (rsumn_nonneg n f H'). lra.
  - assert (f k <= rsumn n f) by (apply IH; [exact H'|lia]). assert (0 <= f (Z.of_nat n)) by (apply H; lia). lra.
Qed.
Lemma rsum_part n k f : (forall i, (0 <= i < n)%Z -> 0 <= f i) -> (0 <= k < n)%Z -> f k <= rsum n f.
Proof. intros H Hk. unfold rsum. apply rsumn_part; rewrite Z2Nat.id by lia; assumption. Qed.
Lemma sum_part n f i j : (forall a b, inside n a b -> 0 <= f a b) -> inside n i j -> f i j <= img_sum n f.
Proof.
  intros H [Hi Hj]. unfold img_sum. apply Rle_trans with (rsum n (fun b => f i b)).
  - apply (rsum_part n j (fun b => f i b)); [|exact Hj]. intros b Hb. apply H. split; assumption.
  - apply (rsum_part n i (fun a => rsum n (fun b => f a b))); [|exact Hi]. intros a Ha. apply rsum_nonneg. intros b Hb. apply H. split; assumption.
Qed.
Lemma sum_pos n f i j : (forall a b, inside n a b -> 0 <= f a b) -> inside n i j -> 0 < f i j -> 0 < img_sum n f.
Proof. intros H Hij P. pose proof (sum_part n f i j H Hij). lra. Qed.

(** Cauchy and Schwarz *)
Lemma cauchy n f g : 0 < img_sum n (fun i j => g i j * g i j) ->
  img_sum n (fun i j => f i j * g i j) * img_sum n (fun i j => f i j * g i j) <= img_sum n (fun i j => f i j * f i j) * img_sum n (fun i j => g i j * g i j).
Proof.
  set (a := img_sum n (fun i j => g i j * g i j)). set (b := img_sum n (fun i j => f i j * g i j)). set (c := img_sum n (fun i j => f i j * f i j)).
  intros Ha.
  assert (E : img_sum n (fun i j => (a * f i j - b * g i j) * (a * f i j - b * g i j)) = a * a * c - 2 * a * b * b + b * b * a).
  { unfold c, b at 3, a at 4. transitivity (a * a * img_sum n (fun i j => f i j * f i j) + (-(2 * a * b)) * img_sum n (fun i j => f i j * g i j) + b * b * img_sum n (fun i j => g i j * g i j)).
    - rewrite <- !sum_scale, <- !sum_add. apply sum_ext. intros i j _. ring.
    - fold a b. ring. }
  assert (P : 0 <= img_sum n (fun i j => (a * f i j - b * g i j) * (a * f i j - b * g i j))).
  { apply sum_nonneg. intros i j _. apply Rle_0_sqr. }
  rewrite E in P. assert (Q : 0 <= a * (c * a - b * b)) by lra.
  apply Rmult_le_reg_l with a; [exact Ha|]. lra.
Qed.

(** ** The mode of the fibre *)
Lemma gauss_pos n w i j : 0 < gaussian2d n w i j. Proof. apply exp_pos. Qed.
Lemma gauss_sq_pos n w : (0 < n)%Z -> 0 < img_sum n (fun a b => gaussian2d n w a b * gaussian2d n w a b).
Proof.
  intros Hn. apply sum_pos with 0%Z 0%Z.
  - intros a b _. apply Rle_0_sqr.
  - split; lia.
  - apply Rmult_lt_0_compat; apply gauss_pos.
Qed.
Lemma gauss_middle (n : Z) (w : R) (i j : Z) : gaussian2d (n * 3)%Z w (n + i)%Z (n + j)%Z = gaussian2d n w i j.
Proof.
  unfold gaussian2d. rewrite !plus_IZR, mult_IZR.
  replace (IZR n * 3 / 2 - (IZR n + IZR j)) with (IZR n / 2 - IZR j) by field.
  replace (IZR n * 3 / 2 - (IZR n + IZR i)) with (IZR n / 2 - IZR i) by field. reflexivity.
Qed.
Lemma rsum_third n f : (0 <= n)%Z -> (forall i, (0 <= i < n * 3)%Z -> 0 <= f i) -> rsum n (fun i => f (n + i)%Z) <= rsum (n * 3)%Z f.
Proof.
  intros Hn H. replace (n * 3)%Z with (n + (n + n))%Z by lia. rewrite rsum_split, (rsum_split n n (fun i => f (n + i)%Z)) by lia.
  assert (0 <= rsum n f) by (apply rsum_nonneg; intros i Hi; apply H; lia).
  assert (0 <= rsum n (fun i => f (n + (n + i))%Z)) by (apply rsum_nonneg; intros i Hi; apply H; lia). lra.
Qed.
Lemma sum_third n f : (0 <= n)%Z -> (forall i j, inside (n * 3)%Z i j -> 0 <= f i j) -> img_sum n (fun i j => f (n + i)%Z (n + j)%Z) <= img_sum (n * 3)%Z f.
Proof.
  intros Hn H. unfold img_sum. apply Rle_trans with (rsum n (fun i => rsum (n * 3)%Z (fun j => f (n + i)%Z j))).
  - assert (L : forall i, (0 <= i < n)%Z -> rsum n (fun j => f (n + i)%Z (n + j)%Z) <= rsum (n * 3)%Z (fun j => f (n + i)%Z j)).
    { intros i Hi. apply (rsum_third n (fun j => f (n + i)%Z j)); [exact Hn|]. intros j Hj. apply H. split; lia. }
    assert (E : rsum n (fun i => rsum (n * 3)%Z (fun j => f (n + i)%Z j)) = rsum n (fun i => rsum n (fun j => f (n + i)%Z (n + j)%Z)) +
      rsum n (fun i => rsum (n * 3)%Z (fun j => f (n + i)%Z j) + (-1) * rsum n (fun j => f (n + i)%Z (n + j)%Z))).
    { rewrite rsum_add, rsum_scale. ring. }
    rewrite E. assert (0 <= rsum n (fun i => rsum (n * 3)%Z (fun j => f (n + i)%Z j) + (-1) * rsum n (fun j => f (n + i)%Z (n + j)%Z))); [|lra].
    apply rsum_nonneg. intros i Hi. specialize (L i Hi). lra.
  - apply (rsum_third n (fun i => rsum (n * 3)%Z (fun j => f i j))); [exact Hn|]. intros i Hi. apply rsum_nonneg. intros j Hj. apply H. split; lia.
Qed.
Lemma mode_pos n w i j : (0 < n)%Z -> 0 < fibre_mode n w i j.
Proof.
  intros Hn. unfold fibre_mode. apply Rdiv_lt_0_compat; [apply gauss_pos|]. apply sqrt_lt_R0. apply gauss_sq_pos. lia.
Qed.
Lemma mode_power n w : (0 < n)%Z -> img_sum n (fun i j => fibre_mode n w i j * fibre_mode n w i j) <= 1.
Proof.
  intros Hn. set (T := img_sum (n * 3)%Z (fun a b => gaussian2d (n * 3)%Z w a b * gaussian2d (n * 3)%Z w a b)).
  assert (HT : 0 < T) by (apply gauss_sq_pos; lia).
  assert (E : img_sum n (fun i j => fibre_mode n w i j * fibre_mode n w i j) = / T * img_sum n (fun i j => gaussian2d n w i j * gaussian2d n w i j)).
  { rewrite <- sum_scale. apply sum_ext. intros i j _. unfold fibre_mode. fold T.
    rewrite <- (sqrt_sqrt T) at 3 by lra. assert (0 < sqrt T) by (apply sqrt_lt_R0; exact HT). field. lra. }
  rewrite E. apply Rmult_le_reg_l with T; [exact HT|]. rewrite <- Rmult_assoc, Rinv_r, Rmult_1_l, Rmult_1_r by lra.
  unfold T. apply Rle_trans with (img_sum n (fun i j => (fun a b => gaussian2d (n * 3)%Z w a b * gaussian2d (n * 3)%Z w a b) (n + i)%Z (n + j)%Z)).
  - apply Req_le. apply sum_ext. intros i j _. cbv beta. rewrite gauss_middle. reflexivity.
  - apply (sum_third n (fun a b => gaussian2d (n * 3)%Z w a b * gaussian2d (n * 3)%Z w a b)); [lia|]. intros i j _. apply Rle_0_sqr.
Qed.

(** ** The aperture *)
Lemma mask_sq_pos n mask : aperture n mask -> 0 < img_sum n (fun a b => mask a b * mask a b).
Proof. intros [_ (i & j & Hij & P)]. apply sum_pos with i j; [intros; apply Rle_0_sqr|exact Hij|apply Rmult_lt_0_compat; exact P]. Qed.
Lemma norm_nonneg n mask i j : aperture n mask -> inside n i j -> 0 <= norm_mask n mask i j.
Proof.
  intros A Hij. pose proof (mask_sq_pos n mask A) as P. destruct A as [A _]. unfold norm_mask, Rdiv. apply Rmult_le_pos; [apply A; exact Hij|].
  left. apply Rinv_0_lt_compat, sqrt_lt_R0, P.
Qed.
Lemma norm_pos n mask i j : aperture n mask -> 0 < mask i j -> 0 < norm_mask n mask i j.
Proof. intros A P. unfold norm_mask. apply Rdiv_lt_0_compat; [exact P|]. apply sqrt_lt_R0, mask_sq_pos, A. Qed.
Lemma norm_power n mask : aperture n mask -> img_sum n (fun i j => norm_mask n mask i j * norm_mask n mask i j) = 1.
Proof.
  intros A. pose proof (mask_sq_pos n mask A) as P. set (T := img_sum n (fun a b => mask a b * mask a b)) in *.
  transitivity (/ T * T); [|field; lra]. unfold T at 2. rewrite <- sum_scale. apply sum_ext. intros i j _. unfold norm_mask. fold T.
  rewrite <- (sqrt_sqrt T) at 3 by lra. assert (0 < sqrt T) by (apply sqrt_lt_R0; exact P). field. lra.
Qed.

(** ** Weighted sums of fields of modulus one *)
Definition weight (n : Z) (w : R) (mask : image) (i j : Z) : R := fibre_mode n w i j * norm_mask n mask i j.
Lemma weight_nonneg n w mask i j : (0 < n)%Z -> aperture n mask -> inside n i j -> 0 <= weight n w mask i j.
Proof. intros Hn A Hij. apply Rmult_le_pos; [left; apply mode_pos; exact Hn|apply norm_nonneg; assumption]. Qed.
Lemma weight_pos n w mask i j : (0 < n)%Z -> aperture n mask -> 0 < mask i j -> 0 < weight n w mask i j.
Proof. intros Hn A P. apply Rmult_lt_0_compat; [apply mode_pos; exact Hn|apply norm_pos; assumption]. Qed.
Lemma weight_zero n w mask i j : aperture n mask -> inside n i j -> ~ 0 < mask i j -> weight n w mask i j = 0.
Proof. intros [A _] Hij P. assert (E : mask i j = 0) by (specialize (A i j Hij); lra). unfold weight, norm_mask. rewrite E. unfold Rdiv. ring. Qed.
Lemma weight_sum_pos n w mask : (0 < n)%Z -> aperture n mask -> 0 < img_sum n (weight n w mask).
Proof.
  intros Hn A. destruct (proj2 A) as (i & j & Hij & P). apply sum_pos with i j; [|exact Hij|apply weight_pos; assumption].
  intros a b Hab. apply weight_nonneg; assumption.
Qed.
Lemma ref_value n w mask : ref_strehl n w mask = img_sum n (weight n w mask) * img_sum n (weight n w mask).
Proof. unfold ref_strehl. fold (weight n w mask). change (fun i j => fibre_mode n w i j * norm_mask n mask i j) with (weight n w mask).
  rewrite <- Rabs_mult, Rabs_pos_eq by apply Rle_0_sqr. ring. Qed.
Lemma los_value a c i j : los_field a c i j = cis (a i j - c i j).
Proof. unfold los_field. rewrite Cmult_1_l, <- cis_add. reflexivity. Qed.
Lemma csum_parts n f : csum n f = (rsum n (fun i => fst (f i)), rsum n (fun i => snd (f i))).
Proof.
  unfold csum, rsum. induction (Z.to_nat n) as [|m IH]; [reflexivity|]. cbn [csumn rsumn]. rewrite IH. reflexivity.
Qed.
Lemma coupling_value n w mask a c : fibre_coupling n w mask (los_field a c) =
  (let X := img_sum n (fun i j => weight n w mask i j * cos (a i j - c i j)) in let Y := img_sum n (fun i j => weight n w mask i j * sin (a i j - c i j)) in X * X + Y * Y).
Proof.
  unfold fibre_coupling. rewrite csum_parts. unfold cnorm2. cbn [fst snd].
  assert (X : rsum n (fun i => fst (csum n (fun j => RtoC (fibre_mode n w i j) * los_field a c i j * RtoC (norm_mask n mask i j))%C)) =
              img_sum n (fun i j => weight n w mask i j * cos (a i j - c i j))).
  { unfold img_sum. apply rsum_ext. intros i _. rewrite csum_parts. cbn [fst]. apply rsum_ext. intros j _. rewrite los_value. unfold cis, weight. cbn. ring. }
  assert (Y : rsum n (fun i => snd (csum n (fun j => RtoC (fibre_mode n w i j) * los_field a c i j * RtoC (norm_mask n mask i j))%C)) =
              img_sum n (fun i j => weight n w mask i j * sin (a i j - c i j))).
  { unfold img_sum. apply rsum_ext. intros i _. rewrite csum_parts. cbn [snd]. apply rsum_ext. intros j _. rewrite los_value. unfold cis, weight. cbn. ring. }
  rewrite X, Y. reflexivity.
Qed.
(** projected on the direction of the sum *)
Lemma unit_dir X Y : exists u v, u * u + v * v = 1 /\ X * u + Y * v = sqrt (X * X + Y * Y).
Proof.
  destruct (Req_dec (X * X + Y * Y) 0) as [E|E].
  - exists 1, 0. split; [ring|]. rewrite E, sqrt_0. assert (X * X = 0) by (pose proof (Rle_0_sqr X); pose proof (Rle_0_sqr Y); unfold Rsqr in *; lra).
    apply Rmult_integral in H. lra.
  - assert (P : 0 < X * X + Y * Y) by (pose proof (Rle_0_sqr X); pose proof (Rle_0_sqr Y); unfold Rsqr in *; lra).
    set (r := sqrt (X * X + Y * Y)). assert (Hr : 0 < r) by (apply sqrt_lt_R0; exact P).
    assert (E2 : r * r = X * X + Y * Y) by (apply sqrt_sqrt; lra).
    exists (X / r), (Y / r). split.
    + replace (X / r * (X / r) + Y / r * (Y / r)) with ((X * X + Y * Y) / (r * r)) by (field; lra). rewrite E2. field. lra.
    + replace (X * (X / r) + Y * (Y / r)) with ((X * X + Y * Y) / r) by (field; lra). rewrite <- E2. field. lra.
Qed.
Lemma dir_le u v t : u * u + v * v = 1 -> cos t * u + sin t * v <= 1.
Proof.
  intros E. pose proof (sin2_cos2 t) as S. unfold Rsqr in S.
  pose proof (Rle_0_sqr (cos t - u)) as A. pose proof (Rle_0_sqr (sin t - v)) as B. unfold Rsqr in A, B. lra.
Qed.
Lemma projected n w mask (p : image) u v :
  img_sum n (fun i j => weight n w mask i j * cos (p i j)) * u + img_sum n (fun i j => weight n w mask i j * sin (p i j)) * v =
  img_sum n (fun i j => weight n w mask i j * (cos (p i j) * u + sin (p i j) * v)).
Proof.
  rewrite (Rmult_comm _ u), (Rmult_comm _ v), <- !sum_scale, <- sum_add. apply sum_ext. intros i j _. ring.
Qed.
Lemma coupling_le n w mask a c : (0 < n)%Z -> aperture n mask -> fibre_coupling n w mask (los_field a c) <= ref_strehl n w mask.
Proof.
  intros Hn A. rewrite coupling_value, ref_value. cbv zeta.
  set (X := img_sum n (fun i j => weight n w mask i j * cos (a i j - c i j))). set (Y := img_sum n (fun i j => weight n w mask i j * sin (a i j - c i j))).
  destruct (unit_dir X Y) as (u & v & E & P). pose proof (projected n w mask (fun i j => a i j - c i j) u v) as Q. cbv beta in Q. fold X Y in Q.
  assert (L : sqrt (X * X + Y * Y) <= img_sum n (weight n w mask)).
  { rewrite <- P, Q. apply sum_le. intros i j Hij. pose proof (weight_nonneg n w mask i j Hn A Hij). pose proof (dir_le u v (a i j - c i j) E).
    rewrite <- (Rmult_1_r (weight n w mask i j)) at 2. apply Rmult_le_compat_l; assumption. }
  assert (0 <= X * X + Y * Y) by (pose proof (Rle_0_sqr X); pose proof (Rle_0_sqr Y); unfold Rsqr in *; lra).
  rewrite <- (sqrt_sqrt (X * X + Y * Y)) by assumption. apply Rmult_le_compat; try apply sqrt_pos; exact L.
Qed.
Lemma ref_le_one n w mask : (0 < n)%Z -> aperture n mask -> ref_strehl n w mask <= 1.
Proof.
  intros Hn A. rewrite ref_value. pose proof (cauchy n (fibre_mode n w) (norm_mask n mask)) as Cs. rewrite (norm_power n mask A) in Cs.
  specialize (Cs Rlt_0_1). pose proof (mode_power n w Hn). change (weight n w mask) with (fun i j => fibre_mode n w i j * norm_mask n mask i j). lra.
Qed.
Lemma cos_one x : cos x = 1 -> exists m : Z, x = IZR m * (2 * PI).
Proof.
  intros H. assert (S : sin (x / 2) = 0).
  { pose proof (cos_2a_sin (x / 2)) as E. replace (2 * (x / 2)) with x in E by field. rewrite H in E.
    assert (sin (x / 2) * sin (x / 2) = 0) by lra. apply Rmult_integral in H0. lra. }
  destruct (sin_eq_0_0 _ S) as [m Hm]. exists m. lra.
Qed.
Lemma coupling_full n w mask a c : (0 < n)%Z -> aperture n mask -> fibre_coupling n w mask (los_field a c) = ref_strehl n w mask ->
  through n mask (fun i j => through n mask (fun k l => whole_waves (a i j - c i j) (a k l - c k l))).
Proof.
  intros Hn A. rewrite coupling_value, ref_value. cbv zeta.
  set (X := img_sum n (fun i j => weight n w mask i j * cos (a i j - c i j))). set (Y := img_sum n (fun i j => weight n w mask i j * sin (a i j - c i j))).
  intros F. destruct (unit_dir X Y) as (u & v & E & P). pose proof (projected n w mask (fun i j => a i j - c i j) u v) as Q. cbv beta in Q. fold X Y in Q.
  pose proof (weight_sum_pos n w mask Hn A) as W. rewrite F, sqrt_square in P by lra.
  assert (Z0 : img_sum n (fun i j => weight n w mask i j * (1 - (cos (a i j - c i j) * u + sin (a i j - c i j) * v))) = 0).
  { transitivity (img_sum n (weight n w mask) + (-1) * img_sum n (fun i j => weight n w mask i j * (cos (a i j - c i j) * u + sin (a i j - c i j) * v))).
    - rewrite <- sum_scale, <- sum_add. apply sum_ext. intros; ring.
    - rewrite <- Q, P. ring. }
  assert (D : forall i j, inside n i j -> 0 < mask i j -> cos (a i j - c i j) = u /\ sin (a i j - c i j) = v).
  { intros i j Hij Hm.
    pose proof (sum_part n (fun i j => weight n w mask i j * (1 - (cos (a i j - c i j) * u + sin (a i j - c i j) * v))) i j) as L. cbv beta in L. rewrite Z0 in L.
    assert (T : weight n w mask i j * (1 - (cos (a i j - c i j) * u + sin (a i j - c i j) * v)) <= 0).
    { apply L; [|exact Hij]. intros k l Hkl. apply Rmult_le_pos; [apply weight_nonneg; assumption|]. pose proof (dir_le u v (a k l - c k l) E). lra. }
    pose proof (weight_pos n w mask i j Hn A Hm) as Wp. pose proof (dir_le u v (a i j - c i j) E) as De.
    assert (One : cos (a i j - c i j) * u + sin (a i j - c i j) * v = 1).
    { apply Rle_antisym; [exact De|]. apply Rmult_le_reg_l with (weight n w mask i j); [exact Wp|]. lra. }
    pose proof (sin2_cos2 (a i j - c i j)) as S. unfold Rsqr in S.
    pose proof (Rle_0_sqr (cos (a i j - c i j) - u)) as A1. pose proof (Rle_0_sqr (sin (a i j - c i j) - v)) as B1. unfold Rsqr in A1, B1.
    assert (A2 : (cos (a i j - c i j) - u) * (cos (a i j - c i j) - u) = 0) by lra.
    assert (B2 : (sin (a i j - c i j) - v) * (sin (a i j - c i j) - v) = 0) by lra.
    apply Rmult_integral in A2, B2. split; lra. }
  intros i j Hij Hm k l Hkl Hm2. destruct (D i j Hij Hm) as [C1 S1]. destruct (D k l Hkl Hm2) as [C2 S2].
  unfold whole_waves. apply cos_one. rewrite cos_minus, C1, S1, C2, S2. exact E.
Qed.
Lemma coupling_same n w mask a c a' c' d : aperture n mask ->
  through n mask (fun i j => whole_waves (a' i j - c' i j) (a i j - c i j + d)) ->
  fibre_coupling n w mask (los_field a' c') = fibre_coupling n w mask (los_field a c).
Proof.
  intros A H. rewrite !coupling_value. cbv zeta.
  set (X := img_sum n (fun i j => weight n w mask i j * cos (a i j - c i j))). set (Y := img_sum n (fun i j => weight n w mask i j * sin (a i j - c i j))).
  assert (Per : forall m x, cos (x + IZR m * (2 * PI)) = cos x /\ sin (x + IZR m * (2 * PI)) = sin x).
  { intros m x. pose proof (cis_add x (2 * PI * IZR m)) as Ca. rewrite cis_Z, Cmult_1_r in Ca. unfold cis in Ca. injection Ca as C1 C2.
    rewrite (Rmult_comm (IZR m)). split; assumption. }
  assert (EX : img_sum n (fun i j => weight n w mask i j * cos (a' i j - c' i j)) = cos d * X + (- sin d) * Y).
  { unfold X, Y. rewrite <- !sum_scale, <- sum_add. apply sum_ext. intros i j Hij. destruct (Rlt_dec 0 (mask i j)) as [P|P].
    - destruct (H i j Hij P) as [m Hm]. replace (a' i j - c' i j) with (a i j - c i j + d + IZR m * (2 * PI)) by lra.
      rewrite (proj1 (Per _ _)), cos_plus. ring.
    - rewrite (weight_zero n w mask i j A Hij P). ring. }
  assert (EY : img_sum n (fun i j => weight n w mask i j * sin (a' i j - c' i j)) = sin d * X + cos d * Y).
  { unfold X, Y. rewrite <- !sum_scale, <- sum_add. apply sum_ext. intros i j Hij. destruct (Rlt_dec 0 (mask i j)) as [P|P].
    - destruct (H i j Hij P) as [m Hm]. replace (a' i j - c' i j) with (a i j - c i j + d + IZR m * (2 * PI)) by lra.
      rewrite (proj2 (Per _ _)), sin_plus. ring.
    - rewrite (weight_zero n w mask i j A Hij P). ring. }
  rewrite EX, EY. pose proof (sin2_cos2 d) as S. unfold Rsqr in S.
  replace ((cos d * X + - sin d * Y) * (cos d * X + - sin d * Y) + (sin d * X + cos d * Y) * (sin d * X + cos d * Y)) with ((sin d * sin d + cos d * cos d) * (X * X + Y * Y)) by ring.
  rewrite S. ring.
Qed.
Lemma coupling_flat0 n w mask : fibre_coupling n w mask (los_field (fun _ _ => 0) (fun _ _ => 0)) = ref_strehl n w mask.
Proof.
  rewrite coupling_value, ref_value. cbv zeta. replace (0 - 0) with 0 by ring. rewrite cos_0, sin_0.
  rewrite (sum_ext n (fun i j => weight n w mask i j * 1) (weight n w mask)) by (intros; ring).
  rewrite (sum_ext n (fun i j => weight n w mask i j * 0) (fun i j => 0 * weight n w mask i j)) by (intros; ring). rewrite sum_scale. ring.
Qed.
Lemma coupling_flat n w mask a c d : aperture n mask -> through n mask (fun i j => whole_waves (a i j - c i j) d) ->
  fibre_coupling n w mask (los_field a c) = ref_strehl n w mask.
Proof.
  intros A H. rewrite <- coupling_flat0. apply coupling_same with d; [exact A|]. intros i j Hij P. destruct (H i j Hij P) as [m Hm]. exists m. lra.
Qed.
Lemma coupling_low n w mask a c d B : (0 < n)%Z -> aperture n mask -> 0 <= B <= PI / 2 ->
  through n mask (fun i j => Rabs (a i j - c i j - d) <= B) ->
  cos B * cos B * ref_strehl n w mask <= fibre_coupling n w mask (los_field a c).
Proof.
  intros Hn A HB H.
  rewrite <- (coupling_same n w mask a c (fun i j => a i j - d) c (- d) A) by (intros i j _ _; exists 0%Z; ring).
  rewrite coupling_value, ref_value. cbv zeta.
  set (X := img_sum n (fun i j => weight n w mask i j * cos (a i j - d - c i j))). set (Y := img_sum n (fun i j => weight n w mask i j * sin (a i j - d - c i j))).
  pose proof (weight_sum_pos n w mask Hn A) as W. assert (Cb : 0 <= cos B) by (apply cos_ge_0; lra).
  assert (L : cos B * img_sum n (weight n w mask) <= X).
  { rewrite <- sum_scale. unfold X. apply sum_le. intros i j Hij. destruct (Rlt_dec 0 (mask i j)) as [P|P].
    - rewrite Rmult_comm. apply Rmult_le_compat_l; [apply weight_nonneg; assumption|]. specialize (H i j Hij P). cbv beta in H.
      replace (a i j - d - c i j) with (a i j - c i j - d) by ring. set (t := a i j - c i j - d) in *.
      assert (Et : cos t = cos (Rabs t)) by (unfold Rabs; destruct (Rcase_abs t); [symmetry; apply cos_neg|reflexivity]). rewrite Et.
      apply cos_decr_1; try lra; try apply Rabs_pos; pose proof PI_RGT_0; lra.
    - rewrite (weight_zero n w mask i j A Hij P). lra. }
  pose proof (Rle_0_sqr Y) as Y2. unfold Rsqr in Y2.
  assert (X2 : (cos B * img_sum n (weight n w mask)) * (cos B * img_sum n (weight n w mask)) <= X * X).
  { apply Rmult_le_compat; try exact L; apply Rmult_le_pos; lra. }
  lra.
Qed.

(** ** Frames *)
Lemma frame_geo f a c : fibre_frame (fb_n f) (los_field a c) f =
  Ok (mkFibre (fb_n f) (fb_size f) (fb_mask f) (fibre_coupling (fb_n f) (fb_size f) (fb_mask f) (los_field a c)) (fb_long f)).
Proof. unfold fibre_frame, broadcast. rewrite Z.eqb_refl. reflexivity. Qed.
Definition kept (n : Z) (w : R) (mask : image) (f : fibre) : Prop :=
  fb_n f = n /\ fb_size f = w /\ fb_mask f = mask /\ fb_long f = 0 /\ (fb_inst f = 0 \/ exists a c, fb_inst f = fibre_coupling n w mask (los_field a c)).
Lemma run_kept n w mask acts : forall f, kept n w mask f -> exists f', fibre_run acts f = Ok f' /\ kept n w mask f'.
Proof.
  induction acts as [|x t IH]; intros f K; cbn [fibre_run]; [exists f; split; [reflexivity|exact K]|].
  destruct K as (Kn & Kw & Km & Kl & Ki). destruct x as [a c|].
  - rewrite frame_geo. apply IH. unfold kept. cbn. subst. repeat split; try assumption. right. exists a, c. reflexivity.
  - apply IH. unfold kept. cbn. subst. repeat split; try reflexivity. left. reflexivity.
Qed.
Lemma run_app acts : forall f x, fibre_run (acts ++ x :: nil) f = match fibre_run acts f with Ok g => fibre_run (x :: nil) g | Err e => Err e end.
Proof.
  induction acts as [|y t IH]; intros f x; [reflexivity|]. destruct y as [a c|]; cbn [fibre_run app].
  - rewrite frame_geo. apply IH.
  - apply IH.
Qed.
Lemma new_kept n w mask : kept n w mask (fibre_new n w mask).
Proof. unfold kept, fibre_new. cbn. repeat split. left. reflexivity. Qed.

(** ** Physical propagation *)
Lemma pad_bigger pupil pad nx os ratio fuel g : (0 < pupil)%Z -> (0 < pad)%Z -> (0 < ratio)%Qc ->
  sci_geometry pupil (pupil + 2 * pad) nx os ratio fuel = Some (Ok g) -> (pupil + 2 * pad + 1 <= g_padfov g)%Z.
Proof.
  intros Hp Hd Hr. unfold sci_geometry. set (F0 := qc_round ratio). destruct (F0 =? 0)%Z eqn:E0; [discriminate|]. apply Z.eqb_neq in E0.
  set (F := (F0 * (1 + pupil / F0))%Z). set (p := qc_round (qz F * qz (pupil + 2 * pad) / qz pupil)%Qc).
  destruct (Sh.pad_loop nx F fuel os) as [[os' P0]|]; [|discriminate]. intros H. injection H as <-. cbn [g_padfov].
  assert (G0 : (0 < F0)%Z).
  { pose proof (proj2 (qc_round_near ratio)) as N. fold F0 in N. destruct (Z.lt_ge_cases F0 1) as [L|L]; [|lia]. exfalso.
    assert (H : (F0 <= -1)%Z) by lia. apply (proj2 (qz_le _ _)) in H. assert (Q1 : qz (-1) = (- (1))%Qc) by (apply Qc_is_canon; reflexivity). rewrite Q1 in H.
    assert (Q2Qc (1 # 2) < 1)%Qc by reflexivity. qclra. }
  assert (GF : (pupil + 1 <= F)%Z).
  { unfold F. pose proof (Z.mod_pos_bound pupil F0 G0). pose proof (Z.div_mod pupil F0 ltac:(lia)). nia. }
  assert (Gp : (pupil + 2 * pad + 1 <= p)%Z).
  { unfold p. set (x := (qz F * qz (pupil + 2 * pad) / qz pupil)%Qc).
    assert (Hx : (qz (pupil + 2 * pad + 1) <= x)%Qc).
    { assert (P0' : (0 < qz pupil)%Qc) by (change 0%Qc with (qz 0); apply qz_lt; lia).
      assert (Ex : (x * qz pupil = qz (F * (pupil + 2 * pad)))%Qc).
      { unfold x. rewrite qz_mul. field. intros Hz. rewrite Hz in P0'. discriminate P0'. }
      destruct (Qclt_le_dec x (qz (pupil + 2 * pad + 1))) as [L|L]; [exfalso|exact L].
      assert (L2 : (x * qz pupil < qz (pupil + 2 * pad + 1) * qz pupil)%Qc) by (apply Qcmult_lt_compat_r; assumption).
      rewrite Ex, <- qz_mul in L2. pose proof (proj1 (qz_lt _ _) L2) as L3.
      assert (M : ((pupil + 1) * (pupil + 2 * pad) <= F * (pupil + 2 * pad))%Z) by (apply Z.mul_le_mono_nonneg_r; lia). clearbody F. clear - M L3 Hp Hd. nia. }
    pose proof (proj2 (qc_round_near x)) as N. destruct (Z.lt_ge_cases (qc_round x) (pupil + 2 * pad + 1)) as [L|L]; [exfalso|exact L].
    assert (L1 : (qc_round x + 1 <= pupil + 2 * pad + 1)%Z) by lia. apply (proj2 (qz_le _ _)) in L1. rewrite qz_add in L1. assert (Q1 : qz 1 = 1%Qc) by (apply Qc_is_canon; reflexivity).
    rewrite Q1 in L1. assert (Q2Qc (1 # 2) < 1)%Qc by reflexivity. qclra. }
  destruct (p mod 2 =? F mod 2)%Z; lia.
Qed.
Lemma frame_phys pupil pad nx os ratio fuel g f field : (0 < pupil)%Z -> (0 < pad)%Z -> (0 < ratio)%Qc ->
  sci_geometry pupil (pupil + 2 * pad) nx os ratio fuel = Some (Ok g) -> fb_n f = (pupil + 2 * pad)%Z ->
  fibre_frame (field_size true g (pupil + 2 * pad)) field f = Err ValueError.
Proof.
  intros Hp Hd Hr H Hn. pose proof (pad_bigger pupil pad nx os ratio fuel g Hp Hd Hr H) as B.
  unfold fibre_frame, field_size, broadcast. rewrite Hn.
  rewrite (proj2 (Z.eqb_neq (pupil + 2 * pad) (g_padfov g))), (proj2 (Z.eqb_neq (pupil + 2 * pad) 1)), (proj2 (Z.eqb_neq (g_padfov g) 1)) by lia. reflexivity.
Qed.

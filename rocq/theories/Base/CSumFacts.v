From Coq Require Import ZArith Reals Lra Lia.
From Coquelicot Require Import Complex.
From Verif.Base Require Import CSum.
Open Scope R_scope.

Lemma rsumn_ext n f g : (forall i, (0 <= i < Z.of_nat n)%Z -> f i = g i) -> rsumn n f = rsumn n g.
Proof. induction n as [|n IH]; intros H; cbn; [reflexivity|]. rewrite IH, H; auto; [lia|]. intros; apply H; lia. Qed.
Lemma rsum_ext n f g : (forall i, (0 <= i < n)%Z -> f i = g i) -> rsum n f = rsum n g.
Proof. intros H. apply rsumn_ext. intros i Hi. apply H. lia. Qed.
Lemma rsumn_add n f g : rsumn n (fun i => f i + g i) = rsumn n f + rsumn n g.
Proof. induction n as [|n IH]; cbn; [lra|]. rewrite IH. lra. Qed.
Lemma rsumn_scale n c f : rsumn n (fun i => c * f i) = c * rsumn n f.
Proof. induction n as [|n IH]; cbn; [lra|]. rewrite IH. lra. Qed.
Lemma rsum_add n f g : rsum n (fun i => f i + g i) = rsum n f + rsum n g.
Proof. apply rsumn_add. Qed.
Lemma rsum_scale n c f : rsum n (fun i => c * f i) = c * rsum n f.
Proof. apply rsumn_scale. Qed.
Lemma rsumn_zero n : rsumn n (fun _ => 0) = 0.
Proof. induction n as [|n IH]; cbn; [lra|]. rewrite IH. lra. Qed.
Lemma rsumn_swap n m (f : Z -> Z -> R) : rsumn n (fun i => rsumn m (fun j => f i j)) = rsumn m (fun j => rsumn n (fun i => f i j)).
Proof. induction n as [|n IH]; cbn; [now rewrite rsumn_zero|]. rewrite IH, <- rsumn_add. reflexivity. Qed.
Lemma rsum_swap n m (f : Z -> Z -> R) : rsum n (fun i => rsum m (fun j => f i j)) = rsum m (fun j => rsum n (fun i => f i j)).
Proof. apply rsumn_swap. Qed.
Lemma rsum_const n c : (0 <= n)%Z -> rsum n (fun _ => c) = IZR n * c.
Proof.
  intros H. unfold rsum. rewrite <- (Z2Nat.id n H) at 2. generalize (Z.to_nat n) as k. intros k. induction k as [|k IH]; [cbn; lra|].
  cbn [rsumn]. rewrite IH, Nat2Z.inj_succ, succ_IZR. lra.
Qed.
Lemma rsumn_split n m f : rsumn (n + m) f = rsumn n f + rsumn m (fun i => f (Z.of_nat n + i)%Z).
Proof.
  induction m as [|m IH]; [rewrite Nat.add_0_r; cbn; lra|]. rewrite Nat.add_succ_r. cbn [rsumn]. rewrite IH, Nat2Z.inj_add. lra.
Qed.
Lemma rsum_split n m f : (0 <= n)%Z -> (0 <= m)%Z -> rsum (n + m) f = rsum n f + rsum m (fun i => f (n + i)%Z).
Proof.
  intros Hn Hm. unfold rsum. rewrite Z2Nat.inj_add by auto. rewrite rsumn_split. f_equal. apply rsumn_ext. intros i Hi. rewrite Z2Nat.id by auto. reflexivity.
Qed.
(** a cyclic shift of the index does not change a sum *)
Lemma rsum_cyclic n s f : (0 <= s < n)%Z -> rsum n (fun i => f ((i + s) mod n)%Z) = rsum n f.
Proof.
  intros Hs. transitivity (rsum ((n - s) + s) (fun i => f ((i + s) mod n)%Z)); [f_equal; lia|].
  transitivity (rsum (s + (n - s)) f); [|f_equal; lia]. rewrite !rsum_split by lia.
  rewrite (rsum_ext (n - s) _ (fun i => f (s + i)%Z)) by (intros i Hi; f_equal; rewrite Z.mod_small by lia; lia).
  rewrite (rsum_ext s (fun i => f ((n - s + i + s) mod n)%Z) f); [lra|].
  intros i Hi. f_equal. replace (n - s + i + s)%Z with (i + 1 * n)%Z by lia. rewrite Z.mod_add by lia. apply Z.mod_small; lia.
Qed.
(** sums over blocks of b *)
Lemma rsum_blocks n b f : (0 <= n)%Z -> (0 <= b)%Z -> rsum n (fun i => rsum b (fun j => f (i * b + j)%Z)) = rsum (n * b) f.
Proof.
  intros Hn Hb. rewrite <- (Z2Nat.id n Hn). generalize (Z.to_nat n) as k. intros k. induction k as [|k IH]; [reflexivity|].
  rewrite Nat2Z.inj_succ. replace (Z.succ (Z.of_nat k) * b)%Z with (Z.of_nat k * b + b)%Z by lia. rewrite rsum_split by lia. rewrite <- IH.
  unfold rsum at 1. rewrite Z2Nat.inj_succ by lia. rewrite Nat2Z.id. cbn [rsumn]. unfold rsum at 3. rewrite Nat2Z.id. reflexivity.
Qed.
Lemma rsumn_nonneg n f : (forall i, (0 <= i < Z.of_nat n)%Z -> 0 <= f i) -> 0 <= rsumn n f.
Proof. induction n as [|n IH]; intros H; cbn; [lra|]. pose proof (H (Z.of_nat n) ltac:(lia)). assert (0 <= rsumn n f) by (apply IH; intros; apply H; lia). lra. Qed.
Lemma rsum_nonneg n f : (forall i, (0 <= i < n)%Z -> 0 <= f i) -> 0 <= rsum n f.
Proof. intros H. apply rsumn_nonneg. intros. apply H. lia. Qed.

Lemma csumn_ext n f g : (forall i, (0 <= i < Z.of_nat n)%Z -> f i = g i) -> csumn n f = csumn n g.
Proof. induction n as [|n IH]; intros H; cbn; [reflexivity|]. rewrite IH, H; auto; [lia|]. intros; apply H; lia. Qed.
Lemma csum_ext n f g : (forall i, (0 <= i < n)%Z -> f i = g i) -> csum n f = csum n g.
Proof. intros H. apply csumn_ext. intros i Hi. apply H. lia. Qed.
Lemma csumn_add n f g : csumn n (fun i => f i + g i)%C = (csumn n f + csumn n g)%C.
Proof. induction n as [|n IH]; cbn; [ring|]. rewrite IH. ring. Qed.
Lemma csum_add n f g : csum n (fun i => f i + g i)%C = (csum n f + csum n g)%C.
Proof. apply csumn_add. Qed.
Lemma csumn_scale n c f : csumn n (fun i => c * f i)%C = (c * csumn n f)%C.
Proof. induction n as [|n IH]; cbn; [ring|]. rewrite IH. ring. Qed.
Lemma csum_scale n c f : csum n (fun i => c * f i)%C = (c * csum n f)%C.
Proof. apply csumn_scale. Qed.
Lemma csum_scale_r n c f : csum n (fun i => f i * c)%C = (csum n f * c)%C.
Proof. rewrite Cmult_comm, <- csum_scale. apply csum_ext. intros. ring. Qed.
Lemma csumn_zero n : csumn n (fun _ => RtoC 0) = RtoC 0.
Proof. induction n as [|n IH]; cbn; [reflexivity|]. rewrite IH. ring. Qed.
Lemma csum_zero n : csum n (fun _ => RtoC 0) = RtoC 0.
Proof. apply csumn_zero. Qed.
Lemma csumn_swap n m (f : Z -> Z -> C) : csumn n (fun i => csumn m (fun j => f i j)) = csumn m (fun j => csumn n (fun i => f i j)).
Proof. induction n as [|n IH]; cbn; [now rewrite csumn_zero|]. rewrite IH, <- csumn_add. reflexivity. Qed.
Lemma csum_swap n m (f : Z -> Z -> C) : csum n (fun i => csum m (fun j => f i j)) = csum m (fun j => csum n (fun i => f i j)).
Proof. apply csumn_swap. Qed.
Lemma csum_R n f : csum n (fun i => RtoC (f i)) = RtoC (rsum n f).
Proof.
  unfold csum, rsum. generalize (Z.to_nat n) as k. intros k. induction k as [|k IH]; cbn; [reflexivity|]. rewrite IH, RtoC_plus. reflexivity.
Qed.
Lemma csum_conj n f : Cconj (csum n f) = csum n (fun i => Cconj (f i)).
Proof.
  unfold csum. generalize (Z.to_nat n) as k. intros k. induction k as [|k IH]; cbn [csumn].
  - unfold Cconj, RtoC. cbn. f_equal. lra.
  - rewrite <- IH. unfold Cconj, Cplus. cbn. f_equal. lra.
Qed.
Lemma csumn_single n k f : (0 <= k < Z.of_nat n)%Z -> (forall i, (0 <= i < Z.of_nat n)%Z -> i <> k -> f i = RtoC 0) -> csumn n f = f k.
Proof.
  induction n as [|n IH]; intros Hk H; [lia|]. cbn [csumn]. destruct (Z.eq_dec k (Z.of_nat n)) as [->|Hne].
  - rewrite (csumn_ext n _ (fun _ => RtoC 0)) by (intros; apply H; lia). rewrite csumn_zero. ring.
  - rewrite IH by (try lia; intros; apply H; lia). rewrite (H (Z.of_nat n)) by lia. ring.
Qed.
Lemma csum_single n k f : (0 <= k < n)%Z -> (forall i, (0 <= i < n)%Z -> i <> k -> f i = RtoC 0) -> csum n f = f k.
Proof. intros Hk H. apply csumn_single; [lia|]. intros. apply H; lia. Qed.

Lemma cnorm2_mul a b : cnorm2 (a * b)%C = cnorm2 a * cnorm2 b.
Proof. destruct a, b. unfold cnorm2, Cmult. cbn. ring. Qed.
Lemma cnorm2_R r : cnorm2 (RtoC r) = r * r.
Proof. unfold cnorm2, RtoC. cbn. ring. Qed.
Lemma cnorm2_conj z : RtoC (cnorm2 z) = (z * Cconj z)%C.
Proof. destruct z. unfold cnorm2, Cmult, Cconj, RtoC. cbn. f_equal; ring. Qed.
Lemma cconj_mul a b : (Cconj a * Cconj b)%C = Cconj (a * b)%C.
Proof. destruct a, b. unfold Cmult, Cconj. cbn. f_equal; ring. Qed.
Lemma cnorm2_nonneg z : 0 <= cnorm2 z.
Proof. unfold cnorm2. pose proof (Rle_0_sqr (fst z)). pose proof (Rle_0_sqr (snd z)). unfold Rsqr in *. lra. Qed.
Lemma cnorm2_zero z : cnorm2 z = 0 -> z = RtoC 0.
Proof. destruct z as [a b]. unfold cnorm2, RtoC. cbn. intros H. f_equal; nra. Qed.
Lemma cis_norm t : cnorm2 (cis t) = 1.
Proof. unfold cnorm2, cis. cbn. pose proof (sin2_cos2 t). unfold Rsqr in H. lra. Qed.
Lemma cis_add a b : cis (a + b) = (cis a * cis b)%C.
Proof. unfold cis, Cmult. cbn. rewrite cos_plus, sin_plus. f_equal; ring. Qed.
Lemma cis_0 : cis 0 = RtoC 1.
Proof. unfold cis, RtoC. rewrite cos_0, sin_0. reflexivity. Qed.
Lemma cis_conj t : Cconj (cis t) = cis (- t).
Proof. unfold cis, Cconj. cbn. rewrite cos_neg, sin_neg. reflexivity. Qed.
Lemma cis_period t : cis (t + 2 * PI) = cis t.
Proof. unfold cis. rewrite cos_plus, sin_plus, cos_2PI, sin_2PI. f_equal; ring. Qed.
Lemma cis_nat k : cis (2 * PI * INR k) = RtoC 1.
Proof. induction k as [|k IH]; [cbn [INR]; rewrite Rmult_0_r; apply cis_0|]. rewrite S_INR. replace (2 * PI * (INR k + 1)) with (2 * PI * INR k + 2 * PI) by ring. rewrite cis_period. exact IH. Qed.
Lemma cis_Z k : cis (2 * PI * IZR k) = RtoC 1.
Proof.
  destruct (Z.le_gt_cases 0 k) as [H|H].
  - rewrite <- (Z2Nat.id k H), <- INR_IZR_INZ. apply cis_nat.
  - assert (E : cis (2 * PI * IZR (- k)) = RtoC 1) by (rewrite <- (Z2Nat.id (- k)) by lia; rewrite <- INR_IZR_INZ; apply cis_nat).
    rewrite opp_IZR in E. replace (2 * PI * - IZR k) with (- (2 * PI * IZR k)) in E by ring. rewrite <- cis_conj in E.
    unfold Cconj, cis, RtoC in *. cbn in *. injection E as E1 E2. f_equal; lra.
Qed.
(** exp(2 pi i k / n) is 1 only for multiples of n *)
Lemma cis_root_neq n k : (0 < k < n)%Z -> cis (2 * PI * IZR k / IZR n) <> RtoC 1.
Proof.
  intros Hk E. assert (0 < IZR k) by (apply IZR_lt; lia). assert (IZR k < IZR n) by (apply IZR_lt; lia).
  set (x := PI * IZR k / IZR n). assert (Hx : 2 * PI * IZR k / IZR n = 2 * x) by (unfold x; field; lra). rewrite Hx in E.
  assert (0 < x < PI).
  { pose proof PI_RGT_0. unfold x. split.
    - apply Rmult_lt_0_compat; [nra|]. apply Rinv_0_lt_compat; lra.
    - apply (Rmult_lt_reg_r (IZR n)); [lra|]. unfold Rdiv. rewrite Rmult_assoc, Rinv_l by lra. nra. }
  pose proof (sin_gt_0 x ltac:(lra) ltac:(lra)). unfold cis, RtoC in E. injection E as E1 E2. rewrite cos_2a_sin in E1. nra.
Qed.

Lemma csumn_geom (w : C) (e : Z -> C) m : e 0%Z = RtoC 1 -> (forall i, e (i + 1)%Z = (e i * w)%C) ->
  ((RtoC 1 - w) * csumn m e)%C = (RtoC 1 - e (Z.of_nat m))%C.
Proof.
  intros H0 HS. induction m as [|m IH]; [cbn [csumn]; change (Z.of_nat 0) with 0%Z; rewrite H0; ring|].
  cbn [csumn]. rewrite Cmult_plus_distr_l, IH, Nat2Z.inj_succ. unfold Z.succ. rewrite HS. ring.
Qed.
(** orthogonality of the roots of unity *)
Lemma root_sum n k : (0 < n)%Z -> csum n (fun i => cis (2 * PI * IZR (k * i) / IZR n)) = if (k mod n =? 0)%Z then RtoC (IZR n) else RtoC 0.
Proof.
  intros Hn. assert (Rn : IZR n <> 0) by (apply IZR_neq; lia).
  pose proof (Z.div_mod k n ltac:(lia)) as Ek. pose proof (Z.mod_pos_bound k n Hn) as Bk. set (r := (k mod n)%Z) in *. set (q := (k / n)%Z) in *.
  assert (E : forall i, cis (2 * PI * IZR (k * i) / IZR n) = cis (2 * PI * IZR (r * i) / IZR n)).
  { intros i. replace (2 * PI * IZR (k * i) / IZR n) with (2 * PI * IZR (q * i) + 2 * PI * IZR (r * i) / IZR n).
    - rewrite cis_add, cis_Z. ring.
    - rewrite Ek at 1. rewrite !mult_IZR, plus_IZR, mult_IZR. field. auto. }
  rewrite (csum_ext n _ _ (fun i _ => E i)). destruct (Z.eqb_spec r 0) as [R0|R0].
  - rewrite (csum_ext n _ (fun _ => RtoC 1)).
    + rewrite csum_R, rsum_const by lia. f_equal. ring.
    + intros i Hi. rewrite R0. replace (2 * PI * IZR (0 * i) / IZR n) with 0; [apply cis_0|]. rewrite Z.mul_0_l. field. auto.
  - set (w := cis (2 * PI * IZR r / IZR n)). assert (W : (RtoC 1 - w)%C <> RtoC 0).
    { intros X. apply (cis_root_neq n r ltac:(lia)). fold w. assert (w = (RtoC 1 - (RtoC 1 - w))%C) by ring. rewrite H, X. ring. }
    set (e := fun i => cis (2 * PI * IZR (r * i) / IZR n)).
    assert (G : ((RtoC 1 - w) * csum n e)%C = RtoC 0).
    { unfold csum. rewrite (csumn_geom w e).
      - unfold e. rewrite Z2Nat.id by lia. replace (2 * PI * IZR (r * n) / IZR n) with (2 * PI * IZR r) by (rewrite mult_IZR; field; auto).
        rewrite cis_Z. ring.
      - unfold e. rewrite Z.mul_0_r. replace (2 * PI * IZR 0 / IZR n) with 0 by (field; auto). apply cis_0.
      - intros i. unfold e, w. rewrite <- cis_add. f_equal. rewrite Z.mul_add_distr_l, Z.mul_1_r, plus_IZR. field. auto. }
    assert (Z0 : cnorm2 (RtoC 1 - w)%C * cnorm2 (csum n e) = 0) by (rewrite <- cnorm2_mul, G; unfold cnorm2, RtoC; cbn; ring).
    apply Rmult_integral in Z0 as [Z0|Z0]; apply cnorm2_zero in Z0; [contradiction|exact Z0].
Qed.

(** Parseval for one axis, for either sign of the exponent *)
Lemma parseval n (s : R) (f : Z -> C) : (0 < n)%Z -> s = 1 \/ s = -1 ->
  rsum n (fun u => cnorm2 (csum n (fun i => f i * cis (s * (2 * PI * IZR (u * i) / IZR n)))%C)) = IZR n * rsum n (fun i => cnorm2 (f i)).
Proof.
  intros Hn Hs. assert (Rn : IZR n <> 0) by (apply IZR_neq; lia).
  assert (Q : RtoC (rsum n (fun u => cnorm2 (csum n (fun i => f i * cis (s * (2 * PI * IZR (u * i) / IZR n)))%C))) = RtoC (IZR n * rsum n (fun i => cnorm2 (f i)))).
  { rewrite <- csum_R.
    transitivity (csum n (fun u => csum n (fun i => csum n (fun j => f i * Cconj (f j) * cis (s * (2 * PI * IZR (u * (i - j)) / IZR n)))))%C).
    { apply csum_ext. intros u Hu. rewrite cnorm2_conj, csum_conj, <- csum_scale_r. apply csum_ext. intros i Hi. rewrite <- csum_scale.
      apply csum_ext. intros j Hj. rewrite <- cconj_mul, cis_conj.
      transitivity (f i * Cconj (f j) * (cis (s * (2 * PI * IZR (u * i) / IZR n)) * cis (- (s * (2 * PI * IZR (u * j) / IZR n)))))%C; [ring|].
      rewrite <- cis_add. do 2 f_equal. rewrite Z.mul_sub_distr_l, minus_IZR. field. auto. }
    rewrite csum_swap. rewrite RtoC_mult, <- csum_R, <- csum_scale. apply csum_ext. intros i Hi.
    rewrite csum_swap. rewrite (csum_single n i); [|lia|].
    2:{ intros j Hj Hne. rewrite csum_scale.
      rewrite (csum_ext n _ (fun u => cis (2 * PI * IZR ((if Rlt_dec s 0 then (j - i) else (i - j)) * u) / IZR n)))
        by (intros u Hu; f_equal; destruct Hs as [-> | ->]; destruct (Rlt_dec _ 0); try lra; rewrite !mult_IZR, !minus_IZR; field; auto).
      rewrite root_sum by auto. destruct (Z.eqb_spec ((if Rlt_dec s 0 then (j - i) else (i - j)) mod n) 0) as [M|M]; [|ring].
      exfalso. apply Z.mod_divide in M; [|lia]. destruct M as [q M].
      assert (q <= -1 \/ q = 0 \/ 1 <= q)%Z as [|[|]] by lia; subst; destruct (Rlt_dec s 0); nia. }
    rewrite csum_scale, cnorm2_conj. rewrite (csum_ext n _ (fun _ => RtoC 1)).
    - rewrite csum_R, rsum_const by lia. rewrite Rmult_1_r. ring.
    - intros u Hu. rewrite Z.sub_diag, Z.mul_0_r. replace (s * (2 * PI * IZR 0 / IZR n)) with 0; [apply cis_0|]. field. auto. }
  apply (f_equal fst) in Q. exact Q.
Qed.

Lemma parseval2_gen n s f : (0 < n)%Z -> s = 1 \/ s = -1 ->
  rsum n (fun u => rsum n (fun v => cnorm2 (csum n (fun i => csum n (fun j => f i j * cis (s * (2 * PI * IZR (v * j) / IZR n))) * cis (s * (2 * PI * IZR (u * i) / IZR n)))%C)))
  = IZR n * IZR n * rsum n (fun i => rsum n (fun j => cnorm2 (f i j))).
Proof.
  intros Hn Hs. rewrite rsum_swap.
  rewrite (rsum_ext n _ (fun v => IZR n * rsum n (fun i => cnorm2 (csum n (fun j => f i j * cis (s * (2 * PI * IZR (v * j) / IZR n)))%C)))).
  2:{ intros v Hv. apply (parseval n s (fun i => csum n (fun j => f i j * cis (s * (2 * PI * IZR (v * j) / IZR n)))%C)); auto. }
  rewrite rsum_scale, rsum_swap. rewrite (rsum_ext n _ (fun i => IZR n * rsum n (fun j => cnorm2 (f i j)))).
  - rewrite rsum_scale. ring.
  - intros i Hi. apply (parseval n s (f i)); auto.
Qed.
Lemma dft2_energy n f : (0 < n)%Z ->
  rsum n (fun u => rsum n (fun v => cnorm2 (dft2 n f u v))) = IZR n * IZR n * rsum n (fun i => rsum n (fun j => cnorm2 (f i j))).
Proof.
  intros Hn. rewrite <- (parseval2_gen n (-1) f) by auto. apply rsum_ext. intros u Hu. apply rsum_ext. intros v Hv. f_equal. unfold dft2.
  apply csum_ext. intros i Hi. f_equal; [|f_equal; ring]. apply csum_ext. intros j Hj. f_equal. f_equal. ring.
Qed.
Lemma idft2_energy n f : (0 < n)%Z ->
  rsum n (fun i => rsum n (fun j => cnorm2 (idft2 n f i j))) = / (IZR n * IZR n) * rsum n (fun u => rsum n (fun v => cnorm2 (f u v))).
Proof.
  intros Hn. assert (Rn : IZR n <> 0) by (apply IZR_neq; lia).
  rewrite (rsum_ext n _ (fun i => (/ (IZR n * IZR n) * / (IZR n * IZR n)) * rsum n (fun j => cnorm2 (csum n (fun u => csum n (fun v => f u v * cis (1 * (2 * PI * IZR (j * v) / IZR n))) * cis (1 * (2 * PI * IZR (i * u) / IZR n)))%C)))).
  - rewrite rsum_scale, (parseval2_gen n 1 f) by auto. field. auto.
  - intros i Hi. rewrite <- rsum_scale. apply rsum_ext. intros j Hj. unfold idft2. rewrite cnorm2_mul, cnorm2_R. f_equal. f_equal.
    apply csum_ext. intros u Hu. f_equal; [|f_equal; rewrite (Z.mul_comm i); ring]. apply csum_ext. intros v Hv. f_equal. f_equal. rewrite (Z.mul_comm j). ring.
Qed.
Lemma dft2_hom n c f u v : dft2 n (fun i j => c * f i j)%C u v = (c * dft2 n f u v)%C.
Proof.
  unfold dft2. rewrite <- csum_scale. apply csum_ext. intros i Hi. rewrite Cmult_assoc. f_equal. rewrite <- csum_scale. apply csum_ext. intros j Hj. ring.
Qed.
Lemma idft2_hom n c f i j : idft2 n (fun u v => c * f u v)%C i j = (c * idft2 n f i j)%C.
Proof.
  unfold idft2. transitivity (RtoC (/ (IZR n * IZR n)) * (c * csum n (fun u => csum n (fun v => f u v * cis (2 * PI * IZR (v * j) / IZR n)) * cis (2 * PI * IZR (u * i) / IZR n))))%C; [|ring].
  f_equal. rewrite <- csum_scale. apply csum_ext. intros u Hu. rewrite Cmult_assoc. f_equal. rewrite <- csum_scale. apply csum_ext. intros v Hv. ring.
Qed.
Lemma dft2_ext n f g u v : (forall i j, (0 <= i < n)%Z -> (0 <= j < n)%Z -> f i j = g i j) -> dft2 n f u v = dft2 n g u v.
Proof. intros H. unfold dft2. apply csum_ext. intros i Hi. f_equal. apply csum_ext. intros j Hj. rewrite H by auto. reflexivity. Qed.
Lemma idft2_ext n f g u v : (forall i j, (0 <= i < n)%Z -> (0 <= j < n)%Z -> f i j = g i j) -> idft2 n f u v = idft2 n g u v.
Proof. intros H. unfold idft2. f_equal. apply csum_ext. intros i Hi. f_equal. apply csum_ext. intros j Hj. rewrite H by auto. reflexivity. Qed.

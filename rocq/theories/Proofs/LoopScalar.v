(** Scalar recursions of the control loop. *)
From Verif.Base Require Import Vec.

Open Scope Qc_scope.

Lemma qc_abs_mul x y : qc_abs (x * y) = qc_abs x * qc_abs y.
Proof.
  unfold qc_abs. destruct (Qclt_le_dec x 0) as [Hx|Hx], (Qclt_le_dec y 0) as [Hy|Hy], (Qclt_le_dec (x * y) 0) as [Hp|Hp]; try ring.
  - exfalso. assert (0 < (- x) * (- y)) by qcnra. revert Hp. replace (x * y) with ((- x) * (- y)) by ring. qclra.
  - assert (x * y = 0) as E by (apply Qcle_antisym; auto; qcnra). transitivity (- (x * y)); [rewrite E|]; ring.
  - assert (x * y = 0) as E by (apply Qcle_antisym; auto; qcnra). transitivity (- (x * y)); [rewrite E|]; ring.
  - exfalso. assert (0 <= x * y) by qcnra. revert Hp. qclra.
Qed.
Lemma qc_abs_tri x y : qc_abs (x + y) <= qc_abs x + qc_abs y.
Proof. unfold qc_abs. destruct (Qclt_le_dec x 0), (Qclt_le_dec y 0), (Qclt_le_dec (x + y) 0); qclra. Qed.
Lemma qc_abs_le x b : - b <= x -> x <= b -> qc_abs x <= b.
Proof. intros. unfold qc_abs. destruct (Qclt_le_dec x 0); qclra. Qed.
Lemma qc_abs_0 : qc_abs 0 = 0.
Proof. vm_compute. reflexivity. Qed.

Lemma qcpow_nonneg r n : 0 <= r -> 0 <= r ^ n.
Proof. intros H. induction n; simpl; [qclra|qcnra]. Qed.

(** Bernoulli *)
Lemma pow_bernoulli r n : 0 < r -> r <= 1 -> r ^ n * (1 + qz (Z.of_nat n) * (/ r - 1)) <= 1.
Proof.
  intros H0 H1. assert (Hr : r <> 0) by (intros ->; revert H0; qclra).
  assert (Hh : 0 <= / r - 1). { assert (r * / r = 1) by (field; auto). qcnra. }
  induction n.
  - cbn [Qcpower Z.of_nat]. rewrite qz_0. qclra.
  - rewrite Nat2Z.inj_succ. unfold Z.succ. rewrite (qz_add (Z.of_nat n) 1), qz_1. cbn [Qcpower].
    remember (/ r - 1) as h eqn:Eh. assert (Er : r * h = 1 - r) by (rewrite Eh; field; auto).
    remember (qz (Z.of_nat n)) as k eqn:Ek. assert (0 <= k) by (rewrite Ek, <- qz_0; apply qz_le; lia).
    replace (r * r ^ n * (1 + (k + 1) * h)) with (r ^ n * (r + r * h + k * (r * h))) by ring.
    rewrite Er. replace (r ^ n * (r + (1 - r) + k * (1 - r))) with (r ^ n * (1 + k * (1 - r))) by ring.
    assert (0 <= r ^ n) by (apply qcpow_nonneg; qclra).
    assert (k * (1 - r) <= k * h). { rewrite <- Er. assert (r * h <= h) by qcnra. qcnra. }
    apply Qcle_trans with (r ^ n * (1 + k * h)); [qcnra|exact IHn].
Qed.

Lemma pow_mono r n m : 0 <= r -> r <= 1 -> (n <= m)%nat -> r ^ m <= r ^ n.
Proof.
  intros H0 H1 H. induction H; [apply Qcle_refl|]. cbn [Qcpower].
  assert (0 <= r ^ m) by (apply qcpow_nonneg; auto). qcnra.
Qed.

Lemma pow_small r e : 0 <= r -> r < 1 -> 0 < e -> exists N, forall n, (N <= n)%nat -> r ^ n < e.
Proof.
  intros H0 H1 He. destruct (Qc_eq_dec r 0) as [->|Hr].
  - exists 1%nat. intros [|n] Hn; [lia|]. cbn [Qcpower]. qclra.
  - assert (Hrp : 0 < r) by (destruct (Qclt_le_dec 0 r); auto; exfalso; apply Hr; apply Qcle_antisym; auto).
    assert (Hi : r * / r = 1) by (field; auto).
    assert (Hh : 0 < / r - 1) by qcnra.
    remember (/ r - 1) as h eqn:Eh.
    assert (Hhe : h * e <> 0) by (intros E; assert (0 < h * e) by qcnra; rewrite E in H; revert H; qclra).
    exists (Z.to_nat (qc_ceil (/ (h * e)))). intros n Hn.
    assert (Hk : / (h * e) <= qz (Z.of_nat n)).
    { destruct (qc_ceil_spec (/ (h * e))) as [Hc _]. apply Qcle_trans with (1 := Hc). apply qz_le. lia. }
    pose proof (pow_bernoulli r n Hrp (Qclt_le_weak _ _ H1)) as HB. rewrite <- Eh in HB.
    remember (qz (Z.of_nat n)) as k.
    assert (Hke : 1 <= k * (h * e)).
    { assert (0 < h * e) by qcnra. assert (/ (h * e) * (h * e) = 1) by (field; split; intros ->; apply Hhe; ring). qcnra. }
    assert (0 <= r ^ n) by (apply qcpow_nonneg; auto).
    destruct (Qclt_le_dec (r ^ n) e) as [|Hc]; auto. exfalso.
    assert (e * (1 + k * h) <= r ^ n * (1 + k * h)). { assert (0 <= k * h) by (assert (0 <= k) by (subst k; rewrite <- qz_0; apply qz_le; lia); qcnra). qcnra. }
    assert (e * (1 + k * h) = e + k * (h * e)) by ring. qclra.
Qed.

(** u' = (1-g) u + g t *)
Lemma geometric (g t : Qc) (u : nat -> Qc) N : u 0%nat = 0 ->
  (forall n, (n < N)%nat -> u (S n) = u n + g * (t - u n)) ->
  forall n, (n <= N)%nat -> u n = (1 - (1 - g) ^ n) * t.
Proof.
  intros H0 HS. induction n; intros Hn.
  - rewrite H0. cbn [Qcpower]. ring.
  - rewrite HS by lia. rewrite IHn by lia. cbn [Qcpower]. ring.
Qed.

(** tracking *)
Lemma tracking (g v eta : Qc) (r nu u : nat -> Qc) N : 0 < g -> g <= 1 -> u 0%nat = 0 ->
  (forall n, (n < N)%nat -> u (S n) = u n + g * (r n + nu n - u n)) ->
  (forall n, (n < N)%nat -> qc_abs (r (S n) - r n) <= v) ->
  (forall n, (n < N)%nat -> qc_abs (nu n) <= eta) ->
  0 <= v -> 0 <= eta ->
  forall n, (n <= N)%nat -> qc_abs (r n - u n) <= (1 - g) ^ n * qc_abs (r 0%nat) + (v / g + eta).
Proof.
  intros Hg Hg1 H0 HS Hr Hnu Hv He.
  assert (Hg0 : g <> 0) by (intros ->; revert Hg; qclra).
  assert (Hvg : 0 <= v / g /\ g * (v / g) = v).
  { assert (E : g * (v / g) = v) by (field; auto). split; auto. destruct (Qclt_le_dec (v / g) 0); auto. exfalso. qcnra. }
  destruct Hvg as [Hvg Evg]. remember (v / g) as q eqn:Eq.
  induction n; intros Hn.
  - rewrite H0. cbn [Qcpower]. replace (r 0%nat - 0) with (r 0%nat) by ring. qclra.
  - rewrite HS by lia. specialize (IHn ltac:(lia)). specialize (Hr n ltac:(lia)). specialize (Hnu n ltac:(lia)).
    replace (r (S n) - (u n + g * (r n + nu n - u n))) with ((1 - g) * (r n - u n) + ((r (S n) - r n) + (- g) * nu n)) by ring.
    eapply Qcle_trans; [apply qc_abs_tri|].
    assert (A1 : qc_abs ((1 - g) * (r n - u n)) <= (1 - g) * ((1 - g) ^ n * qc_abs (r 0%nat) + (q + eta))).
    { rewrite qc_abs_mul, (qc_abs_pos (1 - g)) by qclra. pose proof (qc_abs_nonneg (r n - u n)). assert (0 <= 1 - g) by qclra. qcnra. }
    assert (A2 : qc_abs (r (S n) - r n + - g * nu n) <= v + g * eta).
    { eapply Qcle_trans; [apply qc_abs_tri|]. rewrite qc_abs_mul, qc_abs_opp, (qc_abs_pos g) by qclra. qcnra. }
    cbn [Qcpower].
    replace ((1 - g) * (1 - g) ^ n * qc_abs (r 0%nat) + (q + eta)) with ((1 - g) * ((1 - g) ^ n * qc_abs (r 0%nat) + (q + eta)) + (g * q + g * eta)) by ring.
    rewrite Evg. qclra.
Qed.

(** ** Delay: E (k + d + 1) = E (k + d) - g * E k, as long as k + d + 1 < N *)
Section DelayLoop.
  Variables (g : Qc) (d : nat) (E : nat -> Qc).
  Hypothesis Hg : 0 < g.
  Hypothesis Hg1 : g <= 1.
  Hypothesis Hgd : g * qz (Z.of_nat d) < 1.
  Hypothesis ES : forall k, E (S (k + d)) = E (k + d)%nat - g * E k.

  Let rho : Qc := 1 - g + g * (g * qz (Z.of_nat d)).
  Lemma rho_range : 0 <= rho /\ rho < 1.
  Proof.
    unfold rho. assert (0 <= qz (Z.of_nat d)) by (rewrite <- qz_0; apply qz_le; lia).
    assert (0 <= g * qz (Z.of_nat d)) by qcnra. remember (g * qz (Z.of_nat d)) as p. split; qcnra.
  Qed.

  Lemma telescope M K : (forall j, (K <= j)%nat -> qc_abs (E j) <= M) ->
    forall j k, (K + d <= k)%nat -> qc_abs (E (k + j)%nat - E k) <= qz (Z.of_nat j) * (g * M).
  Proof.
    intros HM j k Hk. induction j.
    - rewrite Nat.add_0_r. replace (E k - E k) with 0 by ring. rewrite qc_abs_0. cbn [Z.of_nat]. rewrite qz_0. qclra.
    - replace (k + S j)%nat with (S ((k + j - d) + d))%nat by lia. rewrite ES.
      replace (k + j - d + d)%nat with (k + j)%nat by lia.
      replace (E (k + j)%nat - g * E (k + j - d)%nat - E k) with (E (k + j)%nat - E k + (- g) * E (k + j - d)%nat) by ring.
      eapply Qcle_trans; [apply qc_abs_tri|]. rewrite qc_abs_mul, qc_abs_opp, (qc_abs_pos g) by qclra.
      specialize (HM (k + j - d)%nat ltac:(lia)).
      rewrite Nat2Z.inj_succ. unfold Z.succ. rewrite (qz_add (Z.of_nat j) 1), qz_1.
      replace ((qz (Z.of_nat j) + 1) * (g * M)) with (qz (Z.of_nat j) * (g * M) + g * M) by ring.
      apply Qcplus_le_compat; auto. qcnra.
  Qed.

  Lemma contract M K : (forall j, (K <= j)%nat -> qc_abs (E j) <= M) ->
    forall j, (K + 2 * d + 1 <= j)%nat -> qc_abs (E j) <= rho * M.
  Proof.
    intros HM j Hj. replace j with (S ((j - 1 - d) + d))%nat by lia. rewrite ES.
    remember (j - 1 - d)%nat as k. assert (Hk : (K + d <= k)%nat) by lia.
    replace (E (k + d)%nat - g * E k) with ((1 - g) * E (k + d)%nat + g * (E (k + d)%nat - E k)) by ring.
    eapply Qcle_trans; [apply qc_abs_tri|]. rewrite !qc_abs_mul, (qc_abs_pos g), (qc_abs_pos (1 - g)) by qclra.
    pose proof (telescope M K HM d k Hk) as HT. pose proof (HM (k + d)%nat ltac:(lia)) as HE.
    unfold rho. remember (qz (Z.of_nat d)) as p. 
    replace ((1 - g + g * (g * p)) * M) with ((1 - g) * M + g * (p * (g * M))) by ring.
    apply Qcplus_le_compat.
    - assert (0 <= 1 - g) by qclra. remember (qc_abs (E (k + d)%nat)) as y. qcnra.
    - remember (qc_abs (E (k + d)%nat - E k)) as y. remember (p * (g * M)) as z. qcnra.
  Qed.

  (** bounded *)
  Lemma bounded_prefix n : exists B, 0 <= B /\ forall j, (j <= n)%nat -> qc_abs (E j) <= B.
  Proof.
    induction n as [|n (B & HB0 & HB)].
    - exists (qc_abs (E 0%nat)). split; [apply qc_abs_nonneg|]. intros j Hj. replace j with 0%nat by lia. apply Qcle_refl.
    - exists (B + qc_abs (E (S n))). pose proof (qc_abs_nonneg (E (S n))). split; [qclra|].
      intros j Hj. destruct (Nat.eq_dec j (S n)) as [->|]; [qclra|]. specialize (HB j ltac:(lia)). qclra.
  Qed.

  (** the window version of [contract]: bounds on all earlier values *)
  Lemma bounded : exists B, 0 <= B /\ forall j, qc_abs (E j) <= B.
  Proof.
    destruct (bounded_prefix (2 * d)) as (B & HB0 & HB). exists B. split; auto.
    intros j. induction j as [j IH] using lt_wf_ind.
    destruct (le_lt_dec j (2 * d)) as [Hj|Hj]; auto.
    replace j with (S ((j - 1 - d) + d))%nat by lia. rewrite ES.
    remember (j - 1 - d)%nat as k. assert (Hk : (d <= k)%nat) by lia.
    replace (E (k + d)%nat - g * E k) with ((1 - g) * E (k + d)%nat + g * (E (k + d)%nat - E k)) by ring.
    eapply Qcle_trans; [apply qc_abs_tri|]. rewrite !qc_abs_mul, (qc_abs_pos g), (qc_abs_pos (1 - g)) by qclra.
    assert (HT : forall i, (i <= d)%nat -> qc_abs (E (k + i)%nat - E k) <= qz (Z.of_nat i) * (g * B)).
    { induction i; intros Hi.
      - rewrite Nat.add_0_r. replace (E k - E k) with 0 by ring. rewrite qc_abs_0. cbn [Z.of_nat]. rewrite qz_0. qclra.
      - replace (k + S i)%nat with (S ((k + i - d) + d))%nat by lia. rewrite ES.
        replace (k + i - d + d)%nat with (k + i)%nat by lia.
        replace (E (k + i)%nat - g * E (k + i - d)%nat - E k) with (E (k + i)%nat - E k + (- g) * E (k + i - d)%nat) by ring.
        eapply Qcle_trans; [apply qc_abs_tri|]. rewrite qc_abs_mul, qc_abs_opp, (qc_abs_pos g) by qclra.
        pose proof (IH (k + i - d)%nat ltac:(lia)) as HM.
        rewrite Nat2Z.inj_succ. unfold Z.succ. rewrite (qz_add (Z.of_nat i) 1), qz_1.
        replace ((qz (Z.of_nat i) + 1) * (g * B)) with (qz (Z.of_nat i) * (g * B) + g * B) by ring.
        apply Qcplus_le_compat; [apply IHi; lia|]. qcnra. }
    pose proof (HT d ltac:(lia)) as HTd. pose proof (IH (k + d)%nat ltac:(lia)) as HE.
    destruct rho_range as [R0 R1]. unfold rho in R0, R1.
    remember (qz (Z.of_nat d)) as p. remember (qc_abs (E (k + d)%nat)) as y. remember (qc_abs (E (k + d)%nat - E k)) as z.
    assert (A1 : (1 - g) * y <= (1 - g) * B) by (assert (0 <= 1 - g) by qclra; qcnra).
    assert (A2 : g * z <= g * (p * (g * B))) by (remember (p * (g * B)) as w; qcnra).
    assert (A3 : (1 - g) * B + g * (p * (g * B)) = (1 - g + g * (g * p)) * B) by ring.
    assert (A4 : (1 - g + g * (g * p)) * B <= B) by (remember (1 - g + g * (g * p)) as q; qcnra).
    qclra.
  Qed.

  Lemma delay_converges e : 0 < e -> exists N, forall n, (N <= n)%nat -> qc_abs (E n) <= e.
  Proof.
    intros He. destruct bounded as (B & HB0 & HB). destruct rho_range as [R0 R1].
    assert (HC : forall m j, (m * (2 * d + 1) <= j)%nat -> qc_abs (E j) <= rho ^ m * B).
    { induction m; intros j Hj.
      - cbn [Qcpower]. replace (1 * B) with B by ring. apply HB.
      - cbn [Qcpower]. replace (rho * rho ^ m * B) with (rho * (rho ^ m * B)) by ring.
        apply (contract (rho ^ m * B) (m * (2 * d + 1))); [apply IHm|]. lia. }
    assert (HB1 : 0 < B + 1) by qclra.
    assert (HBn : B + 1 <> 0) by (intros E1; rewrite E1 in HB1; revert HB1; qclra).
    pose proof (Qcmult_inv_r (B + 1) HBn) as Hi.
    assert (Hp : 0 < / (B + 1)). { destruct (Qclt_le_dec 0 (/ (B + 1))); auto. exfalso. qcnra. }
    destruct (pow_small rho (e * / (B + 1)) R0 R1) as [m Hm]; [qcnra|].
    exists (m * (2 * d + 1))%nat. intros n Hn. eapply Qcle_trans; [apply (HC m n Hn)|].
    specialize (Hm m (Nat.le_refl _)). pose proof (qcpow_nonneg rho m R0) as Hpn.
    remember (rho ^ m) as q. remember (/ (B + 1)) as ib.
    assert (q * (B + 1) <= e * ib * (B + 1)) by qcnra.
    assert (e * ib * (B + 1) = e * ((B + 1) * ib)) by ring. rewrite Hi in H0.
    assert (q * B <= q * (B + 1)) by qcnra. qclra.
  Qed.
End DelayLoop.

(** one frame of delay: the quadratic form x^2 - x y + g y^2 is multiplied by g in every frame *)
Lemma one_delay_form (g t : Qc) (E : nat -> Qc) : E 0%nat = t -> E 1%nat = t ->
  (forall k, E (S (S k)) = E (S k) - g * E k) ->
  forall k, E (S k) * E (S k) - E (S k) * E k + g * (E k * E k) = g ^ k * (g * (t * t)).
Proof.
  intros H0 H1 HS. induction k.
  - rewrite H0, H1. cbn [Qcpower]. ring.
  - rewrite HS. cbn [Qcpower].
    replace ((E (S k) - g * E k) * (E (S k) - g * E k) - (E (S k) - g * E k) * E (S k) + g * (E (S k) * E (S k)))
      with (g * (E (S k) * E (S k) - E (S k) * E k + g * (E k * E k))) by ring.
    rewrite IHk. ring.
Qed.

Lemma mul_ge1 a w : 1 <= a -> 0 <= w -> w <= a * w.
Proof. intros. qcnra. Qed.
Lemma mul_le_l a x y : 0 <= a -> x <= y -> a * x <= a * y.
Proof. intros. qcnra. Qed.
Lemma sq_nonneg x : 0 <= x * x.
Proof. qcnra. Qed.

Lemma one_delay_unstable (g t : Qc) (E : nat -> Qc) : 1 <= g -> E 0%nat = t -> E 1%nat = t ->
  (forall k, E (S (S k)) = E (S k) - g * E k) ->
  forall k, t * t <= (1 + 1 + 1) * qc_max (E k * E k) (E (S k) * E (S k)).
Proof.
  intros Hg H0 H1 HS k. pose proof (one_delay_form g t E H0 H1 HS k) as HF.
  pose proof (qc_max_l (E k * E k) (E (S k) * E (S k))) as ML. pose proof (qc_max_r (E k * E k) (E (S k) * E (S k))) as MR.
  assert (HP : 1 <= g ^ k). { clear - Hg. induction k; cbn [Qcpower]; [qclra|qcnra]. }
  remember (qc_max (E k * E k) (E (S k) * E (S k))) as m. remember (E k) as x. remember (E (S k)) as y.
  assert (Hg0 : 0 <= g) by qclra.
  pose proof (mul_ge1 (g ^ k) (g * (t * t)) HP (Qcle_trans _ _ _ (sq_nonneg t) (mul_ge1 g (t * t) Hg (sq_nonneg t)))) as A.
  rewrite <- HF in A. clear HF HP.
  pose proof (sq_nonneg x) as Sx. pose proof (sq_nonneg (x + y)) as Sxy.
  assert (B : 0 <= m) by qclra.
  assert (C1 : - (y * x) <= m). { assert (Eq : (x + y) * (x + y) = x * x + y * y + (y * x + y * x)) by ring. rewrite Eq in Sxy. remember (y * x) as yx. clear - Sxy ML MR. qclra. }
  pose proof (mul_le_l g _ _ Hg0 ML) as D. pose proof (mul_ge1 g m Hg B) as D2.
  assert (F : g * (t * t) <= g * ((1 + 1 + 1) * m)).
  { replace (g * ((1 + 1 + 1) * m)) with (g * m + g * m + g * m) by ring. remember (g * (x * x)) as gx. remember (g * m) as gm. remember (y * x) as yx. remember (g * (t * t)) as gt. clear - A C1 D D2 MR. qclra. }
  destruct (Qclt_le_dec ((1 + 1 + 1) * m) (t * t)) as [HL|]; auto. exfalso.
  remember (t * t) as tt. remember ((1 + 1 + 1) * m) as mm. clear - Hg F HL. qcnra.
Qed.

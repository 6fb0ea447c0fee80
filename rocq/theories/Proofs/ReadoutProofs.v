From Coq Require Import ZArith Reals List Bool Lia Lra.
From Flocq Require Import Core BinarySingleNaN.
From Verif.Base Require Import Float64.
From Verif.Model Require Import Readout64.
From Verif.Spec Require Import ReadoutSpec.
Import ListNotations.
Open Scope R_scope.

Lemma bpow_pos x : 0 < bpow radix2 x.
Proof. apply bpow_gt_0. Qed.
Lemma bpow_le' a b : (a <= b)%Z -> bpow radix2 a <= bpow radix2 b.
Proof. apply bpow_le. Qed.
Lemma IZR_two n : (0 <= n)%Z -> IZR (2 ^ n) = bpow radix2 n.
Proof. intro H. rewrite <- (IZR_Zpower radix2) by auto. reflexivity. Qed.

(** What is compared with wfsFrameNo, over the reals. *)
Definition quot (L E : R) (k : Z) : R := rnd64 (rnd64 (L * IZR k) / E).
Lemma quot_mono L E j k : 0 < L -> 0 < E -> (j <= k)%Z -> quot L E j <= quot L E k.
Proof.
  intros HL HE H. unfold quot. apply rnd_le. apply Rmult_le_compat_r; [left; apply Rinv_0_lt_compat; auto|]. apply rnd_le.
  apply Rmult_le_compat_l; [lra|]. apply IZR_le; auto.
Qed.
Lemma rep0 : rep64 0.
Proof. apply generic_format_0. Qed.
Lemma rnd_0 : rnd64 0 = 0.
Proof. apply rnd_rep, rep0. Qed.
Lemma rnd_nonneg x : 0 <= x -> 0 <= rnd64 x.
Proof. intro H. rewrite <- rnd_0. apply rnd_le; auto. Qed.
Lemma quot_nonneg L E k : 0 < L -> 0 < E -> (0 <= k)%Z -> 0 <= quot L E k.
Proof.
  intros HL HE H. apply rnd_nonneg. apply Rmult_le_pos; [|left; apply Rinv_0_lt_compat; auto]. apply rnd_nonneg. apply Rmult_le_pos; [lra|apply IZR_le; auto].
Qed.
(** Within one of the exact value, in whole numbers. *)
Lemma quot_near L E k : bpow radix2 (-400) <= L -> L <= E -> (1 <= k <= 2 ^ 50)%Z ->
  IZR (Zfloor (L * IZR k / E)) - 1 / 2 <= quot L E k <= IZR (Zfloor (L * IZR k / E)) + 3 / 2.
Proof.
  intros HL HE Hk. pose proof (bpow_pos (-400)) as P0. assert (0 < L) by lra. assert (0 < E) by lra.
  assert (K1 : 1 <= IZR k) by (apply IZR_le; lia).
  assert (K2 : IZR k <= bpow radix2 50) by (rewrite <- IZR_two by lia; apply IZR_le; lia).
  set (X := L * IZR k) in *. assert (X1 : L <= X) by (unfold X; rewrite <- (Rmult_1_r L) at 1; apply Rmult_le_compat_l; lra).
  pose proof (rnd_error X) as Er. rewrite (Rabs_pos_eq X) in Er by lra.
  assert (X2 : bpow radix2 (-1022) <= X). { apply Rle_trans with (bpow radix2 (-400)); [apply bpow_le'; lia|lra]. }
  specialize (Er X2). set (N := Zfloor (X / E)).
  assert (Q : X / E <= IZR k). { unfold X. apply (Rmult_le_reg_r E); auto. unfold Rdiv. rewrite Rmult_assoc, Rinv_l, Rmult_1_r by lra. rewrite (Rmult_comm L). apply Rmult_le_compat_l; lra. }
  assert (D : Rabs (rnd64 X / E - X / E) <= / 4).
  { replace (rnd64 X / E - X / E) with ((rnd64 X - X) * / E) by (field; lra). rewrite Rabs_mult, (Rabs_pos_eq (/ E)) by (left; apply Rinv_0_lt_compat; auto).
    apply Rle_trans with (bpow radix2 (-53) * X * / E); [apply Rmult_le_compat_r; [left; apply Rinv_0_lt_compat; auto|auto]|].
    rewrite Rmult_assoc. change (X * / E) with (X / E). apply Rle_trans with (bpow radix2 (-53) * bpow radix2 50).
    - apply Rmult_le_compat_l; [left; apply bpow_pos|lra].
    - rewrite <- bpow_plus. apply Rle_trans with (bpow radix2 (-2)); [apply bpow_le'; lia|cbn; lra]. }
  assert (D' : X / E - / 4 <= rnd64 X / E <= X / E + / 4) by (apply Rabs_le_inv in D; lra).
  assert (F1 : IZR N <= X / E) by apply Zfloor_lb. assert (F2 : X / E < IZR N + 1) by apply Zfloor_ub.
  assert (N0 : (0 <= N)%Z). { apply Zfloor_lub. apply Rmult_le_pos; [lra|left; apply Rinv_0_lt_compat; auto]. }
  assert (N1 : (N <= 2 ^ 50)%Z). { apply le_IZR. rewrite IZR_two by lia. lra. }
  unfold quot. fold X. split.
  - replace (IZR N - 1 / 2) with (IZR (2 * N - 1) / 2) by (rewrite minus_IZR, mult_IZR; lra).
    rewrite <- (rnd_rep (IZR (2 * N - 1) / 2)) by (apply rep_half; lia). apply rnd_le. rewrite minus_IZR, mult_IZR. lra.
  - replace (IZR N + 3 / 2) with (IZR (2 * N + 3) / 2) by (rewrite plus_IZR, mult_IZR; lra).
    rewrite <- (rnd_rep (IZR (2 * N + 3) / 2)) by (apply rep_half; lia). apply rnd_le. rewrite plus_IZR, mult_IZR. lra.
Qed.
(** The computation in floats gives it. *)
Lemma due_quot lt e i : time64 lt -> time64 e -> (0 <= i)%Z -> (i + 1 <= 2 ^ 50)%Z ->
  exists d, due64 lt e i = Some d /\ IZR d <= quot (B2R lt) (B2R e) (i + 1) < IZR d + 1.
Proof.
  intros [F1 T1] [F2 T2] Hi Hk. pose proof (bpow_pos (-400)) as P0. pose proof (bpow_pos 400).
  destruct (ofZ_correct (i + 1)) as [Fk Ek]; [lia|]. assert (K1 : 1 <= IZR (i + 1)) by (apply IZR_le; lia).
  assert (K2 : IZR (i + 1) <= bpow radix2 50) by (rewrite <- IZR_two by lia; apply IZR_le; lia).
  assert (X : 0 <= B2R lt * IZR (i + 1) <= bpow radix2 450).
  { split; [apply Rmult_le_pos; lra|]. change 450%Z with (400 + 50)%Z. rewrite bpow_plus. apply Rmult_le_compat; lra. }
  destruct (mul_correct lt (ofZ64 (i + 1)) F1 Fk) as [Fm Em].
  { rewrite Ek, Rabs_pos_eq by lra. apply Rle_trans with (bpow radix2 450); [lra|apply bpow_le'; lia]. }
  rewrite Ek in Em. assert (Ne : B2R e <> 0) by (apply Rgt_not_eq; lra).
  assert (M : 0 <= rnd64 (B2R lt * IZR (i + 1)) <= bpow radix2 450).
  { split; [apply rnd_nonneg; lra|]. rewrite <- (rnd_rep (bpow radix2 450)); [apply rnd_le; lra|]. apply generic_format_bpow. rewrite fexp_FLT. unfold FLT_exp. lia. }
  assert (I : 0 < / B2R e <= bpow radix2 400).
  { split; [apply Rinv_0_lt_compat; lra|]. assert (X4 : bpow radix2 400 = / bpow radix2 (-400)) by (rewrite <- bpow_opp; reflexivity). rewrite X4. apply Rinv_le; lra. }
  destruct (div_correct (mul64 lt (ofZ64 (i + 1))) e Fm Ne) as [Fd Ed].
  { rewrite Em. unfold Rdiv. rewrite Rabs_pos_eq by (apply Rmult_le_pos; lra).
    apply Rle_trans with (bpow radix2 450 * bpow radix2 400); [apply Rmult_le_compat; lra|]. rewrite <- bpow_plus. apply bpow_le'. lia. }
  rewrite Em in Ed. destruct (int_correct _ Fd) as (n & E1 & E2 & _).
  - rewrite Ed. apply (quot_nonneg (B2R lt) (B2R e) (i + 1)); try lra. lia.
  - exists n. split; [exact E1|]. rewrite Ed in E2. exact E2.
Qed.

Lemma reads_cons b l : reads (b :: l) = ((if b then 1 else 0) + reads l)%Z.
Proof. unfold reads. cbn [filter]. destruct b; cbn [length]; lia. Qed.
Definition floor_at (L E : R) (k : Z) : Z := Zfloor (L * IZR k / E).
Lemma floor_step L E k : 0 < L -> L <= E -> (floor_at L E k <= floor_at L E (k + 1) <= floor_at L E k + 1)%Z.
Proof.
  intros HL HE. unfold floor_at. assert (D : L * IZR (k + 1) / E = L * IZR k / E + L / E) by (rewrite plus_IZR; field; lra).
  assert (I : 0 < / E) by (apply Rinv_0_lt_compat; lra).
  assert (Q : 0 <= L / E <= 1). { split; [apply Rmult_le_pos; lra|]. apply (Rmult_le_reg_r E); [lra|]. unfold Rdiv. rewrite Rmult_assoc, Rinv_l by lra. lra. }
  split.
  - apply Zfloor_le. lra.
  - apply Z.lt_succ_r. unfold Z.succ. apply lt_IZR. pose proof (Zfloor_ub (L * IZR k / E)). pose proof (Zfloor_lb (L * IZR (k + 1) / E)).
    set (a := Zfloor (L * IZR (k + 1) / E)) in *. rewrite !plus_IZR. lra.
Qed.
Lemma int_le a b (q r : R) : IZR a <= q -> q <= r -> r < IZR b + 1 -> (a <= b)%Z.
Proof. intros. apply Z.lt_succ_r. apply lt_IZR. unfold Z.succ. rewrite plus_IZR. lra. Qed.

(** The count of reads, from any point on. *)
Lemma flags_bounds lt e : time64 lt -> time64 e -> B2R lt <= B2R e -> forall n i c,
  (0 <= i)%Z -> (i + Z.of_nat n <= 2 ^ 50)%Z -> IZR c <= quot (B2R lt) (B2R e) i -> (floor_at (B2R lt) (B2R e) i - 1 <= c <= floor_at (B2R lt) (B2R e) i + 1)%Z ->
  exists l, flags64 lt e n i c = Some l /\ length l = n /\
    (floor_at (B2R lt) (B2R e) (i + Z.of_nat n) - 1 <= c + reads l <= floor_at (B2R lt) (B2R e) (i + Z.of_nat n) + 1)%Z.
Proof.
  intros T1 T2 Le n. assert (L0 : bpow radix2 (-400) <= B2R lt) by (destruct T1; tauto). pose proof (bpow_pos (-400)).
  induction n as [|n IH]; intros i c Hi Hn Hc Hb.
  - exists []. cbn [flags64]. split; [reflexivity|]. split; [reflexivity|]. change (reads []) with 0%Z. replace (i + Z.of_nat 0)%Z with i by lia. lia.
  - destruct (due_quot lt e i) as (d & Ed & Bd); auto; [lia|].
    pose proof (quot_near (B2R lt) (B2R e) (i + 1) L0 Le ltac:(lia)) as Nr. fold (floor_at (B2R lt) (B2R e) (i + 1)) in Nr.
    pose proof (floor_step (B2R lt) (B2R e) i ltac:(lra) Le) as Fs.
    assert (D1 : (floor_at (B2R lt) (B2R e) (i + 1) - 1 <= d)%Z).
    { apply (int_le _ _ (quot (B2R lt) (B2R e) (i + 1) - 1 / 2) (quot (B2R lt) (B2R e) (i + 1))); [rewrite minus_IZR|..]; lra. }
    assert (D2 : (d <= floor_at (B2R lt) (B2R e) (i + 1) + 1)%Z).
    { apply (int_le _ _ (quot (B2R lt) (B2R e) (i + 1)) (quot (B2R lt) (B2R e) (i + 1))); [..|rewrite plus_IZR]; lra. }
    assert (Cd : (c <= d)%Z).
    { apply (int_le _ _ (quot (B2R lt) (B2R e) i) (quot (B2R lt) (B2R e) (i + 1))); [auto|apply quot_mono; [lra|lra|lia]|lra]. }
    cbn [flags64]. unfold sched64. rewrite Ed. cbv beta iota. destruct (Z.eqb_spec d c) as [Eq|Ne]; cbn [negb].
    + subst d. destruct (IH (i + 1)%Z c) as (l & El & Ll & Bl); try lia; [lra|]. rewrite El. exists (false :: l). split; [reflexivity|]. split; [cbn; lia|].
      rewrite reads_cons. replace (i + Z.of_nat (S n))%Z with (i + 1 + Z.of_nat n)%Z by lia. lia.
    + destruct (IH (i + 1)%Z (c + 1)%Z) as (l & El & Ll & Bl); try lia.
      { apply Rle_trans with (IZR d); [apply IZR_le; lia|lra]. }
      rewrite El. exists (true :: l). split; [reflexivity|]. split; [cbn; lia|].
      rewrite reads_cons. replace (i + Z.of_nat (S n))%Z with (i + 1 + Z.of_nat n)%Z by lia. lia.
Qed.
Lemma readout_bounds lt e n : time64 lt -> time64 e -> B2R lt <= B2R e -> (Z.of_nat n <= 2 ^ 50)%Z ->
  exists l, readout64 lt e n = Some l /\ length l = n /\ (Z.abs (reads l - Zfloor (IZR (Z.of_nat n) * B2R lt / B2R e)) <= 1)%Z.
Proof.
  intros T1 T2 Le Hn. assert (L0 : bpow radix2 (-400) <= B2R lt) by (destruct T1; tauto). pose proof (bpow_pos (-400)).
  assert (F0 : floor_at (B2R lt) (B2R e) 0 = 0%Z). { unfold floor_at. replace (B2R lt * 0 / B2R e) with 0 by (field; lra). apply (Zfloor_IZR 0). }
  destruct (flags_bounds lt e T1 T2 Le n 0%Z 0%Z) as (l & El & Ll & Bl); try lia.
  - apply quot_nonneg; lra || lia.
  - exists l. split; [exact El|]. split; [exact Ll|]. unfold floor_at in Bl. rewrite (Rmult_comm (IZR (Z.of_nat n))). rewrite !Z.add_0_l in Bl. lia.
Qed.

(** Times whose multiples are floats: the schedule is exact. *)
Lemma quot_exact L p k : (1 <= p <= 2 ^ 50)%Z -> (1 <= k <= 2 ^ 50)%Z -> 0 < L -> rep64 (L * IZR k) ->
  IZR (k / p) <= quot L (IZR p * L) k < IZR (k / p) + 1.
Proof.
  intros Hp Hk HL Hr. unfold quot. rewrite (rnd_rep _ Hr). assert (P : 0 < IZR p) by (apply (IZR_lt 0); lia).
  replace (L * IZR k / (IZR p * L)) with (IZR k / IZR p) by (field; lra).
  pose proof (Z.div_mod k p ltac:(lia)) as DM. pose proof (Z.mod_pos_bound k p ltac:(lia)) as MB. set (N := (k / p)%Z) in *.
  assert (N0 : (0 <= N <= 2 ^ 50)%Z) by (split; [apply Z.div_pos; lia|unfold N; apply Z.div_le_upper_bound; nia]).
  assert (I : 0 < / IZR p) by (apply Rinv_0_lt_compat; lra).
  split.
  - rewrite <- (rnd_rep (IZR N)) by (apply rep_Z; lia). apply rnd_le. apply (Rmult_le_reg_r (IZR p)); auto. unfold Rdiv. rewrite Rmult_assoc, Rinv_l, Rmult_1_r by lra.
    rewrite <- mult_IZR. apply IZR_le. nia.
  - set (s := Z.log2_up p). assert (S0 : (0 <= s)%Z) by apply Z.log2_up_nonneg.
    assert (S1 : (p <= 2 ^ s)%Z) by (destruct (Z.eq_dec p 1) as [E|E]; [pose proof (Z.pow_pos_nonneg 2 s); lia|apply Z.log2_up_spec; lia]).
    assert (S2 : (2 ^ s <= 2 * p)%Z).
    { destruct (Z.eq_dec p 1) as [E|E]; [unfold s; rewrite E; cbn; lia|]. destruct (Z.log2_up_spec p ltac:(lia)) as [U _]. fold s in U.
      replace s with (Z.succ (Z.pred s)) by lia. rewrite Z.pow_succ_r; [lia|]. assert (0 < s)%Z by (apply Z.log2_up_pos; lia). lia. }
    assert (B : 0 < bpow radix2 (- s)) by apply bpow_pos.
    assert (Bs : bpow radix2 (- s) = / IZR (2 ^ s)) by (rewrite bpow_opp, IZR_two by auto; reflexivity).
    assert (Sp : 0 < IZR (2 ^ s)) by (apply (IZR_lt 0); lia).
    apply Rle_lt_trans with (IZR ((N + 1) * 2 ^ s - 1) * bpow radix2 (- s)).
    + rewrite <- (rnd_rep (IZR ((N + 1) * 2 ^ s - 1) * _)); [apply rnd_le|].
      * rewrite Bs, minus_IZR, mult_IZR, plus_IZR. apply Rle_trans with (IZR N + 1 - / IZR p).
        -- apply (Rmult_le_reg_r (IZR p)); auto. unfold Rdiv. rewrite Rmult_assoc, Rinv_l, Rmult_1_r by lra.
           replace ((IZR N + 1 - / IZR p) * IZR p) with (IZR ((N + 1) * p - 1)) by (rewrite minus_IZR, mult_IZR, plus_IZR; field; lra).
           apply IZR_le. nia.
        -- replace (((IZR N + 1) * IZR (2 ^ s) - 1) * / IZR (2 ^ s)) with (IZR N + 1 - / IZR (2 ^ s)) by (field; lra).
           assert (/ IZR (2 ^ s) <= / IZR p) by (apply Rinv_le; [auto|apply IZR_le; auto]). lra.
      * apply rep_F2R; [|assert (s <= 51)%Z; [|lia]].
        -- assert (N * p <= k)%Z by nia. nia.
        -- apply Z.lt_succ_r. apply (Z.pow_lt_mono_r_iff 2); [lia|lia|]. lia.
    + rewrite Bs, minus_IZR, mult_IZR, plus_IZR. replace (((IZR N + 1) * IZR (2 ^ s) - 1) * / IZR (2 ^ s)) with (IZR N + 1 - / IZR (2 ^ s)) by (field; lra).
      assert (0 < / IZR (2 ^ s)) by (apply Rinv_0_lt_compat; auto). lra.
Qed.
Lemma div_succ i p : (0 < p)%Z -> (0 <= i)%Z -> ((i + 1) / p = i / p + (if (i + 1) mod p =? 0 then 1 else 0))%Z.
Proof.
  intros Hp Hi. pose proof (Z.div_mod i p ltac:(lia)). pose proof (Z.mod_pos_bound i p ltac:(lia)).
  pose proof (Z.div_mod (i + 1) p ltac:(lia)). pose proof (Z.mod_pos_bound (i + 1) p ltac:(lia)).
  destruct (Z.eqb_spec ((i + 1) mod p) 0); nia.
Qed.
Lemma flags_exact lt e p : time64 lt -> time64 e -> (1 <= p <= 2 ^ 50)%Z -> B2R e = IZR p * B2R lt -> forall n i,
  (0 <= i)%Z -> (i + Z.of_nat n <= 2 ^ 50)%Z -> (forall k, (1 <= k <= i + Z.of_nat n)%Z -> rep64 (B2R lt * IZR k)) ->
  exists l, flags64 lt e n i (i / p) = Some l /\ length l = n /\ forall j, (j < n)%nat -> nth_error l j = Some ((i + Z.of_nat j + 1) mod p =? 0)%Z.
Proof.
  intros T1 T2 Hp Ee n. assert (L0 : bpow radix2 (-400) <= B2R lt) by (destruct T1; tauto). pose proof (bpow_pos (-400)).
  assert (Le : B2R lt <= B2R e). { rewrite Ee. rewrite <- (Rmult_1_l (B2R lt)) at 1. apply Rmult_le_compat_r; [lra|apply IZR_le; lia]. }
  induction n as [|n IH]; intros i Hi Hn Hr.
  - exists []. split; [reflexivity|]. split; [reflexivity|]. intros j Hj. lia.
  - destruct (due_quot lt e i) as (d & Ed & Bd); auto; [lia|].
    pose proof (quot_exact (B2R lt) p (i + 1) Hp ltac:(lia) ltac:(lra) (Hr (i + 1)%Z ltac:(lia))) as Q. rewrite <- Ee in Q.
    assert (D : d = ((i + 1) / p)%Z). { apply Z.le_antisymm; apply (int_le _ _ (quot (B2R lt) (B2R e) (i + 1)) (quot (B2R lt) (B2R e) (i + 1))); lra. }
    destruct (IH (i + 1)%Z) as (l & El & Ll & Nl); try lia. { intros k Hk. apply Hr. lia. }
    pose proof (div_succ i p ltac:(lia) Hi) as DS.
    exists (((i + 1) mod p =? 0)%Z :: l). split; [|split].
    + cbn [flags64]. unfold sched64. rewrite Ed, D. destruct (((i + 1) mod p =? 0)%Z) eqn:M.
      * destruct (Z.eqb_spec ((i + 1) / p) (i / p)); [lia|]. cbn [negb]. rewrite <- DS, El. reflexivity.
      * rewrite DS, Z.add_0_r, Z.eqb_refl. cbn [negb]. rewrite DS, Z.add_0_r in El. rewrite El. reflexivity.
    + cbn. lia.
    + intros [|j] Hj; cbn [nth_error]; [f_equal; f_equal; f_equal; lia|]. rewrite Nl by lia. f_equal. f_equal. f_equal. lia.
Qed.
Lemma readout_exact lt e p n : time64 lt -> time64 e -> short_time lt n -> (1 <= p <= 2 ^ 50)%Z -> (Z.of_nat n <= 2 ^ 50)%Z -> B2R e = IZR p * B2R lt ->
  exists l, readout64 lt e n = Some l /\ length l = n /\ forall j, (j < n)%nat -> nth_error l j = Some ((Z.of_nat j + 1) mod p =? 0)%Z.
Proof.
  intros T1 T2 (m & x & Hm & Hmn & Hx & _ & El) Hp Hn Ee.
  destruct (flags_exact lt e p T1 T2 Hp Ee n 0%Z) as (l & E & L & N); try lia.
  - intros k Hk. rewrite El. replace (IZR m * bpow radix2 x * IZR k) with (IZR (m * k) * bpow radix2 x) by (rewrite mult_IZR; ring). apply rep_F2R; [nia|lia].
  - rewrite Z.div_0_l in E by lia. exists l. split; [exact E|]. split; [exact L|]. intros j Hj. rewrite N by auto. reflexivity.
Qed.

(** Times of the shipped configurations. *)
Lemma nearest_unique x y r : nearest x r -> nearest y r -> rnd64 r <> 0 -> x = y.
Proof.
  intros [Fx Ex] [Fy Ey] N. apply B2R_inj; [destruct x|destruct y|congruence]; cbn in *; auto; try discriminate; exfalso; apply N; congruence.
Qed.
Lemma nearest_div a b : (0 < a <= 2 ^ 53)%Z -> (0 < b <= 2 ^ 53)%Z -> nearest (div64 (ofZ64 a) (ofZ64 b)) (IZR a / IZR b).
Proof.
  intros Ha Hb. destruct (ofZ_correct a) as [Fa Ea]; [lia|]. destruct (ofZ_correct b) as [Fb Eb]; [lia|].
  assert (B : 1 <= IZR b) by (apply IZR_le; lia). assert (A : 0 <= IZR a <= bpow radix2 53) by (rewrite <- IZR_two by lia; split; apply IZR_le; lia).
  assert (I : 0 < / IZR b <= 1) by (split; [apply Rinv_0_lt_compat; lra|rewrite <- Rinv_1; apply Rinv_le; lra]).
  unfold nearest. replace (IZR a / IZR b) with (B2R (ofZ64 a) / B2R (ofZ64 b)) by (rewrite Ea, Eb; reflexivity). apply div_correct; auto; rewrite ?Ea, ?Eb; [lra|]. unfold Rdiv. rewrite Rabs_pos_eq by (apply Rmult_le_pos; lra).
  apply Rle_trans with (bpow radix2 53 * 1); [apply Rmult_le_compat; lra|]. rewrite Rmult_1_r. apply bpow_le'. lia.
Qed.
Lemma rnd_div_near a b : (0 < a <= b)%Z -> (b <= 1000)%Z -> bpow radix2 (-400) <= rnd64 (IZR a / IZR b) <= 1.
Proof.
  intros Ha Hb. assert (B : 1 <= IZR b) by (apply IZR_le; lia). assert (A : 1 <= IZR a <= IZR b) by (split; apply IZR_le; lia).
  assert (B2 : IZR b <= 1000) by (apply IZR_le; lia).
  assert (I : 0 < / IZR b) by (apply Rinv_0_lt_compat; lra). assert (I2 : / 1000 <= / IZR b) by (apply Rinv_le; lra).
  split.
  - rewrite <- (rnd_rep (bpow radix2 (-400))) by (apply generic_format_bpow; rewrite fexp_FLT; unfold FLT_exp; lia). apply rnd_le.
    apply Rle_trans with (bpow radix2 (-10)); [apply bpow_le'; lia|]. apply Rle_trans with (1 * / IZR b); [cbn; lra|]. apply Rmult_le_compat_r; lra.
  - rewrite <- (rnd_rep 1) by (apply (rep_Z 1); lia). apply rnd_le. apply (Rmult_le_reg_r (IZR b)); [lra|]. unfold Rdiv. rewrite Rmult_assoc, Rinv_l by lra. lra.
Qed.
Lemma nearest_time x a b : (0 < a <= b)%Z -> (b <= 1000)%Z -> nearest x (IZR a / IZR b) -> time64 x /\ x = div64 (ofZ64 a) (ofZ64 b).
Proof.
  intros Ha Hb N. pose proof (rnd_div_near a b Ha Hb) as D. pose proof (bpow_pos (-400)). split.
  - destruct N as [F E]. split; [exact F|]. rewrite E. split; [lra|]. apply Rle_trans with 1; [lra|]. change 1 with (bpow radix2 0). apply bpow_le'. lia.
  - apply (nearest_unique _ _ (IZR a / IZR b)); auto; [apply nearest_div; lia|lra].
Qed.
Lemma flags_app lt e n m i c l : flags64 lt e n i c = Some l -> flags64 lt e (n + m) i c =
  match flags64 lt e m (i + Z.of_nat n) (c + reads l) with Some k => Some (l ++ k) | None => None end.
Proof.
  revert i c l. induction n as [|n IH]; intros i c l H; cbn [flags64 Nat.add] in *.
  - injection H as <-. change (reads []) with 0%Z. replace (i + Z.of_nat 0)%Z with i by lia. rewrite Z.add_0_r. destruct (flags64 lt e m i c); reflexivity.
  - unfold sched64 in *. destruct (due64 lt e i) as [d|]; [|discriminate]. destruct (negb (d =? c)%Z) eqn:B; cbv beta iota in *.
    + destruct (flags64 lt e n (i + 1) (c + 1)) as [l'|] eqn:E; [|discriminate]. injection H as <-. rewrite (IH _ _ _ E), reads_cons.
      replace (i + 1 + Z.of_nat n)%Z with (i + Z.of_nat (S n))%Z by lia. replace (c + 1 + reads l')%Z with (c + (1 + reads l'))%Z by lia.
      destruct (flags64 lt e m _ _); reflexivity.
    + destruct (flags64 lt e n (i + 1) c) as [l'|] eqn:E; [|discriminate]. injection H as <-. rewrite (IH _ _ _ E), reads_cons.
      replace (i + 1 + Z.of_nat n)%Z with (i + Z.of_nat (S n))%Z by lia. replace (c + (0 + reads l'))%Z with (c + reads l')%Z by lia.
      destruct (flags64 lt e m _ _); reflexivity.
Qed.
Lemma reads_all l : reads l = Z.of_nat (length l) -> forall j b, nth_error l j = Some b -> b = true.
Proof.
  assert (L : forall l, (reads l <= Z.of_nat (length l))%Z) by (induction l0 as [|b l0 IH]; [cbn; lia|rewrite reads_cons; cbn [length]; destruct b; lia]).
  induction l as [|b l IH]; intros H [|j] c E; cbn in E; try discriminate; rewrite reads_cons in H; cbn [length] in H; specialize (L l).
  - injection E as <-. destruct b; auto; lia.
  - apply (IH ltac:(destruct b; lia) j c E).
Qed.
Lemma reads_app a b : reads (a ++ b) = (reads a + reads b)%Z.
Proof. unfold reads. rewrite filter_app, app_length. lia. Qed.
Lemma reads_max l : (0 <= reads l <= Z.of_nat (length l))%Z.
Proof. induction l as [|b l IH]; [cbn; lia|rewrite reads_cons; cbn [length]; destruct b; lia]. Qed.
(** The default exposure: at most one frame is ever without a measurement. *)
Lemma default_reads lt n : time64 lt -> (Z.of_nat n <= 2 ^ 50)%Z -> exists l, readout64 lt lt n = Some l /\ length l = n /\ (Z.of_nat n - 1 <= reads l)%Z.
Proof.
  intros T Hn. assert (L0 : bpow radix2 (-400) <= B2R lt) by (destruct T; tauto). pose proof (bpow_pos (-400)).
  destruct (readout_bounds lt lt n T T (Rle_refl _) Hn) as (l & E & L & B). exists l. split; auto. split; auto.
  replace (IZR (Z.of_nat n) * B2R lt / B2R lt) with (IZR (Z.of_nat n)) in B by (field; lra). rewrite Zfloor_IZR in B. lia.
Qed.
Lemma first29 : readout64 (div64 (ofZ64 1) (ofZ64 400)) (div64 (ofZ64 1) (ofZ64 400)) 29 = Some (repeat true 28 ++ [false]).
Proof. vm_compute. reflexivity. Qed.
Lemma first60 : readout64 (div64 (ofZ64 1) (ofZ64 400)) (div64 (ofZ64 1) (ofZ64 200)) 60 =
  Some (concat (repeat [false; true] 28) ++ [false; false; true; true]).
Proof. vm_compute. reflexivity. Qed.
Lemma loop400 lt n j : nearest lt (1 / 400) -> (Z.of_nat n <= 2 ^ 50)%Z -> (j < n)%nat ->
  exists l, readout64 lt lt n = Some l /\ nth_error l j = Some (negb (j =? 28)%nat).
Proof.
  intros N Hn Hj. destruct (nearest_time lt 1 400 ltac:(lia) ltac:(lia) N) as [T ->].
  pose proof first29 as F. revert T F. clear N. generalize (div64 (ofZ64 1) (ofZ64 400)). intros lt T F.
  destruct (default_reads lt n T Hn) as (l & E & L & R). exists l. split; [exact E|].
  assert (P : forall i, nth_error (repeat true 28 ++ [false]) i = if (i <? 29)%nat then Some (negb (i =? 28)%nat) else None).
  { intro i. do 29 (destruct i as [|i]; [reflexivity|]). cbn. destruct i; reflexivity. }
  destruct (le_lt_dec 29 n) as [G|G].
  - replace n with (29 + (n - 29))%nat in E by lia. unfold readout64 in E, F. rewrite (flags_app _ _ _ _ _ _ _ F) in E.
    destruct (flags64 lt lt (n - 29) _ _) as [k|] eqn:K; [|discriminate]. assert (E' : l = (repeat true 28 ++ [false]) ++ k) by congruence. rewrite E' in *. clear E E' l.
    rewrite reads_app in R. rewrite app_length in L. change (reads (repeat true 28 ++ [false])) with 28%Z in R. change (length (repeat true 28 ++ [false])) with 29%nat in L.
    pose proof (reads_max k) as M. assert (A : reads k = Z.of_nat (length k)) by lia.
    destruct (le_lt_dec 29 j) as [J|J].
    + rewrite nth_error_app2 by (rewrite app_length, repeat_length; cbn; lia). destruct (nth_error k _) as [b|] eqn:B.
      * rewrite (reads_all k A _ _ B). destruct (Nat.eqb_spec j 28); [lia|reflexivity].
      * apply nth_error_None in B. rewrite app_length, repeat_length in B. cbn [length] in B. lia.
    + rewrite nth_error_app1 by (rewrite app_length, repeat_length; cbn; lia). rewrite P. destruct (Nat.ltb_spec j 29); [reflexivity|lia].
  - unfold readout64 in E, F. replace 29%nat with (n + (29 - n))%nat in F by lia. rewrite (flags_app _ _ _ _ _ _ _ E) in F.
    destruct (flags64 lt lt (29 - n) _ _) as [k|] eqn:K; [|discriminate]. assert (F' : l ++ k = repeat true 28 ++ [false]) by congruence. clear F. rename F' into F.
    assert (Nj : nth_error (l ++ k) j = nth_error l j) by (apply nth_error_app1; lia). rewrite <- Nj, F, P. destruct (Nat.ltb_spec j 29); [reflexivity|lia].
Qed.
Lemma exposure200 lt e : nearest lt (1 / 400) -> nearest e (1 / 200) -> readout64 lt e 60 = Some (concat (repeat [false; true] 28) ++ [false; false; true; true]).
Proof.
  intros N1 N2. destruct (nearest_time lt 1 400 ltac:(lia) ltac:(lia) N1) as [_ ->]. destruct (nearest_time e 1 200 ltac:(lia) ltac:(lia) N2) as [_ ->]. exact first60.
Qed.
(** A loop of a power-of-two frequency. *)
Lemma loop512 : exists lt, time64 lt /\ short_time lt 4000 /\ B2R lt = / 512.
Proof.
  destruct (lit_correct 1 (-9)) as [F E].
  - rewrite Rabs_pos_eq by (cbn; lra). apply Rle_trans with (bpow radix2 0); [cbn; lra|apply bpow_le'; lia].
  - rewrite rnd_rep in E by (apply rep_F2R; lia). exists (lit64 1 (-9)). split; [|split].
    + split; [exact F|]. rewrite E, Rmult_1_l. split; apply bpow_le'; lia.
    + exists 1%Z, (-9)%Z. repeat split; try lia; auto.
    + rewrite E. cbn. lra.
Qed.

(** An exposure clearly shorter than the loop period. *)
Lemma flags_short lt e : time64 lt -> time64 e -> B2R e <= B2R lt * (1 - bpow radix2 (-52)) -> forall n i,
  (0 <= i)%Z -> (i + Z.of_nat n <= 2 ^ 50)%Z -> flags64 lt e n i i = Some (repeat true n).
Proof.
  intros T1 T2 Le n. assert (L0 : bpow radix2 (-400) <= B2R lt) by (destruct T1; tauto). assert (E0 : bpow radix2 (-400) <= B2R e) by (destruct T2; tauto).
  pose proof (bpow_pos (-400)). induction n as [|n IH]; intros i Hi Hn; [reflexivity|].
  destruct (due_quot lt e i) as (d & Ed & Bd); auto; [lia|].
  assert (K1 : 1 <= IZR (i + 1)) by (apply IZR_le; lia).
  assert (Q : IZR (i + 1) <= quot (B2R lt) (B2R e) (i + 1)).
  { unfold quot. rewrite <- (rnd_rep (IZR (i + 1))) at 1 by (apply rep_Z; lia). apply rnd_le.
    set (X := B2R lt * IZR (i + 1)). assert (X1 : B2R lt <= X) by (unfold X; rewrite <- (Rmult_1_r (B2R lt)) at 1; apply Rmult_le_compat_l; lra).
    pose proof (rnd_error X) as Er. rewrite (Rabs_pos_eq X) in Er by lra.
    assert (X2 : bpow radix2 (-1022) <= X) by (apply Rle_trans with (bpow radix2 (-400)); [apply bpow_le'; lia|lra]). specialize (Er X2). apply Rabs_le_inv in Er.
    apply (Rmult_le_reg_r (B2R e)); [lra|]. unfold Rdiv. rewrite Rmult_assoc, Rinv_l, Rmult_1_r by lra.
    apply Rle_trans with (X * (1 - bpow radix2 (-52))).
    - unfold X. replace (B2R lt * IZR (i + 1) * (1 - bpow radix2 (-52))) with (IZR (i + 1) * (B2R lt * (1 - bpow radix2 (-52)))) by ring. apply Rmult_le_compat_l; lra.
    - assert (B : bpow radix2 (-52) = 2 * bpow radix2 (-53)) by (change (-52)%Z with (1 + -53)%Z; rewrite bpow_plus; reflexivity). rewrite B.
      pose proof (bpow_pos (-53)). assert (0 <= X * bpow radix2 (-53)) by (apply Rmult_le_pos; lra). lra. }
  assert (D : (i + 1 <= d)%Z) by (apply (int_le _ _ (quot (B2R lt) (B2R e) (i + 1)) (quot (B2R lt) (B2R e) (i + 1))); lra).
  cbn [flags64 repeat]. unfold sched64. rewrite Ed. destruct (Z.eqb_spec d i); [lia|]. cbn [negb]. rewrite IH by lia. reflexivity.
Qed.

(** Finite screens in binary64: proofs. *)
From Coq Require Import ZArith.
From Flocq Require Import Core BinarySingleNaN.
From Verif.Base Require Import Float64.
From Verif.Spec Require Import FloatLoopSpec.
From Verif.Proofs Require Import FloatLoopProofs.
From Coq Require Import Reals Bool Lia Lra.
From Verif.Model Require Import FloatScreens.
From Verif.Spec Require Import FloatScreensSpec.
Local Open Scope R_scope.

Lemma int_any x : is_finite x = true -> int64 x = Some (Ztrunc (B2R x)).
Proof.
  intros F. unfold int64. rewrite F. f_equal. pose proof (Btrunc_correct 53 1024 emax64 x) as T.
  assert (Z : round radix2 (FIX_exp 0) Ztrunc (B2R x) = IZR (Ztrunc (B2R x))).
  { unfold round, F2R, scaled_mantissa, cexp, FIX_exp. cbn [Fnum Fexp]. change (bpow radix2 (- 0)) with 1. change (bpow radix2 0) with 1. rewrite !Rmult_1_r. reflexivity. }
  rewrite Z in T. apply eq_IZR in T. exact T.
Qed.
Lemma trunc_near x : Rabs (IZR (Ztrunc x) - x) < 1.
Proof.
  destruct (Rle_lt_dec 0 x) as [P|P].
  - rewrite Ztrunc_floor by exact P. pose proof (Zfloor_lb x). pose proof (Zfloor_ub x). rewrite Rabs_left1; lra.
  - rewrite Ztrunc_ceil by lra. pose proof (Zceil_ub x). pose proof (Zceil_lb x). rewrite Rabs_pos_eq; lra.
Qed.
Lemma abs_le x b : - b <= x <= b -> Rabs x <= b. Proof. intros H. apply Rabs_le. exact H. Qed.

Section Axis.
  Variables (W s : Z) (v : b64).
  Hypothesis Hs : (1 <= s <= W)%Z.
  Hypothesis HW : (W <= 2 ^ 40)%Z.
  Hypothesis Fv : is_finite v = true.
  Hypothesis Bv : Rabs (B2R v) <= IZR W.
  Let w := IZR W.
  Let e := slip W.
  Lemma w_one : 1 <= w. Proof. apply IZR_le. lia. Qed.
  Lemma w_big : w <= bpow radix2 40. Proof. unfold w. change (bpow radix2 40) with (IZR (2 ^ 40)). apply IZR_le. exact HW. Qed.
  Lemma e_u : e = 8 * (w * unit_roundoff).
  Proof. unfold e, slip, w, unit_roundoff. replace (-50)%Z with (3 + -53)%Z by lia. rewrite bpow_plus. change (bpow radix2 3) with 8. ring. Qed.
  Lemma wu_pos : 0 < w * unit_roundoff. Proof. apply Rmult_lt_0_compat; [pose proof w_one; lra|apply u_pos]. Qed.
  Lemma s_wu : smallest <= w * unit_roundoff.
  Proof.
    pose proof w_one. pose proof u_pos. apply Rle_trans with (1 * unit_roundoff); [|apply Rmult_le_compat_r; lra].
    rewrite Rmult_1_l. apply bpow_le. lia.
  Qed.
  Lemma e_w : 64 * e <= w.
  Proof.
    rewrite e_u. pose proof w_one. pose proof u_small. replace (64 * (8 * (w * unit_roundoff))) with (w * (512 * unit_roundoff)) by ring.
    rewrite <- (Rmult_1_r w) at 2. apply Rmult_le_compat_l; lra.
  Qed.
  Lemma sum_ok x y : is_finite x = true -> is_finite y = true -> Rabs (B2R x + B2R y) <= 6 * w ->
    is_finite (add64 x y) = true /\ Rabs (B2R (add64 x y) - (B2R x + B2R y)) <= e.
  Proof.
    intros Fx Fy H. pose proof w_one. pose proof w_big.
    assert (B : 6 * w <= bpow radix2 1000).
    { apply Rle_trans with (bpow radix2 3 * bpow radix2 40); [change (bpow radix2 3) with 8; lra|]. rewrite <- bpow_plus. apply bpow_le. lia. }
    destruct (add_correct x y Fx Fy) as [F E]; [lra|]. split; [exact F|]. rewrite E. eapply Rle_trans; [apply rnd_any|]. rewrite e_u. pose proof s_wu. pose proof u_pos.
    apply Rle_trans with (unit_roundoff * (6 * w) + w * unit_roundoff); [|rewrite (Rmult_comm unit_roundoff); pose proof wu_pos; lra].
    apply Rplus_le_compat; [apply Rmult_le_compat_l; lra|lra].
  Qed.
  Lemma dif_ok x y : is_finite x = true -> is_finite y = true -> Rabs (B2R x - B2R y) <= 6 * w ->
    is_finite (sub64 x y) = true /\ Rabs (B2R (sub64 x y) - (B2R x - B2R y)) <= e.
  Proof.
    intros Fx Fy H. pose proof w_one. pose proof w_big.
    assert (B : 6 * w <= bpow radix2 1000).
    { apply Rle_trans with (bpow radix2 3 * bpow radix2 40); [change (bpow radix2 3) with 8; lra|]. rewrite <- bpow_plus. apply bpow_le. lia. }
    destruct (sub_correct x y Fx Fy) as [F E]; [lra|]. split; [exact F|]. rewrite E. eapply Rle_trans; [apply rnd_any|]. rewrite e_u. pose proof s_wu. pose proof u_pos.
    apply Rle_trans with (unit_roundoff * (6 * w) + w * unit_roundoff); [|rewrite (Rmult_comm unit_roundoff); pose proof wu_pos; lra].
    apply Rplus_le_compat; [apply Rmult_le_compat_l; lra|lra].
  Qed.
  Lemma int_f k : (Z.abs k <= W)%Z -> is_finite (ofZ64 k) = true /\ B2R (ofZ64 k) = IZR k.
  Proof. intros K. apply ofZ_correct. lia. Qed.
  Lemma int_sum k p : (0 <= k)%Z -> (0 <= p)%Z -> (k + p <= W)%Z -> is_finite (add64 (ofZ64 k) (ofZ64 p)) = true /\ B2R (add64 (ofZ64 k) (ofZ64 p)) = IZR (k + p).
  Proof.
    intros K P L. destruct (int_f k ltac:(lia)) as [Fk Ek]. destruct (int_f p ltac:(lia)) as [Fp Ep].
    destruct (add_correct (ofZ64 k) (ofZ64 p) Fk Fp) as [F E].
    - rewrite Ek, Ep, <- plus_IZR, <- abs_IZR. apply Rle_trans with (IZR (2 ^ 40)); [apply IZR_le; lia|]. change (IZR (2 ^ 40)) with (bpow radix2 40). apply bpow_le. lia.
    - split; [exact F|]. rewrite E, Ek, Ep, <- plus_IZR. apply rnd_rep. apply rep_Z. lia.
  Qed.

  (** m frames after a restart at [base] *)
  Definition since (base : Z) (m : nat) (a : axis64) : Prop :=
    (base = 0%Z \/ base = (W - s)%Z) /\
    is_finite (x_pos a) = true /\ Rabs (B2R (x_pos a) - (IZR base + INR m * B2R v)) <= INR m * e /\
    forall k, (0 <= k < s)%Z -> is_finite (x_co a k) = true /\ Rabs (B2R (x_co a k) - (IZR base + IZR k + INR m * B2R v)) <= INR m * e.
  Definition within (a : axis64) : Prop := 0 <= B2R (x_pos a) <= IZR (W - s).
  Lemma since_restart base r : base = 0%Z \/ base = (W - s)%Z ->
    since base 0 (mkAxis64 (ofZ64 base) (fun i => add64 (ofZ64 i) (ofZ64 base)) r) /\ within (mkAxis64 (ofZ64 base) (fun i => add64 (ofZ64 i) (ofZ64 base)) r).
  Proof.
    intros Hb. destruct (int_f base ltac:(lia)) as [F E]. split.
    - split; [exact Hb|]. cbn [x_pos x_co INR]. split; [exact F|]. split.
      + rewrite E. apply abs_le. lra.
      + intros k K. destruct (int_sum k base ltac:(lia) ltac:(lia) ltac:(lia)) as [Fk Ek]. split; [exact Fk|]. rewrite Ek, plus_IZR. apply abs_le. lra.
    - unfold within. cbn [x_pos]. rewrite E. split; apply IZR_le; lia.
  Qed.
  Lemma since_restart0 r : since 0 0 (mkAxis64 (ofZ64 0) (fun i => ofZ64 i) r) /\ within (mkAxis64 (ofZ64 0) (fun i => ofZ64 i) r).
  Proof.
    destruct (int_f 0 ltac:(lia)) as [F E]. split.
    - split; [left; reflexivity|]. cbn [x_pos x_co INR]. split; [exact F|]. split.
      + rewrite E. apply abs_le. lra.
      + intros k K. destruct (int_f k ltac:(lia)) as [Fk Ek]. split; [exact Fk|]. rewrite Ek. apply abs_le. lra.
    - unfold within. cbn [x_pos]. rewrite E. split; apply IZR_le; lia.
  Qed.
  (** how often *)
  Definition bounded (m : nat) : Prop := INR m * Rabs (B2R v) <= 2 * IZR (W - s) /\ INR m * e <= w.
  Lemma count base m a : 2 * e <= Rabs (B2R v) -> since base m a -> within a -> bounded m.
  Proof.
    intros V (Hb & F & P & _) [L U].
    assert (B : 0 <= IZR base <= IZR (W - s)) by (split; apply IZR_le; lia).
    assert (M : 0 <= INR m) by apply pos_INR.
    assert (A : INR m * Rabs (B2R v) <= IZR (W - s) + INR m * e).
    { rewrite <- (Rabs_pos_eq (INR m)) at 1 by exact M. rewrite <- Rabs_mult.
      apply Rabs_le_inv in P. apply abs_le. lra. }
    assert (E : 2 * (INR m * e) <= INR m * Rabs (B2R v)).
    { replace (2 * (INR m * e)) with (INR m * (2 * e)) by ring. apply Rmult_le_compat_l; assumption. }
    assert (S : IZR (W - s) <= w) by (apply IZR_le; lia). split; lra.
  Qed.
  Lemma co_range base m a k : since base m a -> within a -> INR m * e <= w -> (0 <= k < s)%Z ->
    is_finite (x_co a k) = true /\ Rabs (B2R (x_co a k) - (B2R (x_pos a) + IZR k)) <= 2 * (INR m * e) /\ Rabs (B2R (x_co a k)) <= 3 * w.
  Proof.
    intros (Hb & F & P & Q) [L U] M K. destruct (Q k K) as [Fk Ek]. split; [exact Fk|]. apply Rabs_le_inv in P. apply Rabs_le_inv in Ek.
    assert (Bk : 0 <= IZR k <= IZR (s - 1)) by (split; apply IZR_le; lia).
    assert (S : IZR (W - s) + IZR (s - 1) <= w - 1) by (unfold w; rewrite <- plus_IZR; change 1 with (IZR 1); rewrite <- minus_IZR; apply IZR_le; lia).
    split; apply abs_le; lra.
  Qed.
  Lemma step base m a : since base m a -> within a -> INR m * e <= w ->
    since base (S m) (advance64 v a) /\ Rabs (B2R (x_pos (advance64 v a)) - (B2R (x_pos a) + B2R v)) <= e /\
    forall k, (0 <= k < s)%Z -> Rabs (B2R (x_co (advance64 v a) k) - (B2R (x_co a k) + B2R v)) <= e.
  Proof.
    intros Si Wi M. pose proof w_one. pose proof Bv as V. apply Rabs_le_inv in V. fold w in V. destruct Si as (Hb & F & P & Q). destruct Wi as [L U].
    assert (Sw : IZR (W - s) <= w) by (apply IZR_le; lia).
    destruct (sum_ok (x_pos a) v F Fv) as [F' E']; [apply abs_le; lra|].
    assert (Co : forall k, (0 <= k < s)%Z -> is_finite (add64 (x_co a k) v) = true /\ Rabs (B2R (add64 (x_co a k) v) - (B2R (x_co a k) + B2R v)) <= e).
    { intros k K. destruct (co_range base m a k) as (Fk & _ & R3); [exact (conj Hb (conj F (conj P Q)))|split; assumption|exact M|exact K|].
      apply sum_ok; [exact Fk|exact Fv|]. apply Rabs_le_inv in R3. apply abs_le. lra. }
    split; [|split; [exact E'|intros k K; apply (proj2 (Co k K))]].
    split; [exact Hb|]. cbn [advance64 x_pos x_co]. split; [exact F'|]. rewrite S_INR. split.
    - apply Rabs_le_inv in P. apply Rabs_le_inv in E'. apply abs_le. lra.
    - intros k K. destruct (Co k K) as [Fk Ek]. split; [exact Fk|]. destruct (Q k K) as [_ Qk]. apply Rabs_le_inv in Qk. apply Rabs_le_inv in Ek. apply abs_le. lra.
  Qed.
  (** the tests *)
  Lemma wrap_cases a : is_finite (x_pos a) = true -> Rabs (B2R (x_pos a)) <= 3 * w ->
    (wrap64 W s a = Some (mkAxis64 (ofZ64 0) (fun i => ofZ64 i) (x_roll a - Ztrunc (B2R (x_pos a)))) /\ IZR (W - s) - e <= B2R (x_pos a)) \/
    (exists k, wrap64 W s a = Some (mkAxis64 (ofZ64 (W - s)) (fun i => add64 (ofZ64 i) (ofZ64 (W - s))) (x_roll a + k)) /\ B2R (x_pos a) < 0 /\
       Rabs (IZR k - (IZR (W - s) - B2R (x_pos a))) < 1 + 2 * e) \/
    (wrap64 W s a = Some a /\ 0 <= B2R (x_pos a) < IZR (W - s)).
  Proof.
    intros F B. pose proof w_one. pose proof e_w as E64. destruct (int_f s ltac:(lia)) as [Fs Es]. destruct (int_f W ltac:(lia)) as [FW EW]. destruct (int_f 0 ltac:(lia)) as [F0 E0].
    assert (Bs : 1 <= IZR s <= w) by (split; apply IZR_le; lia). apply Rabs_le_inv in B.
    destruct (sum_ok (x_pos a) (ofZ64 s) F Fs) as [Fa Ea]; [rewrite Es; apply abs_le; lra|].
    unfold wrap64, wrap_end64. pose proof (ge_correct _ _ Fa FW) as G. destruct (ge64 (add64 (x_pos a) (ofZ64 s)) (ofZ64 W)) eqn:Eg.
    - left. assert (Fo : is_finite (Bopp (x_pos a)) = true) by (rewrite is_finite_Bopp; exact F). rewrite (int_any _ Fo), B2R_Bopp, Ztrunc_opp.
      unfold wrap_start64. cbn [x_pos x_co x_roll].
      assert (N : lt64 (ofZ64 0) (ofZ64 0) = false) by (apply not_true_iff_false; rewrite lt_correct by assumption; lra). rewrite N.
      split; [reflexivity|]. assert (G1 : B2R (ofZ64 W) <= B2R (add64 (x_pos a) (ofZ64 s))) by (apply G; reflexivity). rewrite EW in G1. rewrite Es in Ea. apply Rabs_le_inv in Ea.
      rewrite minus_IZR. lra.
    - right. assert (Lt : B2R (x_pos a) < IZR (W - s)).
      { apply Rnot_le_lt. intros C. assert (T : false = true); [|discriminate T]. apply G. rewrite EW.
        destruct (add_correct (x_pos a) (ofZ64 s) F Fs) as [_ Er].
        { rewrite Es. apply Rle_trans with (bpow radix2 3 * bpow radix2 40); [change (bpow radix2 3) with 8; pose proof w_big; apply abs_le; lra|]. rewrite <- bpow_plus. apply bpow_le. lia. }
        rewrite Er. rewrite <- (rnd_rep (IZR W)) by (apply rep_Z; lia). apply rnd_le. rewrite Es. rewrite minus_IZR in C. lra. }
      unfold wrap_start64. pose proof (lt_correct _ _ F F0) as L. destruct (lt64 (x_pos a) (ofZ64 0)) eqn:El.
      + left. assert (Neg : B2R (x_pos a) < 0) by (rewrite <- E0; apply L; reflexivity).
        destruct (dif_ok (ofZ64 W) (x_pos a) FW F) as [F1 E1]; [rewrite EW; fold w; apply abs_le; lra|]. rewrite EW in E1. fold w in E1. apply Rabs_le_inv in E1.
        destruct (dif_ok (sub64 (ofZ64 W) (x_pos a)) (ofZ64 s) F1 Fs) as [F2 E2]; [rewrite Es; apply abs_le; lra|]. rewrite Es in E2. apply Rabs_le_inv in E2.
        rewrite (int_any _ F2). eexists. split; [reflexivity|]. split; [exact Neg|].
        pose proof (trunc_near (B2R (sub64 (sub64 (ofZ64 W) (x_pos a)) (ofZ64 s)))) as T. apply Rabs_lt_inv in T. rewrite minus_IZR. fold w. apply Rabs_lt. lra.
      + right. split; [reflexivity|]. split; [|exact Lt]. apply Rnot_lt_le. intros C. assert (T : false = true); [|discriminate T]. apply L. rewrite E0. exact C.
  Qed.

  Hypothesis Vm : 2 * e <= Rabs (B2R v).
  Lemma frames n : exists a base m, sampled64 W s v n = Some a /\ (m <= n)%nat /\ since base m a /\ within a.
  Proof.
    pose proof w_one. induction n as [|n (a & base & m & Ea & Mn & Si & Wi)].
    - cbn [sampled64]. unfold axis_init64.
      assert (Hb : (if lt64 v (ofZ64 0) then W - s else 0)%Z = 0%Z \/ (if lt64 v (ofZ64 0) then W - s else 0)%Z = (W - s)%Z) by (destruct (lt64 v (ofZ64 0)); auto).
      set (p := (if lt64 v (ofZ64 0) then W - s else 0)%Z) in *. destruct (since_restart p 0 Hb) as [Si Wi].
      set (a0 := mkAxis64 (ofZ64 p) (fun k => add64 (ofZ64 k) (ofZ64 p)) 0) in *.
      assert (Sw : IZR (W - s) <= w) by (apply IZR_le; lia).
      destruct (wrap_cases a0) as [[E _]|[(k & E & N & _)|[E _]]].
      + apply (proj1 (proj2 Si)).
      + destruct Wi. apply abs_le. lra.
      + rewrite E. do 3 eexists. split; [reflexivity|]. split; [|exact (since_restart0 _)]. lia.
      + destruct Wi. lra.
      + rewrite E. exists a0, p, O. split; [reflexivity|]. split; [lia|]. split; assumption.
    - cbn [sampled64]. rewrite Ea. destruct (count base m a Vm Si Wi) as [C1 C2]. destruct (step base m a Si Wi C2) as (S1 & P1 & _).
      assert (Sw : IZR (W - s) <= w) by (apply IZR_le; lia). destruct Wi as [L U]. pose proof e_w. pose proof Bv as V. fold w in V. apply Rabs_le_inv in V. apply Rabs_le_inv in P1.
      destruct (wrap_cases (advance64 v a)) as [[E _]|[(k & E & N & _)|[E In]]].
      + apply (proj1 (proj2 S1)).
      + apply abs_le. lra.
      + rewrite E. do 3 eexists. split; [reflexivity|]. split; [|exact (since_restart0 _)]. lia.
      + rewrite E. do 3 eexists. split; [reflexivity|]. split; [|exact (since_restart (W - s) _ (or_intror eq_refl))]. lia.
      + rewrite E. exists (advance64 v a), base, (S m). split; [reflexivity|]. split; [lia|]. split; [exact S1|]. split; [apply In|left; apply In].
  Qed.
  Lemma next n a : sampled64 W s v n = Some a -> forall base m, since base m a -> within a ->
    exists b, sampled64 W s v (S n) = Some b /\ forall k, (0 <= k < s)%Z ->
      (x_roll b = x_roll a /\ Rabs (place b k - (place a k + B2R v)) <= e) \/
      ((B2R (x_pos a) + B2R v < e \/ IZR (W - s) - 2 * e <= B2R (x_pos a) + B2R v) /\ Rabs (place b k - (place a k + B2R v)) <= 1 + (2 * INR m + 3) * e).
  Proof.
    intros Ea base m Si Wi. cbn [sampled64]. rewrite Ea. destruct (count base m a Vm Si Wi) as [C1 C2]. destruct (step base m a Si Wi C2) as (S1 & P1 & Q1).
    pose proof w_one. pose proof e_w. assert (Sw : IZR (W - s) <= w) by (apply IZR_le; lia). pose proof Wi as [L U]. pose proof Bv as V. fold w in V. apply Rabs_le_inv in V. apply Rabs_le_inv in P1.
    destruct (wrap_cases (advance64 v a)) as [[E N]|[(r & E & N & T)|[E In]]].
    - apply (proj1 (proj2 S1)).
    - apply abs_le. lra.
    - rewrite E. eexists. split; [reflexivity|]. intros k K. right. split; [right; lra|]. destruct (co_range base m a k Si Wi C2 K) as (_ & D & _). apply Rabs_le_inv in D.
      unfold place. cbn [x_co x_roll advance64]. destruct (int_f k ltac:(lia)) as [_ Ek]. rewrite Ek, minus_IZR.
      change (x_pos (advance64 v a)) with (add64 (x_pos a) v) in *. pose proof (trunc_near (B2R (add64 (x_pos a) v))) as T. apply Rabs_lt_inv in T. cbn [x_pos]. apply abs_le. lra.
    - rewrite E. eexists. split; [reflexivity|]. intros k K. right. split; [left; lra|]. destruct (co_range base m a k Si Wi C2 K) as (_ & D & _). apply Rabs_le_inv in D.
      unfold place. cbn [x_co x_roll]. change (x_roll (advance64 v a)) with (x_roll a). destruct (int_sum k (W - s) ltac:(lia) ltac:(lia) ltac:(lia)) as [_ Ek]. rewrite Ek, !plus_IZR.
      apply Rabs_lt_inv in T. apply abs_le. lra.
    - rewrite E. eexists. split; [reflexivity|]. intros k K. left. split; [reflexivity|]. unfold place. change (x_roll (advance64 v a)) with (x_roll a).
      specialize (Q1 k K). apply Rabs_le_inv in Q1. apply abs_le. lra.
  Qed.
End Axis.

Lemma start_place W s v : (1 <= s <= W)%Z -> (W <= 2 ^ 40)%Z -> exists a, sampled64 W s v 0 = Some a /\
  forall k, (0 <= k < s)%Z -> place a k = IZR ((if lt64 v (ofZ64 0) then W - s else 0) + k).
Proof.
  intros Hs HW. cbn [sampled64]. unfold axis_init64. set (p := (if lt64 v (ofZ64 0) then W - s else 0)%Z).
  assert (Hp : (0 <= p <= W - s)%Z) by (unfold p; destruct (lt64 v (ofZ64 0)); lia). clearbody p.
  set (a0 := mkAxis64 (ofZ64 p) (fun k => add64 (ofZ64 k) (ofZ64 p)) 0).
  destruct (int_f W HW p ltac:(lia)) as [F E].
  assert (B : 1 <= IZR W) by (apply IZR_le; lia). assert (P : 0 <= IZR p <= IZR W) by (split; apply IZR_le; lia).
  destruct (wrap_cases W s Hs HW a0) as [[Ew _]|[(k & Ew & N & _)|[Ew _]]].
  - exact F.
  - cbn [a0 x_pos]. rewrite E, Rabs_pos_eq; lra.
  - rewrite Ew. eexists. split; [reflexivity|]. intros k K. unfold place. cbn [x_co x_roll a0 x_pos]. destruct (int_f W HW k ltac:(lia)) as [_ Ek].
    rewrite E, Ztrunc_IZR, Ek, <- minus_IZR. f_equal. lia.
  - cbn [a0 x_pos] in N. rewrite E in N. lra.
  - rewrite Ew. eexists. split; [reflexivity|]. intros k K. unfold place. cbn [x_co x_roll a0]. destruct (int_sum W HW k p ltac:(lia) ltac:(lia) ltac:(lia)) as [_ Ek].
    rewrite Ek, Rminus_0_r. f_equal. lia.
Qed.
Lemma add_zero x v : is_finite x = true -> is_finite v = true -> B2R v = 0 -> Rabs (B2R x) <= bpow radix2 1000 -> is_finite (add64 x v) = true /\ B2R (add64 x v) = B2R x.
Proof.
  intros Fx Fv Z0 B. destruct (add_correct x v Fx Fv) as [F E]; [rewrite Z0, Rplus_0_r; exact B|]. split; [exact F|]. rewrite E, Z0, Rplus_0_r.
  apply rnd_rep. apply generic_format_B2R.
Qed.
Lemma still W s v n : (1 <= s <= W)%Z -> (W <= 2 ^ 40)%Z -> is_finite v = true -> B2R v = 0 -> exists a, sampled64 W s v n = Some a /\
  is_finite (x_pos a) = true /\ B2R (x_pos a) = 0 /\ x_roll a = 0%Z /\ forall k, (0 <= k < s)%Z -> is_finite (x_co a k) = true /\ B2R (x_co a k) = IZR k.
Proof.
  intros Hs HW Fv Z0. assert (B : 1 <= IZR W) by (apply IZR_le; lia). destruct (int_f W HW 0 ltac:(lia)) as [F0 E0].
  assert (Wr : forall a, is_finite (x_pos a) = true -> B2R (x_pos a) = 0 -> x_roll a = 0%Z -> (forall k, (0 <= k < s)%Z -> is_finite (x_co a k) = true /\ B2R (x_co a k) = IZR k) ->
    exists b, wrap64 W s a = Some b /\ is_finite (x_pos b) = true /\ B2R (x_pos b) = 0 /\ x_roll b = 0%Z /\ forall k, (0 <= k < s)%Z -> is_finite (x_co b k) = true /\ B2R (x_co b k) = IZR k).
  { intros a F P R0 C. destruct (wrap_cases W s Hs HW a F) as [[Ew _]|[(k & Ew & N & _)|[Ew _]]].
    - rewrite P, Rabs_R0. lra.
    - rewrite Ew. eexists. split; [reflexivity|]. cbn [x_pos x_co x_roll]. split; [exact F0|]. split; [exact E0|]. split; [rewrite P, R0; change 0 with (IZR 0); rewrite Ztrunc_IZR; reflexivity|].
      intros k K. apply (int_f W HW). lia.
    - lra.
    - rewrite Ew. exists a. split; [reflexivity|]. split; [exact F|]. split; [exact P|]. split; [exact R0|exact C]. }
  induction n as [|n (a & Ea & F & P & R0 & C)].
  - cbn [sampled64]. unfold axis_init64. assert (N : lt64 v (ofZ64 0) = false) by (apply not_true_iff_false; rewrite lt_correct by assumption; lra). rewrite N.
    apply Wr; cbn [x_pos x_co x_roll]; try assumption; try reflexivity. intros k K. destruct (int_sum W HW k 0 ltac:(lia) ltac:(lia) ltac:(lia)) as [Fk Ek]. split; [exact Fk|]. rewrite Ek. f_equal. lia.
  - cbn [sampled64]. rewrite Ea.
    apply Wr.
    + apply (add_zero (x_pos a) v F Fv Z0). rewrite P, Rabs_R0. apply bpow_ge_0.
    + cbn [advance64 x_pos]. transitivity (B2R (x_pos a)); [|exact P]. apply (add_zero (x_pos a) v F Fv Z0). rewrite P, Rabs_R0. apply bpow_ge_0.
    + exact R0.
    + intros k K. destruct (C k K) as [Fk Ek]. cbn [advance64 x_co]. rewrite <- Ek. apply (add_zero (x_co a k) v Fk Fv Z0). rewrite Ek, <- abs_IZR.
      apply Rle_trans with (IZR (2 ^ 40)); [apply IZR_le; lia|]. change (IZR (2 ^ 40)) with (bpow radix2 40). apply bpow_le. lia.
Qed.

(** Convergence of the closed loop. *)
From Verif.Base Require Import Vec PyFacts.
From Verif.Model Require Import Recon Delay Dm Loop.
From Verif.Spec Require Import ReconSpec DelaySpec LoopSpec.
From Verif.Proofs Require Import ReconProofs DelayProofs LoopScalar LoopProofs.

Open Scope Qc_scope.

(** the error sequence of a delayed integrator *)
Fixpoint hist (g t : Qc) (d k : nat) : list Qc :=
  match k with
  | O => repeat t (S d)
  | S k' => let h := hist g t d k' in (nth 0 h 0 - g * nth d h 0) :: h
  end.
Definition err (g t : Qc) (d n : nat) : Qc := nth 0 (hist g t d (n - d)) 0.

Lemma err_start g t d k : (k <= d)%nat -> err g t d k = t.
Proof. intros H. unfold err. replace (k - d)%nat with 0%nat by lia. reflexivity. Qed.

Lemma hist_nth g t d k : forall j, (j <= d)%nat -> nth j (hist g t d k) 0 = err g t d (k + d - j).
Proof.
  induction k; intros j Hj.
  - rewrite err_start by lia. cbn [hist].
    apply (nth_error_nth (repeat t (S d))). apply nth_error_repeat. lia.
  - destruct j.
    + unfold err. replace (S k + d - 0 - d)%nat with (S k) by lia. reflexivity.
    + cbn [hist nth]. rewrite IHk by lia. reflexivity.
Qed.

Lemma err_step g t d k : err g t d (S (k + d)) = err g t d (k + d) - g * err g t d k.
Proof.
  unfold err at 1. replace (S (k + d) - d)%nat with (S k) by lia. cbn [hist nth].
  rewrite (hist_nth g t d k 0) by lia. rewrite (hist_nth g t d k d) by lia.
  replace (k + d - 0)%nat with (k + d)%nat by lia. replace (k + d - d)%nat with k by lia. reflexivity.
Qed.

Section Runs.
  Variable fit : nat -> vec -> vec.
  Variables npix npx nmeas : nat.
  Variable wfss : list (list vec -> vec).
  Variables ds0 ds : list dm.
  Variables imat ctrl : mat.
  Hypothesis HS : calibrated_system fit npix npx nmeas wfss ds0 ds imat ctrl.

  Lemma repeat_Forall (base : vec) N : length base = nmeas -> Forall (fun b => length b = nmeas) (repeat base N).
  Proof. intros H. apply Forall_forall. intros b Hb. apply repeat_spec in Hb. rewrite Hb. exact H. Qed.

  Lemma static_closed dl base N outs x d : length base = nmeas ->
    system_run fit npx nmeas wfss ds ctrl dl (repeat base N) = Ok outs ->
    belongs ds x d -> closed d = true ->
    forall n, (n < N)%nat -> elem (mvm ctrl base) x - command outs n x = err (gain d) (elem (mvm ctrl base) x) dl n.
  Proof.
    intros Hb HR Bx Hc.
    destruct (system_law _ _ _ _ _ _ _ _ _ HS dl (repeat base N) (repeat_Forall base N Hb)) as (outs' & R1 & R2 & R3 & _).
    assert (outs' = outs) by congruence. subst outs'.
    destruct (R3 x d Bx) as (u & U0 & U). clear R3. rewrite Hc in U.
    set (t := elem (mvm ctrl base) x) in *. set (g := gain d) in *.
    assert (HU : forall n, (n <= N)%nat -> t - u n = err g t dl (n + dl)).
    { induction n as [n IH] using lt_wf_ind. intros Hn. destruct n as [|n].
      - rewrite U0, err_start by lia. ring.
      - assert (Hn' : (n < N)%nat) by lia. destruct (U n base (nth_error_repeat _ Hn')) as [C1 C2]. fold t in C2. rewrite C2.
        replace (S n + dl)%nat with (S (n + dl)) by lia. rewrite err_step.
        transitivity ((t - u n) - g * (t - command outs n x)); [ring|].
        rewrite (IH n) by lia. f_equal. f_equal. f_equal. rewrite C1.
        destruct (n <? dl)%nat eqn:E.
        + apply Nat.ltb_lt in E. rewrite err_start by lia. ring.
        + apply Nat.ltb_ge in E. rewrite (IH (n - dl)%nat) by lia. f_equal. lia. }
    intros n Hn. destruct (U n base (nth_error_repeat _ Hn)) as [C1 _]. rewrite C1.
    destruct (n <? dl)%nat eqn:E.
    - apply Nat.ltb_lt in E. rewrite err_start by lia. ring.
    - apply Nat.ltb_ge in E. rewrite HU by lia. f_equal. lia.
  Qed.

  Lemma static_open dl base N outs x d : length base = nmeas ->
    system_run fit npx nmeas wfss ds ctrl dl (repeat base N) = Ok outs ->
    belongs ds x d -> closed d = false ->
    forall n, (n < N)%nat -> command outs n x = (1 - (1 - gain d) ^ (n - dl)) * elem (mvm ctrl base) x.
  Proof.
    intros Hb HR Bx Hc.
    destruct (system_law _ _ _ _ _ _ _ _ _ HS dl (repeat base N) (repeat_Forall base N Hb)) as (outs' & R1 & R2 & R3 & _).
    assert (outs' = outs) by congruence. subst outs'.
    destruct (R3 x d Bx) as (u & U0 & U). clear R3. rewrite Hc in U.
    assert (HU : forall n, (n <= N)%nat -> u n = (1 - (1 - gain d) ^ n) * elem (mvm ctrl base) x).
    { apply geometric; auto. intros n Hn. destruct (U n base (nth_error_repeat _ Hn)) as [_ C2]. rewrite C2. ring. }
    intros n Hn. destruct (U n base (nth_error_repeat _ Hn)) as [C1 _]. rewrite C1.
    destruct (n <? dl)%nat eqn:E.
    - apply Nat.ltb_lt in E. replace (n - dl)%nat with 0%nat by lia. cbn [Qcpower]. ring.
    - apply HU. lia.
  Qed.

  Lemma err_0 g t n : err g t 0 n = (1 - g) ^ n * t.
  Proof.
    induction n.
    - rewrite err_start by lia. cbn [Qcpower]. ring.
    - replace (S n) with (S (n + 0)) by lia. rewrite err_step, Nat.add_0_r, IHn. cbn [Qcpower]. ring.
  Qed.

  Lemma static_zero base N outs x d : length base = nmeas ->
    system_run fit npx nmeas wfss ds ctrl 0 (repeat base N) = Ok outs -> belongs ds x d ->
    forall n, (n < N)%nat -> command outs n x = (1 - (1 - gain d) ^ n) * elem (mvm ctrl base) x.
  Proof.
    intros Hb HR Bx n Hn. destruct (closed d) eqn:Ec.
    - pose proof (static_closed 0 base N outs x d Hb HR Bx Ec n Hn) as E. rewrite err_0 in E.
      replace (command outs n x) with (elem (mvm ctrl base) x - (elem (mvm ctrl base) x - command outs n x)) by ring. rewrite E. ring.
    - rewrite (static_open 0 base N outs x d Hb HR Bx Ec n Hn), Nat.sub_0_r. reflexivity.
  Qed.

  Lemma abs_pow r n : qc_abs (r ^ n) = qc_abs r ^ n.
  Proof. induction n; cbn [Qcpower]; [reflexivity|]. rewrite qc_abs_mul, IHn. reflexivity. Qed.

  Lemma pow_t_small r t e : qc_abs r < 1 -> 0 < e -> exists N, forall n, (N <= n)%nat -> qc_abs (r ^ n * t) <= e.
  Proof.
    intros Hr He. pose proof (qc_abs_nonneg t) as Ht.
    assert (Hp : 0 < qc_abs t + 1) by qclra.
    assert (Hn : qc_abs t + 1 <> 0) by (intros E; rewrite E in Hp; revert Hp; qclra).
    pose proof (Qcmult_inv_r _ Hn) as Hi.
    assert (Hip : 0 < / (qc_abs t + 1)). { destruct (Qclt_le_dec 0 (/ (qc_abs t + 1))); auto. exfalso. qcnra. }
    destruct (pow_small (qc_abs r) (e * / (qc_abs t + 1)) (qc_abs_nonneg r) Hr) as [N HN]; [qcnra|].
    exists N. intros n Hn'. rewrite qc_abs_mul, abs_pow. specialize (HN n Hn').
    pose proof (qcpow_nonneg (qc_abs r) n (qc_abs_nonneg r)) as Hq.
    remember (qc_abs r ^ n) as q. remember (qc_abs t) as a. remember (/ (a + 1)) as i.
    assert (q * (a + 1) <= e * i * (a + 1)) by qcnra.
    assert (E : e * i * (a + 1) = e * ((a + 1) * i)) by ring. rewrite Hi in E.
    assert (q * a <= q * (a + 1)) by qcnra. qclra.
  Qed.

  Lemma gain_range g : 0 < g -> g < 1 + 1 -> qc_abs (1 - g) < 1.
  Proof. intros. unfold qc_abs. destruct (Qclt_le_dec (1 - g) 0); qclra. Qed.

  Lemma static_converges base x d e : length base = nmeas -> belongs ds x d -> 0 < gain d -> gain d < 1 + 1 -> 0 < e ->
    exists N0, forall N outs n, system_run fit npx nmeas wfss ds ctrl 0 (repeat base N) = Ok outs -> (N0 <= n < N)%nat ->
      qc_abs (elem (mvm ctrl base) x - command outs n x) <= e.
  Proof.
    intros Hb Bx G0 G2 He. destruct (pow_t_small (1 - gain d) (elem (mvm ctrl base) x) e (gain_range _ G0 G2) He) as [N0 H0].
    exists N0. intros N outs n HR Hn. rewrite (static_zero base N outs x d Hb HR Bx n) by lia.
    replace (elem (mvm ctrl base) x - (1 - (1 - gain d) ^ n) * elem (mvm ctrl base) x) with ((1 - gain d) ^ n * elem (mvm ctrl base) x) by ring.
    apply H0. lia.
  Qed.

  Lemma abs_ge1_pow r n : 1 <= qc_abs r -> 1 <= qc_abs (r ^ n).
  Proof. intros H. rewrite abs_pow. induction n; cbn [Qcpower]; [qclra|]. remember (qc_abs r ^ n) as q. qcnra. Qed.

  Lemma static_diverges base x d : length base = nmeas -> belongs ds x d -> gain d <= 0 \/ 1 + 1 <= gain d ->
    forall N outs n, system_run fit npx nmeas wfss ds ctrl 0 (repeat base N) = Ok outs -> (n < N)%nat ->
      qc_abs (elem (mvm ctrl base) x) <= qc_abs (elem (mvm ctrl base) x - command outs n x).
  Proof.
    intros Hb Bx HG N outs n HR Hn. rewrite (static_zero base N outs x d Hb HR Bx n Hn).
    replace (elem (mvm ctrl base) x - (1 - (1 - gain d) ^ n) * elem (mvm ctrl base) x) with ((1 - gain d) ^ n * elem (mvm ctrl base) x) by ring.
    rewrite qc_abs_mul. apply mul_ge1; [|apply qc_abs_nonneg]. apply abs_ge1_pow.
    unfold qc_abs. destruct (Qclt_le_dec (1 - gain d) 0); destruct HG; qclra.
  Qed.

  Lemma delayed_converges dl base x d e : length base = nmeas -> belongs ds x d -> closed d = true ->
    0 < gain d -> gain d <= 1 -> gain d * qz (Z.of_nat dl) < 1 -> 0 < e ->
    exists N0, forall N outs n, system_run fit npx nmeas wfss ds ctrl dl (repeat base N) = Ok outs -> (N0 <= n < N)%nat ->
      qc_abs (elem (mvm ctrl base) x - command outs n x) <= e.
  Proof.
    intros Hb Bx Hc G0 G1 Gd He.
    destruct (delay_converges (gain d) dl (err (gain d) (elem (mvm ctrl base) x) dl) G0 G1 Gd (err_step _ _ _) e He) as [N0 H0].
    exists N0. intros N outs n HR Hn. rewrite (static_closed dl base N outs x d Hb HR Bx Hc n) by lia. apply H0. lia.
  Qed.

  Lemma delayed_open_converges dl base x d e : length base = nmeas -> belongs ds x d -> closed d = false ->
    0 < gain d -> gain d < 1 + 1 -> 0 < e ->
    exists N0, forall N outs n, system_run fit npx nmeas wfss ds ctrl dl (repeat base N) = Ok outs -> (N0 <= n < N)%nat ->
      qc_abs (elem (mvm ctrl base) x - command outs n x) <= e.
  Proof.
    intros Hb Bx Hc G0 G2 He. destruct (pow_t_small (1 - gain d) (elem (mvm ctrl base) x) e (gain_range _ G0 G2) He) as [N0 H0].
    exists (N0 + dl)%nat. intros N outs n HR Hn. rewrite (static_open dl base N outs x d Hb HR Bx Hc n) by lia.
    replace (elem (mvm ctrl base) x - (1 - (1 - gain d) ^ (n - dl)) * elem (mvm ctrl base) x) with ((1 - gain d) ^ (n - dl) * elem (mvm ctrl base) x) by ring.
    apply H0. lia.
  Qed.

  Lemma delayed_one_never_settles base x d : length base = nmeas -> belongs ds x d -> closed d = true -> 1 <= gain d ->
    forall N outs n, system_run fit npx nmeas wfss ds ctrl 1 (repeat base N) = Ok outs -> (S n < N)%nat ->
      let t := elem (mvm ctrl base) x in let e k := t - command outs k x in
      t * t <= (1 + 1 + 1) * qc_max (e n * e n) (e (S n) * e (S n)).
  Proof.
    intros Hb Bx Hc HG N outs n HR Hn t e. unfold e, t.
    rewrite !(static_closed 1 base N outs x d Hb HR Bx Hc) by lia. fold t.
    apply (one_delay_unstable (gain d) t (err (gain d) t 1)); auto.
    intros k. pose proof (err_step (gain d) t 1 k) as E. rewrite Nat.add_1_r in E. exact E.
  Qed.

  Lemma tracks dl base0 (sig noise : list vec) x d v eta outs : dl = 0%nat ->
    Forall (fun b => length b = nmeas) sig -> Forall (fun b => length b = nmeas) noise -> length noise = length sig ->
    nth_error sig 0 = Some base0 ->
    belongs ds x d -> closed d = true -> 0 < gain d -> gain d <= 1 ->
    (forall n s s', nth_error sig n = Some s -> nth_error sig (S n) = Some s' -> qc_abs (elem (mvm ctrl s') x - elem (mvm ctrl s) x) <= v) ->
    (forall n e, nth_error noise n = Some e -> qc_abs (elem (mvm ctrl e) x) <= eta) ->
    0 <= v -> 0 <= eta ->
    system_run fit npx nmeas wfss ds ctrl dl (map (fun p => vadd (fst p) (snd p)) (combine sig noise)) = Ok outs ->
    forall n s, nth_error sig n = Some s ->
      qc_abs (elem (mvm ctrl s) x - command outs n x)
      <= (1 - gain d) ^ n * qc_abs (elem (mvm ctrl base0) x) + (v / gain d + eta).
  Proof.
    intros -> Hs Hno Hl Hb0 Bx Hc G0 G1 Hv Heta V0 E0 HR n s Hn.
    set (bases := map (fun p => vadd (fst p) (snd p)) (combine sig noise)) in *.
    assert (HB : forall k a b, nth_error sig k = Some a -> nth_error noise k = Some b -> nth_error bases k = Some (vadd a b)).
    { intros k a b Ha Hb. unfold bases. rewrite nth_error_map.
      assert (E : nth_error (combine sig noise) k = Some (a, b)).
      { clear - Ha Hb. revert noise k Ha Hb. induction sig as [|y sig IH]; intros [|z noise] [|k] Ha Hb; simpl in *; try discriminate; auto. congruence. }
      rewrite E. reflexivity. }
    assert (HBF : Forall (fun b => length b = nmeas) bases).
    { unfold bases. apply Forall_forall. intros b Hb. apply in_map_iff in Hb. destruct Hb as ((p & q) & <- & Hpq).
      pose proof (in_combine_l _ _ _ _ Hpq) as Hp. pose proof (in_combine_r _ _ _ _ Hpq) as Hq.
      rewrite Forall_forall in Hs, Hno. simpl. rewrite vadd_length; rewrite (Hs p Hp); auto. symmetry. apply (Hno q Hq). }
    destruct (system_law _ _ _ _ _ _ _ _ _ HS 0 bases HBF) as (outs' & R1 & R2 & R3 & _).
    assert (outs' = outs) by congruence. subst outs'.
    destruct (R3 x d Bx) as (u & U0 & U). clear R3. rewrite Hc in U.
    set (r := fun k => match nth_error sig k with Some a => elem (mvm ctrl a) x | None => 0 end).
    set (nu := fun k => match nth_error noise k with Some a => elem (mvm ctrl a) x | None => 0 end).
    assert (Hlast : (n < length sig)%nat) by (apply nth_error_Some; congruence).
    assert (HK : forall k, (k < length sig)%nat -> exists a b, nth_error sig k = Some a /\ nth_error noise k = Some b).
    { intros k Hk. destruct (nth_error sig k) as [a|] eqn:Ea; [|apply nth_error_None in Ea; lia].
      destruct (nth_error noise k) as [b|] eqn:Eb; [|apply nth_error_None in Eb; lia]. eauto. }
    assert (HC : forall k, (k < length sig)%nat -> command outs k x = u k /\ u (S k) = u k + gain d * (r k + nu k - u k)).
    { intros k Hk. destruct (HK k Hk) as (a & b & Ha & Hb). destruct (U k (vadd a b) (HB k a b Ha Hb)) as [C1 C2].
      cbn [Nat.ltb Nat.leb] in C1. rewrite Nat.sub_0_r in C1. split; [exact C1|]. rewrite C2, C1. f_equal. f_equal. f_equal.
      unfold r, nu. rewrite Ha, Hb. rewrite Forall_forall in Hs, Hno.
      rewrite mvm_add by (rewrite (Hs a), (Hno b); eauto using nth_error_In). apply elem_vadd. rewrite !mvm_length. reflexivity. }
    pose proof (tracking (gain d) v eta r nu u n G0 G1 U0) as T.
    replace (elem (mvm ctrl s) x - command outs n x) with (r n - u n).
    2:{ unfold r. rewrite Hn. destruct (HC n Hlast) as [-> _]. reflexivity. }
    replace (elem (mvm ctrl base0) x) with (r 0%nat) by (unfold r; rewrite Hb0; reflexivity).
    apply T; auto.
    - intros k Hk. apply (HC k). lia.
    - intros k Hk. unfold r. destruct (HK k ltac:(lia)) as (a & _ & Ha & _). destruct (HK (S k) ltac:(lia)) as (a' & _ & Ha' & _).
      rewrite Ha, Ha'. apply (Hv k); auto.
    - intros k Hk. unfold nu. destruct (HK k ltac:(lia)) as (_ & b & _ & Hb). rewrite Hb. apply (Heta k); auto.
  Qed.
End Runs.

(** Proofs about the closed loop with inexact sensors and a loop delay. *)
From Verif.Base Require Import Vec.
From Verif.Model Require Import Recon Delay Dm Loop.
From Verif.Spec Require Import ReconSpec LoopSpec.
From Verif.Proofs Require Import ReconProofs DelayProofs LoopProofs LoopScalar.
From Verif.Spec Require Import RobustSpec.
From Verif.Proofs Require Import RobustProofs.

(** The recurrence, for any number of commands *)
Section Steps.
  Variables (Y N d : nat) (t u : nat -> nat -> Qc) (g G range delta eta v M L : Qc).
  Let dl := qz (Z.of_nat d).
  Let rate := (g * (1 - delta) - dl * (G * G) * (1 + delta))%Qc.
  Hypothesis Hg : (0 < g)%Qc.
  Hypothesis HG : (g <= G)%Qc.
  Hypothesis HG1 : (G <= 1)%Qc.
  Hypothesis Hd0 : (0 <= delta)%Qc.
  Hypothesis Hd1 : (delta < 1)%Qc.
  Hypothesis He : (0 <= eta)%Qc.
  Hypothesis Hv : (0 <= v)%Qc.
  Hypothesis HM : (0 <= M)%Qc.
  Hypothesis Hr : (0 < rate)%Qc.
  Hypothesis HL : (L * rate = v + G * (eta + delta * (dl * v) + dl * (G * (eta + (1 + delta) * (dl * v)))))%Qc.
  Hypothesis HR : (M + L + dl * v <= range)%Qc.
  Hypothesis Ht : forall n y, (y < Y)%nat -> (qc_abs (t (S n) y - t n y) <= v)%Qc.
  Hypothesis H0 : forall y, (y < Y)%nat -> (qc_abs (t 0%nat y - u 0%nat y) <= M)%Qc.
  Hypothesis Hu : forall n E, (n < N)%nat -> (forall y, (y < Y)%nat -> (qc_abs (t n y - u (n - d)%nat y) <= E)%Qc) -> (E <= range)%Qc ->
    forall y, (y < Y)%nat -> exists gx m, (g <= gx)%Qc /\ (gx <= G)%Qc /\ u (S n) y = (u n y + gx * m)%Qc /\
      (qc_abs (m - (t n y - u (n - d)%nat y)) <= delta * E + eta)%Qc.

  Lemma dl0 : (0 <= dl)%Qc.
  Proof. unfold dl. rewrite <- qz_0. apply qz_le. lia. Qed.
  Lemma t_steps i : forall n y, (y < Y)%nat -> (qc_abs (t (n + i)%nat y - t n y) <= qz (Z.of_nat i) * v)%Qc.
  Proof.
    induction i as [|i IH]; intros n y Hy.
    - rewrite Nat.add_0_r. replace (t n y - t n y)%Qc with 0%Qc by ring. rewrite qc_abs_0. change (qz (Z.of_nat 0)) with 0%Qc. qclra.
    - rewrite Nat.add_succ_r. specialize (IH n y Hy). specialize (Ht (n + i)%nat y Hy). apply abs_both in IH, Ht.
      rewrite Nat2Z.inj_succ. unfold Z.succ. rewrite qz_add, qz_1. apply qc_abs_le; qclra.
  Qed.
  Lemma t_back n y : (y < Y)%nat -> (qc_abs (t n y - t (n - d)%nat y) <= dl * v)%Qc.
  Proof.
    intros Hy. pose proof (t_steps (n - (n - d)) (n - d) y Hy) as A. replace (n - d + (n - (n - d)))%nat with n in A by lia.
    eapply Qcle_trans; [exact A|]. apply Qcmult_le_compat_r; [|exact Hv]. unfold dl. apply qz_le. lia.
  Qed.
  Lemma u_steps st i : forall n y, (y < Y)%nat -> (0 <= st)%Qc -> (forall k, (n <= k < n + i)%nat -> (qc_abs (u (S k) y - u k y) <= st)%Qc) ->
    (qc_abs (u (n + i)%nat y - u n y) <= qz (Z.of_nat i) * st)%Qc.
  Proof.
    induction i as [|i IH]; intros n y Hy Hst Hk.
    - rewrite Nat.add_0_r. replace (u n y - u n y)%Qc with 0%Qc by ring. rewrite qc_abs_0. change (qz (Z.of_nat 0)) with 0%Qc. qclra.
    - rewrite Nat.add_succ_r. specialize (IH n y Hy Hst (fun k Hk' => Hk k ltac:(lia))). specialize (Hk (n + i)%nat ltac:(lia)). apply abs_both in IH, Hk.
      rewrite Nat2Z.inj_succ. unfold Z.succ. rewrite qz_add, qz_1. apply qc_abs_le; qclra.
  Qed.
  Lemma seen X k : (forall j y, (k - d <= j <= k)%nat -> (y < Y)%nat -> (qc_abs (t j y - u j y) <= X + L)%Qc) ->
    forall y, (y < Y)%nat -> (qc_abs (t k y - u (k - d)%nat y) <= X + L + dl * v)%Qc.
  Proof.
    intros H y Hy. specialize (H (k - d)%nat y ltac:(lia) Hy). pose proof (t_back k y Hy) as B. apply abs_both in H, B. apply qc_abs_le; qclra.
  Qed.
  Lemma L0 : (0 <= L)%Qc.
  Proof.
    pose proof dl0. assert (A : (0 <= dl * v)%Qc) by (replace 0%Qc with (0 * v)%Qc by ring; apply Qcmult_le_compat_r; auto).
    assert (0 <= G)%Qc by qclra. assert (B : (0 <= delta * (dl * v))%Qc) by (replace 0%Qc with (0 * (dl * v))%Qc by ring; apply Qcmult_le_compat_r; auto).
    assert (C : (0 <= eta + (1 + delta) * (dl * v))%Qc) by qclra.
    assert (D : (0 <= G * (eta + (1 + delta) * (dl * v)))%Qc) by (replace 0%Qc with (0 * (eta + (1 + delta) * (dl * v)))%Qc by ring; apply Qcmult_le_compat_r; auto).
    assert (E : (0 <= dl * (G * (eta + (1 + delta) * (dl * v))))%Qc) by (replace 0%Qc with (0 * (G * (eta + (1 + delta) * (dl * v))))%Qc by ring; apply Qcmult_le_compat_r; auto).
    assert (F : (0 <= G * (eta + delta * (dl * v) + dl * (G * (eta + (1 + delta) * (dl * v)))))%Qc)
      by (replace 0%Qc with (0 * (eta + delta * (dl * v) + dl * (G * (eta + (1 + delta) * (dl * v)))))%Qc by ring; apply Qcmult_le_compat_r; [auto|qclra]).
    assert (K : (0 <= L * rate)%Qc) by (rewrite HL; qclra).
    destruct (Qclt_le_dec L 0) as [Z|Z]; [|exact Z]. exfalso.
    assert (Q : (L * rate < 0 * rate)%Qc) by (apply Qcmult_lt_compat_r; auto). qclra.
  Qed.
  Lemma step X n : (0 <= X)%Qc -> (X <= M)%Qc -> (n < N)%nat ->
    (forall k y, (n - 2 * d <= k <= n)%nat -> (y < Y)%nat -> (qc_abs (t k y - u k y) <= X + L)%Qc) ->
    forall y, (y < Y)%nat -> (qc_abs (t (S n) y - u (S n) y) <= (1 - rate) * X + L)%Qc.
  Proof.
    intros X0 XM HN H y Hy. pose proof dl0 as D0. pose proof L0 as L0'. set (E := (X + L + dl * v)%Qc).
    assert (dv : (0 <= dl * v)%Qc) by (replace 0%Qc with (0 * v)%Qc by ring; apply Qcmult_le_compat_r; auto).
    assert (E0 : (0 <= E)%Qc) by (unfold E; qclra). assert (ER : (E <= range)%Qc) by (unfold E; qclra).
    assert (G0 : (0 <= G)%Qc) by qclra.
    set (mm := (E + (delta * E + eta))%Qc).
    assert (dE : (0 <= delta * E)%Qc) by (replace 0%Qc with (0 * E)%Qc by ring; apply Qcmult_le_compat_r; auto).
    assert (mm0 : (0 <= mm)%Qc) by (unfold mm; qclra).
    assert (Gm : (0 <= G * mm)%Qc) by (replace 0%Qc with (0 * mm)%Qc by ring; apply Qcmult_le_compat_r; auto).
    assert (St : forall k, (n - d <= k < n)%nat -> (qc_abs (u (S k) y - u k y) <= G * mm)%Qc).
    { intros k Hk. pose proof (seen X k (fun j y' Hj Hy' => H j y' ltac:(lia) Hy')) as S. fold E in S.
      destruct (Hu k E ltac:(lia) S ER y Hy) as (gx & m & A1 & A2 & A3 & A4). specialize (S y Hy). rewrite A3. replace (u k y + gx * m - u k y)%Qc with (gx * m)%Qc by ring.
      rewrite qc_abs_mul. assert (Am : (qc_abs m <= mm)%Qc) by (unfold mm; apply abs_both in S, A4; apply qc_abs_le; qclra).
      assert (Ag : (qc_abs gx <= G)%Qc) by (apply qc_abs_le; qclra).
      eapply Qcle_trans; [apply Qcmult_le_compat_r; [exact Ag|apply qc_abs_nonneg]|]. rewrite !(Qcmult_comm G). apply Qcmult_le_compat_r; auto. }
    assert (Dn : (qc_abs (u n y - u (n - d)%nat y) <= dl * (G * mm))%Qc).
    { pose proof (u_steps (G * mm) (n - (n - d)) (n - d) y Hy Gm) as A. replace (n - d + (n - (n - d)))%nat with n in A by lia.
      eapply Qcle_trans; [apply A; intros k Hk; apply St; lia|]. apply Qcmult_le_compat_r; [|exact Gm]. unfold dl. apply qz_le. lia. }
    pose proof (seen X n (fun j y' Hj Hy' => H j y' ltac:(lia) Hy')) as S. fold E in S.
    destruct (Hu n E HN S ER y Hy) as (gx & m & A1 & A2 & A3 & A4). rewrite A3.
    specialize (H n y ltac:(lia) Hy). specialize (Ht n y Hy). clear St S Hu H0.
    set (r := (t n y - u n y)%Qc) in *. set (w := (t (Datatypes.S n) y - t n y)%Qc) in *. set (un := u n y) in *. set (ud := u (n - d)%nat y) in *.
    replace (t (Datatypes.S n) y - (un + gx * m))%Qc with (w + r * (1 - gx) + (r - m) * gx)%Qc by (unfold w, r; ring).
    replace (t n y - ud)%Qc with (r + (un - ud))%Qc in A4 by (unfold r; ring).
    set (q := (un - ud)%Qc) in *. clearbody r w q. clear un ud A3.
    set (D := (dl * (G * mm))%Qc) in *. set (W := (D + (delta * E + eta))%Qc).
    assert (DD : (0 <= D)%Qc) by (unfold D; replace 0%Qc with (0 * (G * mm))%Qc by ring; apply Qcmult_le_compat_r; auto).
    assert (WW : (0 <= W)%Qc) by (unfold W; qclra).
    apply abs_both in H, Ht, Dn, A4.
    assert (RM : (- W <= r - m)%Qc /\ (r - m <= W)%Qc) by (unfold W; split; qclra).
    set (z := (r - m)%Qc) in *. clearbody z.
    assert (g1 : (0 <= 1 - gx)%Qc) by qclra. assert (g0 : (0 <= gx)%Qc) by qclra. assert (XL : (0 <= X + L)%Qc) by qclra.
    assert (Q1 : (r * (1 - gx) <= (X + L) * (1 - gx))%Qc) by (apply Qcmult_le_compat_r; [apply H|auto]).
    assert (Q2 : (- (X + L) * (1 - gx) <= r * (1 - gx))%Qc) by (apply Qcmult_le_compat_r; [apply H|auto]).
    assert (Q3 : (z * gx <= W * gx)%Qc) by (apply Qcmult_le_compat_r; [apply RM|auto]).
    assert (Q4 : (- W * gx <= z * gx)%Qc) by (apply Qcmult_le_compat_r; [apply RM|auto]).
    (* the bound *)
    assert (F : (v + (X + L) * (1 - gx) + W * gx <= (1 - rate) * X + L)%Qc).
    { assert (V : (W = delta * (X + L) + (D + delta * (dl * v) + eta))%Qc) by (unfold W, E; ring). set (W' := (D + delta * (dl * v) + eta)%Qc) in *.
      assert (W0 : (0 <= W')%Qc).
      { unfold W'. assert (0 <= delta * (dl * v))%Qc by (replace 0%Qc with (0 * (dl * v))%Qc by ring; apply Qcmult_le_compat_r; auto). qclra. }
      assert (P1 : (W' * gx <= W' * G)%Qc) by (rewrite !(Qcmult_comm W'); apply Qcmult_le_compat_r; auto).
      assert (P2 : (g * ((1 - delta) * (X + L)) <= gx * ((1 - delta) * (X + L)))%Qc).
      { apply Qcmult_le_compat_r; [exact A1|]. replace 0%Qc with (0 * (X + L))%Qc by ring. apply Qcmult_le_compat_r; [qclra|auto]. }
      assert (P3 : ((1 - rate) * X + L = (1 - g * (1 - delta)) * (X + L) + v + G * W')%Qc).
      { transitivity ((1 - rate) * (X + L) + L * rate)%Qc; [ring|]. rewrite HL. unfold W', D, mm, E, rate. ring. }
      rewrite P3, V. assert (P4 : (v + (X + L) * (1 - gx) + (delta * (X + L) + W') * gx = v + (X + L) - gx * ((1 - delta) * (X + L)) + W' * gx)%Qc) by ring.
      rewrite P4. assert (P5 : ((1 - g * (1 - delta)) * (X + L) + v + G * W' = v + (X + L) - g * ((1 - delta) * (X + L)) + W' * G)%Qc) by ring. rewrite P5. qclra. }
    apply qc_abs_le; qclra.
  Qed.
  Lemma rate_le1 : (rate <= 1)%Qc.
  Proof.
    unfold rate. pose proof dl0.
    assert (A : (g * (1 - delta) <= 1 * (1 - delta))%Qc) by (apply Qcmult_le_compat_r; qclra).
    assert (B : (0 <= dl * (G * G) * (1 + delta))%Qc).
    { assert (B1 : (0 <= G * G)%Qc) by (replace 0%Qc with (0 * G)%Qc by ring; apply Qcmult_le_compat_r; qclra).
      assert (B2 : (0 <= dl * (G * G))%Qc) by (replace 0%Qc with (0 * (G * G))%Qc by ring; apply Qcmult_le_compat_r; auto).
      replace 0%Qc with (0 * (1 + delta))%Qc by ring; apply Qcmult_le_compat_r; [auto|qclra]. }
    qclra.
  Qed.
  Lemma pow_range j : (0 <= (1 - rate) ^ j)%Qc /\ ((1 - rate) ^ j <= 1)%Qc.
  Proof.
    pose proof rate_le1. induction j as [|j [I1 I2]]; cbn [Qcpower]; [split; qclra|]. split.
    - replace 0%Qc with (0 * (1 - rate) ^ j)%Qc by ring. apply Qcmult_le_compat_r; [qclra|auto].
    - assert (Q : ((1 - rate) * (1 - rate) ^ j <= 1 * (1 - rate) ^ j)%Qc) by (apply Qcmult_le_compat_r; [qclra|auto]). qclra.
  Qed.
  Lemma run_bound n : (n <= N)%nat -> forall j, (j * (2 * d + 1) <= n)%nat -> forall y, (y < Y)%nat -> (qc_abs (t n y - u n y) <= (1 - rate) ^ j * M + L)%Qc.
  Proof.
    pose proof L0 as L0'. induction n as [n IH] using (well_founded_induction lt_wf). intros HN j Hj y Hy.
    destruct n as [|n].
    - assert (j = 0%nat) by lia. subst j. specialize (H0 y Hy). cbn [Qcpower]. qclra.
    - assert (PM : forall i, (0 <= (1 - rate) ^ i * M)%Qc /\ ((1 - rate) ^ i * M <= M)%Qc).
      { intros i. destruct (pow_range i) as [A B]. split; [replace 0%Qc with (0 * M)%Qc by ring|replace M with (1 * M)%Qc at 2 by ring]; apply Qcmult_le_compat_r; auto. }
      assert (Z : forall i, (i * (2 * d + 1) <= n - 2 * d)%nat \/ i = 0%nat -> (qc_abs (t (S n) y - u (S n) y) <= (1 - rate) * ((1 - rate) ^ i * M) + L)%Qc).
      { intros i Hi. destruct (PM i) as [P1 P2]. apply (step _ n P1 P2 ltac:(lia)); [|exact Hy]. intros k y' Hk Hy'. apply IH; auto; try lia. }
      destruct j as [|j].
      + specialize (Z 0%nat (or_intror eq_refl)). cbn [Qcpower] in *. replace ((1 - rate) * (1 * M))%Qc with ((1 - rate) * M)%Qc in Z by ring.
        assert (Q : (0 * M <= rate * M)%Qc) by (apply Qcmult_le_compat_r; [qclra|auto]).
        eapply Qcle_trans; [exact Z|]. replace ((1 - rate) * M)%Qc with (M - rate * M)%Qc by ring. qclra.
      + specialize (Z j ltac:(left; lia)). cbn [Qcpower]. replace ((1 - rate) * (1 - rate) ^ j * M)%Qc with ((1 - rate) * ((1 - rate) ^ j * M))%Qc by ring. exact Z.
  Qed.
End Steps.

Section Driven2.
  Variable fit : nat -> vec -> vec.
  Variables npix npx nmeas : nat.
  Variable ds : list dm.
  Variable ctrl : mat.
  Hypothesis HD : Forall (driven npix) ds.
  Hypothesis HT : forall k v, length v = npix -> length (fit k v) = npx.
  Hypothesis HR : length ctrl = total_acts (nvalids ds).

  Theorem robust_delay (g G range delta eta v M L : Qc) (d : nat) (wanted : nat -> vec) (senses : list (list vec -> vec)) :
    let dl := qz (Z.of_nat d) in let rate := (g * (1 - delta) - dl * (G * G) * (1 + delta))%Qc in
    Forall (fun d => closed d = true /\ (g <= gain d)%Qc /\ (gain d <= G)%Qc) ds ->
    (0 < g)%Qc -> (g <= G)%Qc -> (G <= 1)%Qc -> (0 <= delta)%Qc -> (delta < 1)%Qc -> (0 <= eta)%Qc -> (0 <= v)%Qc -> (0 <= M)%Qc -> (0 < rate)%Qc ->
    (L * rate = v + G * (eta + delta * (dl * v) + dl * (G * (eta + (1 + delta) * (dl * v)))))%Qc ->
    (M + L + dl * v <= range)%Qc ->
    (forall n f, nth_error senses n = Some f -> (forall s, stack_ok (length ds) npx s -> length (f s) = nmeas) /\ accurate fit ds ctrl range delta eta (wanted n) f) ->
    (forall n x, (x < actuators ds)%nat -> (qc_abs (elem (wanted (S n)) x - elem (wanted n) x) <= v)%Qc) ->
    within ds (wanted 0%nat) (vzero (actuators ds)) M ->
    exists S outs, loop_run fit ds nmeas (actuators ds) ctrl (Z.of_nat d) (loop_init (length ds) npx nmeas) senses = Ok (S, outs) /\ length outs = length senses /\
      forall n o, nth_error outs n = Some o ->
        within ds (wanted n) (applied o) ((1 - rate) ^ ((n - d) / (2 * d + 1)) * M + L + dl * v)%Qc.
  Proof.
    intros dl rate HC Hg HG HG1 D1 D2 N V HM Hr HL HRa HA Hv H0.
    assert (HF : Forall (fun f : list vec -> vec => forall s, stack_ok (length ds) npx s -> length (f s) = nmeas) senses).
    { apply Forall_forall. intros f Hf. destruct (In_nth_error _ _ Hf) as [n Hn]. apply (HA n f Hn). }
    destruct (loop_run_ok fit npix npx nmeas ds ctrl HD HT HR d senses _ (init_inv npx nmeas ds ctrl HR d) HF) as (S & outs & As & R1 & R2 & R3 & R4 & R5 & R6 & R7 & R8).
    exists S, outs. split; [exact R1|]. split; [exact R2|].
    set (U := fun n => nth n As []).
    assert (EU : forall n, (n <= length senses)%nat -> nth_error As n = Some (U n)) by (intros n Hn; apply nth_error_nth'; lia).
    assert (LU : forall n, (n <= length senses)%nat -> length (U n) = actuators ds).
    { intros n Hn. rewrite Forall_forall in R6. apply R6. eapply nth_error_In. apply EU, Hn. }
    assert (U0 : forall y, (y < actuators ds)%nat -> elem (U 0%nat) y = 0%Qc).
    { intros y Hy. specialize (EU 0%nat ltac:(lia)). rewrite R5 in EU. injection EU as EU. rewrite <- EU. unfold next_commands, loop_init. cbn [l_recon l_slopes commands].
      destruct (belongs_any npix ds HD y Hy) as (dd & B & _). rewrite mvm_zero, HR.
      rewrite gains_elem with (d := dd); rewrite ?vzero_length; auto. rewrite elem_vzero. destruct (closed dd); ring. }
    assert (AP : forall n o, nth_error outs n = Some o -> forall y, (y < actuators ds)%nat -> elem (applied o) y = elem (U (n - d)%nat) y).
    { intros n o Ho y Hy. assert (Hn : (n < length senses)%nat) by (rewrite <- R2; apply nth_error_Some; congruence).
      cbn [l_buf loop_init] in R4. pose proof (@run_delay_const vec zero_like_vec d (firstn (length senses) As)) as [_ DL].
      rewrite R4 in DL. specialize (DL n (U n)). rewrite nth_error_firstn_lt in DL by auto. specialize (DL (EU n ltac:(lia))).
      rewrite nth_error_map, Ho in DL. cbn [option_map] in DL. destruct (Nat.ltb_spec n d) as [H|H].
      - replace (n - d)%nat with 0%nat by lia. rewrite (U0 y Hy). injection DL as ->. unfold zero_like_vec. apply elem_vzero.
      - rewrite nth_error_firstn_lt in DL by lia. rewrite (EU (n - d)%nat ltac:(lia)) in DL. cbn [option_map] in DL. congruence. }
    assert (La : forall n o, nth_error outs n = Some o -> length (applied o) = actuators ds).
    { intros n o Ho. rewrite Forall_forall in R7. apply (R7 o). eapply nth_error_In; eauto. }
    assert (ST : forall n, (n <= length senses)%nat -> forall j, (j * (2 * d + 1) <= n)%nat -> forall y, (y < actuators ds)%nat ->
      (qc_abs (elem (wanted n) y - elem (U n) y) <= (1 - rate) ^ j * M + L)%Qc).
    { apply (run_bound (actuators ds) (length senses) d (fun n y => elem (wanted n) y) (fun n y => elem (U n) y) g G range delta eta v M L); auto.
      - intros y Hy. rewrite (U0 y Hy). specialize (H0 y Hy). rewrite elem_vzero in H0. exact H0.
      - intros n E Hn HE Er y Hy.
        destruct (nth_error senses n) as [f|] eqn:Ef; [|apply nth_error_None in Ef; lia].
        destruct (nth_error outs n) as [o|] eqn:Eo; [|apply nth_error_None in Eo; lia].
        destruct (R8 n f _ o Ef (EU n ltac:(lia)) Eo) as [M1 M2]. rewrite (EU (Datatypes.S n) ltac:(lia)) in M2. injection M2 as M2.
        destruct (belongs_any npix ds HD y Hy) as (dd & B & Id). rewrite M2. rewrite Forall_forall in HC. destruct (HC dd Id) as (C1 & C2 & C3).
        exists (gain dd), (elem (mvm ctrl (measured o)) y). split; [exact C2|]. split; [exact C3|]. split.
        + rewrite gains_elem with (d := dd); auto; [rewrite C1; reflexivity|apply LU; lia|rewrite mvm_length; exact HR].
        + destruct (HA n f Ef) as [_ Acc].
          assert (RD : run_dms fit ds (applied o) = Ok (surfaces fit npix npx (fun _ => true) 0 0 ds (applied o))).
          { unfold run_dms. apply (run_dms_surfaces fit npix npx ds ctrl HD HT HR); [exact HD|]. rewrite (La n o Eo). unfold actuators. lia. }
          assert (Wi : within ds (wanted n) (applied o) E) by (intros z Hz; rewrite (AP n o Eo z Hz); apply HE, Hz).
          specialize (Acc (applied o) _ E (La n o Eo) RD Wi Er y Hy). rewrite (AP n o Eo y Hy) in Acc.
          rewrite M1, all_closed by (apply Forall_forall; intros d' Hd'; apply HC; auto). exact Acc. }
    intros n o Ho y Hy. assert (Hn : (n < length senses)%nat) by (rewrite <- R2; apply nth_error_Some; congruence).
    rewrite (AP n o Ho y Hy).
    pose proof (ST (n - d)%nat ltac:(lia) ((n - d) / (2 * d + 1))%nat ltac:(rewrite Nat.mul_comm; apply Nat.mul_div_le; lia) y Hy) as A.
    pose proof (t_back (actuators ds) d (fun n y => elem (wanted n) y) g G delta eta v L V HL (fun n x Hx => Hv n x Hx) n y Hy) as B. cbv beta in B. fold dl in B.
    apply abs_both in A, B. apply qc_abs_le; qclra.
  Qed.
End Driven2.
Lemma rate_inv r s : (0 < r)%Qc -> (s / r * r = s)%Qc.
Proof. intros H. field. intros Z. rewrite Z in H. revert H. qclra. Qed.
Lemma scaled_accurate (fit : nat -> vec -> vec) (npix npx nmeas : nat) (wfss : list (list vec -> vec)) (ds0 ds : list dm) (imat ctrl : mat) (a range : Qc) (base : vec) :
  calibrated_system fit npix npx nmeas wfss ds0 ds imat ctrl -> length base = nmeas -> Forall (fun d => closed d = true) ds ->
  accurate fit ds ctrl range (qc_abs (a - 1)) 0 (mvm ctrl base) (fun s => vscale a (with_turbulence wfss base s)).
Proof.
  intros HS Lb HC' c frames E Lc RD W _ x Hx. destruct (sys_facts _ _ _ _ _ _ _ _ _ HS) as (Hl & Hi & HG). pose proof HS as [_ _ _ HT _ HN HR _].
  assert (Ef : frames = surfaces fit npix npx closed 0 0 ds c).
  { rewrite all_closed by exact HC'. unfold run_dms in RD. rewrite (LoopProofs.run_dms_surfaces fit npix npx nmeas wfss ds0 ds imat ctrl HS) in RD by (auto; rewrite Lc; unfold actuators; lia). congruence. }
  destruct (belongs_any npix ds HG x Hx) as (d & B & Id). subst frames.
  rewrite mvm_scale, elem_vscale. unfold with_turbulence.
  assert (St : stack_ok (length ds) npx (surfaces fit npix npx closed 0 0 ds c)).
  { eapply surfaces_stack; [intros k w; apply (proj1 (HT k))|exact HG]. }
  rewrite mvm_add by (rewrite HN by (rewrite <- ?Hl; exact St); exact Lb).
  rewrite elem_vadd by (rewrite !mvm_length; reflexivity).
  rewrite (recon_closed fit npix npx nmeas wfss ds0 ds imat ctrl HS c x d Lc B).
  rewrite Forall_forall in HC'. rewrite (HC' d Id).
  set (t := elem (mvm ctrl base) x). specialize (W x Hx). fold t in W.
  replace (a * (t + - elem c x) - (t - elem c x))%Qc with ((a - 1) * (t - elem c x))%Qc by ring.
  rewrite qc_abs_mul, Qcplus_0_r, (Qcmult_comm (qc_abs (a - 1))), (Qcmult_comm (qc_abs (a - 1))). apply Qcmult_le_compat_r; [exact W|apply qc_abs_nonneg].
Qed.
Lemma scaled_delay (fit : nat -> vec -> vec) (npix npx nmeas : nat) (wfss : list (list vec -> vec)) (ds0 ds : list dm) (imat ctrl : mat)
    (g G a first : Qc) (base : vec) (N d : nat) :
  let rate := (g * (1 - qc_abs (a - 1)) - qz (Z.of_nat d) * (G * G) * (1 + qc_abs (a - 1)))%Qc in
  calibrated_system fit npix npx nmeas wfss ds0 ds imat ctrl -> length base = nmeas ->
  Forall (fun d => closed d = true /\ (g <= gain d)%Qc /\ (gain d <= G)%Qc) ds -> (0 < g)%Qc -> (g <= G)%Qc -> (G <= 1)%Qc -> (0 < a)%Qc -> (a < 1 + 1)%Qc -> (0 < rate)%Qc ->
  (0 <= first)%Qc -> (forall x, (x < actuators ds)%nat -> (qc_abs (elem (mvm ctrl base) x) <= first)%Qc) ->
  exists L outs, loop_run fit ds nmeas (actuators ds) ctrl (Z.of_nat d) (loop_init (length ds) npx nmeas)
      (repeat (fun s => vscale a (with_turbulence wfss base s)) N) = Ok (L, outs) /\ length outs = N /\
    forall n o, nth_error outs n = Some o -> within ds (mvm ctrl base) (applied o) ((1 - rate) ^ ((n - d) / (2 * d + 1)) * first)%Qc.
Proof.
  intros rate HS Lb HC Hg HGg HG1 Ha Ha2 Hr F0 HF. destruct (sys_facts _ _ _ _ _ _ _ _ _ HS) as (Hl & Hi & HG).
  pose proof HS as [_ _ _ HT _ HN HR _].
  assert (D : (qc_abs (a - 1) < 1)%Qc) by (unfold qc_abs; destruct (Qclt_le_dec (a - 1) 0); qclra).
  assert (D0 : (0 <= qc_abs (a - 1))%Qc) by apply qc_abs_nonneg.
  assert (HC' : Forall (fun d => closed d = true) ds) by (eapply Forall_impl; [|exact HC]; cbn; tauto).
  assert (Sc : forall n f, nth_error (repeat (fun s => vscale a (with_turbulence wfss base s)) N) n = Some f -> f = (fun s => vscale a (with_turbulence wfss base s))).
  { intros n f H. apply nth_error_In in H. apply repeat_spec in H. exact H. }
  destruct (robust_delay fit npix npx nmeas ds ctrl HG (fun k w H => proj1 (HT k) w H) ltac:(rewrite HR, Hi; reflexivity)
    g G first (qc_abs (a - 1)) 0 0 first 0 d (fun _ => mvm ctrl base) (repeat (fun s => vscale a (with_turbulence wfss base s)) N)) as (L & outs & R1 & R2 & R3); auto.
  - qclra.
  - qclra.
  - ring.
  - replace (first + 0 + qz (Z.of_nat d) * 0)%Qc with first by ring. qclra.
  - intros n f H. rewrite (Sc n f H). split.
    + intros s Hs. rewrite vscale_length. unfold with_turbulence. rewrite vadd_length; [exact Lb|]. rewrite HN by (rewrite <- Hl; exact Hs). exact Lb.
    + apply (scaled_accurate fit npix npx nmeas wfss ds0 ds imat ctrl a first base HS Lb HC').
  - intros n x Hx. replace (elem (mvm ctrl base) x - elem (mvm ctrl base) x)%Qc with 0%Qc by ring. rewrite qc_abs_0. qclra.
  - intros y Hy. rewrite elem_vzero. replace (elem (mvm ctrl base) y - 0)%Qc with (elem (mvm ctrl base) y) by ring. apply HF, Hy.
  - exists L, outs. split; [exact R1|]. split; [rewrite R2; apply repeat_length|]. intros n o Ho y Hy. specialize (R3 n o Ho y Hy). fold rate in R3.
    replace ((1 - rate) ^ ((n - d) / (2 * d + 1)) * first)%Qc with ((1 - rate) ^ ((n - d) / (2 * d + 1)) * first + 0 + qz (Z.of_nat d) * 0)%Qc by ring. exact R3.
Qed.

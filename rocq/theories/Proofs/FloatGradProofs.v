(** The gradient sensor in floating-point arithmetic: proofs. *)
From Coq Require Import ZArith List Permutation.
From Flocq Require Import Core BinarySingleNaN Relative.
From Verif.Base Require Import Float64.
From Verif.Model Require Import FloatLos FloatFootprint FloatDot.
From Verif.Spec Require Import FloatLoopSpec FloatDotSpec.
From Verif.Proofs Require Import FloatLoopProofs FloatLosProofs FloatDotProofs FloatFootprintProofs FloatFootprintFrame.
From Coq Require Import Reals Bool Lia Lra.
From Verif.Model Require Import FloatGrad.
From Verif.Spec Require Import FloatGradSpec.
Import ListNotations.
Local Open Scope R_scope.

(** ** Sums *)
Lemma sum_ext n f g : (forall k, (k < n)%nat -> f k = g k) -> sum_to n f = sum_to n g.
Proof. induction n as [|n IH]; intro H; [reflexivity|]. cbn [sum_to]. rewrite IH by (intros; apply H; lia). rewrite H by lia. reflexivity. Qed.
Lemma sum_scale n c f : sum_to n (fun k => c * f k) = c * sum_to n f.
Proof. induction n as [|n IH]; cbn [sum_to]; [ring|rewrite IH; ring]. Qed.
Lemma sum_add n f g : sum_to n (fun k => f k + g k) = sum_to n f + sum_to n g.
Proof. induction n as [|n IH]; cbn [sum_to]; [ring|rewrite IH; ring]. Qed.
Lemma sum_const n c : sum_to n (fun _ => c) = INR n * c.
Proof. induction n as [|n IH]; [cbn; ring|]. cbn [sum_to]. rewrite IH, S_INR. ring. Qed.
Lemma sum_abs n f g B : (forall k, (k < n)%nat -> Rabs (f k - g k) <= B) -> Rabs (sum_to n f - sum_to n g) <= INR n * B.
Proof.
  induction n as [|n IH]; intro H; [cbn; rewrite Rminus_0_r, Rabs_R0; lra|]. cbn [sum_to]. rewrite S_INR.
  replace (sum_to n f + f n - (sum_to n g + g n)) with ((sum_to n f - sum_to n g) + (f n - g n)) by ring. eapply Rle_trans; [apply Rabs_triang|].
  pose proof (IH (fun k Hk => H k ltac:(lia))). pose proof (H n ltac:(lia)). lra.
Qed.
Lemma sum_bound n f B : (forall k, (k < n)%nat -> Rabs (f k) <= B) -> Rabs (sum_to n f) <= INR n * B.
Proof.
  intro H. pose proof (sum_abs n f (fun _ => 0) B) as S. rewrite sum_const, Rmult_0_r, Rminus_0_r in S. apply S. intros k Hk. rewrite Rminus_0_r. apply H; exact Hk.
Qed.
Lemma sum_le n f g : (forall k, (k < n)%nat -> f k <= g k) -> sum_to n f <= sum_to n g.
Proof. induction n as [|n IH]; intro H; [cbn; lra|]. cbn [sum_to]. pose proof (IH (fun k Hk => H k ltac:(lia))). pose proof (H n ltac:(lia)). lra. Qed.
Definition fsum (l : list R) : R := fold_right Rplus 0 l.
Lemma fsum_app l l' : fsum (l ++ l') = fsum l + fsum l'.
Proof. unfold fsum. induction l; cbn; lra. Qed.
Lemma fsum_seq n f : fsum (map f (seq 0 n)) = sum_to n f.
Proof. induction n as [|n IH]; [reflexivity|]. rewrite seq_S, map_app, fsum_app, IH. cbn. ring. Qed.
Definition sum2 (w : nat) (f : nat -> nat -> R) : R := sum_to w (fun i => sum_to w (fun j => f i j)).
Lemma fsum_grid {A} w (h : A -> R) f : fsum (map h (gridded w f)) = sum2 w (fun i j => h (f i j)).
Proof.
  unfold gridded, sum2. assert (G : forall k, fsum (map h (flat_map (fun i => map (f i) (seq 0 w)) (seq 0 k))) = sum_to k (fun i => sum_to w (fun j => h (f i j)))); [|apply G].
  induction k as [|k IH]; [reflexivity|].
  rewrite seq_S, flat_map_app, map_app, fsum_app, IH. cbn [flat_map sum_to Nat.add]. rewrite app_nil_r, map_map. f_equal. apply (fsum_seq w (fun j => h (f k j))).
Qed.
Lemma len_grid {A} w (f : nat -> nat -> A) : length (gridded w f) = (w * w)%nat.
Proof.
  unfold gridded. assert (G : forall k, length (flat_map (fun i => map (f i) (seq 0 w)) (seq 0 k)) = (k * w)%nat); [|apply G].
  induction k as [|k IH]; [reflexivity|]. rewrite seq_S, flat_map_app, app_length, IH. cbn [flat_map].
  rewrite app_nil_r, map_length, seq_length. lia.
Qed.
Lemma all_grid {A} (P : A -> Prop) w f : (forall i j, (i < w)%nat -> (j < w)%nat -> P (f i j)) -> Forall P (gridded w f).
Proof.
  intro H. apply Forall_forall. intros x Hx. unfold gridded in Hx. apply in_flat_map in Hx. destruct Hx as (i & Hi & Hx). apply in_map_iff in Hx. destruct Hx as (j & <- & Hj).
  apply in_seq in Hi, Hj. apply H; lia.
Qed.
Lemma sum2_abs w f g B : (forall i j, (i < w)%nat -> (j < w)%nat -> Rabs (f i j - g i j) <= B) -> Rabs (sum2 w f - sum2 w g) <= INR w * INR w * B.
Proof. intro H. unfold sum2. rewrite Rmult_assoc. apply sum_abs. intros i Hi. apply sum_abs. intros j Hj. apply H; assumption. Qed.
Lemma sum2_bound w f B : (forall i j, (i < w)%nat -> (j < w)%nat -> Rabs (f i j) <= B) -> Rabs (sum2 w f) <= INR w * INR w * B.
Proof. intro H. unfold sum2. rewrite Rmult_assoc. apply sum_bound. intros i Hi. apply sum_bound. intros j Hj. apply H; assumption. Qed.
Lemma sum2_lin w f g m : sum2 w (fun i j => (f i j - m) * g i j) = sum2 w (fun i j => f i j * g i j) - m * sum2 w g.
Proof.
  unfold sum2. replace (sum_to w (fun i => sum_to w (fun j => f i j * g i j)) - m * sum_to w (fun i => sum_to w (fun j => g i j)))
    with (sum_to w (fun i => sum_to w (fun j => f i j * g i j)) + (- m) * sum_to w (fun i => sum_to w (fun j => g i j))) by ring.
  rewrite <- sum_scale, <- sum_add. apply sum_ext. intros i _. rewrite <- sum_scale, <- sum_add. apply sum_ext. intros j _. ring.
Qed.

(** ** Single precision *)
Lemma tiny_s B : bpow radix2 (-110) <= B -> smallest <= bpow radix2 (-60) * B /\ bpow radix2 (-150) <= bpow radix2 (-40) * B.
Proof.
  intro H. split.
  - apply Rle_trans with (bpow radix2 (-60) * bpow radix2 (-110)); [unfold smallest; rewrite <- bpow_plus; apply bpow_le; lia|apply Rmult_le_compat_l; [apply bpow_ge_0|exact H]].
  - apply Rle_trans with (bpow radix2 (-40) * bpow radix2 (-110)); [rewrite <- bpow_plus; apply bpow_le; lia|apply Rmult_le_compat_l; [apply bpow_ge_0|exact H]].
Qed.
Definition e23 : R := / 8388608.
Lemma single_near x B : is_finite x = true -> bpow radix2 (-110) <= B <= bpow radix2 118 -> Rabs (B2R x) <= B * (1 + / 1000000) ->
  is_finite (single x) = true /\ Rabs (B2R (single x) - B2R x) <= 3 / 4 * e23 * B.
Proof.
  intros F [BL BH] HX. pose proof (bpow_gt_0 radix2 (-110)). assert (B2 : 2 * bpow radix2 118 <= bpow radix2 120) by (change 2 with (bpow radix2 1); rewrite <- bpow_plus; apply bpow_le; lia).
  destruct (single_ok x F) as [F1 E]; [lra|]. split; [exact F1|]. eapply Rle_trans; [exact E|]. destruct (tiny_s B BL) as [_ T].
  change (bpow radix2 (-24)) with (/ 16777216). change (bpow radix2 (-40)) with (/ 1099511627776) in T. unfold e23. lra.
Qed.
Lemma op32 x v B : is_finite x = true -> B2R x = rnd64 v -> bpow radix2 (-110) <= B <= bpow radix2 118 -> Rabs v <= B ->
  is_finite (single x) = true /\ Rabs (B2R (single x) - v) <= e23 * B.
Proof.
  intros F E HB HV. pose proof (bpow_gt_0 radix2 (-110)). destruct (tiny_s B (proj1 HB)) as [T _]. pose proof (rnd_any v) as RA. pose proof u_pos as U.
  assert (D : Rabs (B2R x - v) <= / 1000000000 * B).
  { rewrite E. eapply Rle_trans; [exact RA|]. assert (unit_roundoff * Rabs v <= unit_roundoff * B) by (apply Rmult_le_compat_l; lra).
    assert (unit_roundoff * B <= / 10000000000 * B). { apply Rmult_le_compat_r; [lra|]. pose proof u_tiny as UT. replace (10 ^ 15) with 1000000000000000 in UT by ring. lra. }
    change (bpow radix2 (-60)) with (/ 1152921504606846976) in T. lra. }
  assert (X : Rabs (B2R x) <= B * (1 + / 1000000)).
  { replace (B2R x) with (v + (B2R x - v)) by ring. eapply Rle_trans; [apply Rabs_triang|]. lra. }
  destruct (single_near x B F HB X) as [F1 E1]. split; [exact F1|]. replace (B2R (single x) - v) with ((B2R (single x) - B2R x) + (B2R x - v)) by ring.
  eapply Rle_trans; [apply Rabs_triang|]. unfold e23 in *. lra.
Qed.
(** any sum of float32s is not much larger than it should be *)
Lemma sum32_size X l r : summed32 l r -> bpow radix2 (-110) <= X <= bpow radix2 101 -> (Z.of_nat (length l) <= 65536)%Z -> Forall (fun x => is_finite x = true /\ Rabs (B2R x) <= X) l ->
  is_finite r = true /\ (1 <= length l)%nat /\ Rabs (B2R r) <= INR (length l) * X * (1 + e23) ^ length l.
Proof.
  intros H HX. pose proof (bpow_gt_0 radix2 (-110)) as P110. assert (E0 : 0 < e23 <= / 8000000) by (unfold e23; lra).
  assert (P1 : forall n, 1 <= (1 + e23) ^ n) by (intro; apply pow_R1_Rle; lra).
  assert (PU : forall n, INR n <= 65536 -> (1 + e23) ^ n <= 1 + 2 * INR n * e23).
  { induction n as [|n IH]; intro Hn; [cbn; lra|]. rewrite S_INR in *. cbn [pow]. specialize (IH ltac:(lra)). pose proof (pos_INR n).
    assert ((1 + e23) * (1 + e23) ^ n <= (1 + e23) * (1 + 2 * INR n * e23)) by (apply Rmult_le_compat_l; lra).
    assert (INR n * e23 * e23 <= / 4 * e23). { apply Rmult_le_compat_r; [lra|]. apply Rle_trans with (65536 * / 8000000); [apply Rmult_le_compat; lra|lra]. }
    lra. }
  induction H as [x|x|l l1 l2 r1 r2 H1 IH1 H2 IH2 HP]; intros HL HF.
  - pose proof (Forall_inv HF) as [F B]. split; [exact F|]. split; [cbn; lia|]. cbn [length pow INR]. rewrite Rmult_1_l, Rmult_1_r.
    apply Rle_trans with (X * 1); [lra|apply Rmult_le_compat_l; lra].
  - pose proof (Forall_inv HF) as [F B]. cbn [length pow INR]. destruct (ofZ_correct 0) as [F0 V0]; [lia|].
    assert (L : bpow radix2 101 <= bpow radix2 118 /\ bpow radix2 118 <= bpow radix2 1000) by (split; apply bpow_le; lia).
    destruct (add_correct (ofZ64 0) x F0 F) as [FA EA]; [rewrite V0, Rplus_0_l; lra|]. rewrite V0, Rplus_0_l in EA.
    destruct (op32 _ _ X FA EA ltac:(lra) B) as [FS ES]. split; [exact FS|]. split; [lia|].
    replace (B2R (single (add64 (ofZ64 0) x))) with (B2R x + (B2R (single (add64 (ofZ64 0) x)) - B2R x)) by ring. eapply Rle_trans; [apply Rabs_triang|]. lra.
  - assert (LL : length l = (length l1 + length l2)%nat) by (rewrite (Permutation_length HP); apply app_length). rewrite LL in *.
    rewrite HP in HF. apply Forall_app in HF as [HF1 HF2].
    destruct (IH1 ltac:(lia) HF1) as (F1 & N1 & B1). destruct (IH2 ltac:(lia) HF2) as (F2 & N2 & B2).
    set (n1 := length l1) in *. set (n2 := length l2) in *. rewrite plus_INR.
    assert (I1 : 1 <= INR n1) by (apply INR1; exact N1). assert (I2 : 1 <= INR n2) by (apply INR1; exact N2).
    assert (IL : INR n1 + INR n2 <= 65536). { rewrite <- plus_INR, INR_IZR_INZ. apply IZR_le. lia. }
    set (m := (n1 + n2 - 1)%nat). set (B := (INR n1 + INR n2) * X * (1 + e23) ^ m).
    assert (Q : Rabs (B2R r1 + B2R r2) <= B).
    { eapply Rle_trans; [apply Rabs_triang|]. unfold B. assert (M1 : (1 + e23) ^ n1 <= (1 + e23) ^ m) by (apply Rle_pow; [lra|unfold m; lia]). assert (M2 : (1 + e23) ^ n2 <= (1 + e23) ^ m) by (apply Rle_pow; [lra|unfold m; lia]).
      assert (INR n1 * X * (1 + e23) ^ n1 <= INR n1 * X * (1 + e23) ^ m) by (apply Rmult_le_compat_l; [apply Rmult_le_pos; lra|exact M1]).
      assert (INR n2 * X * (1 + e23) ^ n2 <= INR n2 * X * (1 + e23) ^ m) by (apply Rmult_le_compat_l; [apply Rmult_le_pos; lra|exact M2]). lra. }
    assert (MM : (1 + e23) ^ m <= 2).
    { assert (IM : INR m <= 65536) by (unfold m; rewrite INR_IZR_INZ; apply IZR_le; lia). pose proof (PU m IM). unfold e23 in *. lra. }
    assert (BB : bpow radix2 (-110) <= B <= bpow radix2 118).
    { unfold B. split.
      - apply Rle_trans with (1 * X * 1); [lra|]. apply Rmult_le_compat; [lra|lra| |apply P1]. apply Rmult_le_compat_r; lra.
      - apply Rle_trans with (65536 * bpow radix2 101 * 2); [apply Rmult_le_compat; [apply Rmult_le_pos; lra|pose proof (P1 m); lra| |exact MM]; apply Rmult_le_compat; lra|].
        change 65536 with (bpow radix2 16). change 2 with (bpow radix2 1). rewrite <- !bpow_plus. apply bpow_le. lia. }
    assert (L : bpow radix2 118 <= bpow radix2 1000) by (apply bpow_le; lia).
    destruct (add_correct r1 r2 F1 F2 ltac:(lra)) as [FA EA]. destruct (op32 _ _ B FA EA BB Q) as [FS ES].
    split; [exact FS|]. split; [lia|]. replace (n1 + n2)%nat with (S m) by (unfold m; lia). cbn [pow].
    replace ((INR n1 + INR n2) * X * ((1 + e23) * (1 + e23) ^ m)) with (B * (1 + e23)) by (unfold B; ring).
    replace (B2R (single (add64 r1 r2))) with ((B2R r1 + B2R r2) + (B2R (single (add64 r1 r2)) - (B2R r1 + B2R r2))) by ring. eapply Rle_trans; [apply Rabs_triang|]. lra.
Qed.

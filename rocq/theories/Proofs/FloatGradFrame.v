(** The gradient sensor in floating-point arithmetic: the tilt and the slopes. *)
From Coq Require Import ZArith List Permutation.
From Flocq Require Import Core BinarySingleNaN Relative.
From Verif.Base Require Import Float64.
From Verif.Model Require Import FloatLos FloatFootprint FloatDot.
From Verif.Spec Require Import FloatLoopSpec FloatDotSpec.
From Verif.Proofs Require Import FloatLoopProofs FloatLosProofs FloatDotProofs FloatFootprintProofs FloatFootprintFrame.
From Coq Require Import Reals Bool Lia Lra.
From Verif.Model Require Import FloatGrad.
From Verif.Spec Require Import FloatGradSpec.
From Verif.Proofs Require Import FloatGradProofs.
Import ListNotations.
Local Open Scope R_scope.

Lemma width_facts w : (2 <= w <= 256)%nat -> 2 <= INR w <= 256 /\ (Z.of_nat (w * w) <= 65536)%Z /\ INR (w * w) = INR w * INR w /\ INR w * INR w <= 65536.
Proof.
  intros [A B]. assert (I : 2 <= INR w <= 256). { rewrite INR_IZR_INZ. split; apply IZR_le; lia. }
  split; [exact I|]. split; [nia|]. split; [apply mult_INR|]. replace 65536 with (256 * 256) by ring. apply Rmult_le_compat; lra.
Qed.
Lemma u_val : unit_roundoff = / 9007199254740992.
Proof. unfold unit_roundoff. change (bpow radix2 (-53)) with (/ IZR (2 ^ 53)). reflexivity. Qed.

(** the slope along one axis, with weights G close to K *)
Ltac el := unfold e23 in *; lra.
Lemma kernel w X kap (ph : nat -> nat -> b64) (G : nat -> nat -> b64) (K : nat -> nat -> R) t r :
  (2 <= w <= 256)%nat -> bpow radix2 (-100) <= X <= bpow radix2 100 -> bpow radix2 (-300) <= kap <= bpow radix2 300 ->
  (forall i j, (i < w)%nat -> (j < w)%nat -> is_finite (ph i j) = true /\ Rabs (B2R (ph i j)) <= X) ->
  (forall i j, (i < w)%nat -> (j < w)%nat -> is_finite (G i j) = true /\ Rabs (K i j) <= kap /\ Rabs (B2R (G i j) - K i j) <= / 10 ^ 9 * kap) -> sum2 w K = 0 ->
  summed32 (gridded w (fun i j => single (ph i j))) t ->
  let mean := single (div64 t (ofZ64 (Z.of_nat w * Z.of_nat w))) in
  summed (gridded w (fun i j => (single (sub64 (single (ph i j)) mean), G i j))) r ->
  is_finite r = true /\ Rabs (B2R r - sum2 w (fun i j => (B2R (ph i j) - mean_of w (fun i j => B2R (ph i j))) * K i j)) <= / 10 ^ 6 * (INR w * INR w) * X * kap.
Proof.
  intros HW HX HK HP HG Z HT. cbv zeta. intro HR. destruct (width_facts w HW) as (IW & NZ & NI & N2). set (N := INR w * INR w) in *.
  assert (N4 : 4 <= N) by (unfold N; replace 4 with (2 * 2) by ring; apply Rmult_le_compat; el).
  pose proof (bpow_gt_0 radix2 (-100)) as P100. pose proof (bpow_gt_0 radix2 (-300)) as P300. pose proof u_val as UV.
  assert (LO : bpow radix2 (-110) <= bpow radix2 (-100)) by (apply bpow_le; lia). assert (HI : 8 * bpow radix2 100 <= bpow radix2 118) by (change 8 with (bpow radix2 3); rewrite <- bpow_plus; apply bpow_le; lia).
  assert (HI1 : 2 * bpow radix2 100 <= bpow radix2 101) by (change 2 with (bpow radix2 1); rewrite <- bpow_plus; apply bpow_le; lia).
  assert (HB : 2 * bpow radix2 118 <= bpow radix2 1000) by (change 2 with (bpow radix2 1); rewrite <- bpow_plus; apply bpow_le; lia).
  assert (SP : forall i j, (i < w)%nat -> (j < w)%nat -> is_finite (single (ph i j)) = true /\ Rabs (B2R (single (ph i j)) - B2R (ph i j)) <= e23 * X /\ Rabs (B2R (single (ph i j))) <= X * (1 + / 1000000)).
  { intros i j Hi Hj. destruct (HP i j Hi Hj) as [F B]. destruct (single_near (ph i j) X F ltac:(el)) as [FS ES]; [el|]. split; [exact FS|]. split; [el|].
    replace (B2R (single (ph i j))) with (B2R (ph i j) + (B2R (single (ph i j)) - B2R (ph i j))) by ring. eapply Rle_trans; [apply Rabs_triang|]. el. }
  destruct (sum32_size (X * (1 + / 1000000)) _ _ HT) as (FT & _ & BT).
  { el. } { rewrite len_grid. exact NZ. } { apply all_grid. intros i j Hi Hj. destruct (SP i j Hi Hj) as (F & _ & B). split; assumption. }
  rewrite len_grid, NI in BT. fold N in BT.
  assert (PW : (1 + e23) ^ (w * w) <= 1 + / 50).
  { assert (PU : forall n, INR n <= 65536 -> (1 + e23) ^ n <= 1 + 2 * INR n * e23).
    { induction n as [|n IH]; intro Hn; [cbn; el|]. rewrite S_INR in *. cbn [pow]. specialize (IH ltac:(el)). pose proof (pos_INR n).
      assert ((1 + e23) * (1 + e23) ^ n <= (1 + e23) * (1 + 2 * INR n * e23)) by (apply Rmult_le_compat_l; el).
      assert (INR n * e23 * e23 <= / 4 * e23). { apply Rmult_le_compat_r; [el|]. apply Rle_trans with (65536 * / 8000000); [apply Rmult_le_compat; el|el]. }
      el. }
    pose proof (PU (w * w)%nat ltac:(rewrite NI; exact N2)) as Q. rewrite NI in Q. fold N in Q. el. }
  assert (BT2 : Rabs (B2R t) <= N * (X * (1 + / 40))).
  { eapply Rle_trans; [exact BT|]. rewrite !Rmult_assoc. apply Rmult_le_compat_l; [el|]. apply Rmult_le_compat_l; [el|].
    apply Rle_trans with ((1 + / 1000000) * (1 + / 50)); [apply Rmult_le_compat_l; el|el]. }
  (* the mean *)
  assert (NZ2 : (Z.of_nat w * Z.of_nat w <= 65536)%Z) by lia.
  destruct (ofZ_correct (Z.of_nat w * Z.of_nat w)) as [FN EN]; [lia|]. assert (EN' : B2R (ofZ64 (Z.of_nat w * Z.of_nat w)) = N). { rewrite EN, mult_IZR, <- !INR_IZR_INZ. reflexivity. }
  assert (BQ : Rabs (B2R t / N) <= X * (1 + / 40)).
  { unfold Rdiv. rewrite Rabs_mult, Rabs_inv, (Rabs_pos_eq N) by el. apply Rmult_le_reg_r with N; [el|]. rewrite Rmult_assoc, Rinv_l by el. el. }
  destruct (div_correct t (ofZ64 (Z.of_nat w * Z.of_nat w)) FT) as [FD ED]; [rewrite EN'; el|rewrite EN'; el|]. rewrite EN' in ED.
  destruct (op32 _ _ (X * (1 + / 40)) FD ED ltac:(el) BQ) as [FM EM]. set (m := single (div64 t (ofZ64 (Z.of_nat w * Z.of_nat w)))) in *.
  assert (BM : Rabs (B2R m) <= X * (1 + / 30)).
  { replace (B2R m) with (B2R t / N + (B2R m - B2R t / N)) by ring. eapply Rle_trans; [apply Rabs_triang|]. el. }
  (* differences *)
  set (d := fun i j => single (sub64 (single (ph i j)) m)).
  assert (DD : forall i j, (i < w)%nat -> (j < w)%nat -> is_finite (d i j) = true /\ Rabs (B2R (d i j) - (B2R (ph i j) - B2R m)) <= 4 * e23 * X /\ Rabs (B2R (d i j)) <= 5 / 2 * X /\ Rabs (B2R (ph i j) - B2R m) <= 5 / 2 * X).
  { intros i j Hi Hj. destruct (SP i j Hi Hj) as (F & E & B). destruct (HP i j Hi Hj) as [_ B0]. unfold d.
    assert (V : Rabs (B2R (single (ph i j)) - B2R m) <= 5 / 2 * X). { unfold Rminus. eapply Rle_trans; [apply Rabs_triang|]. rewrite Rabs_Ropp. el. }
    assert (V0 : Rabs (B2R (single (ph i j)) - B2R m) <= 9 / 4 * X). { unfold Rminus. eapply Rle_trans; [apply Rabs_triang|]. rewrite Rabs_Ropp. el. }
    destruct (sub_correct _ _ F FM ltac:(el)) as [Fs Es]. destruct (op32 _ _ (5 / 2 * X) Fs Es ltac:(el) V) as [F1 E1]. split; [exact F1|]. split; [|split].
    - match goal with |- Rabs (?a - _) <= _ => replace (a - (B2R (ph i j) - B2R m)) with ((a - (B2R (single (ph i j)) - B2R m)) + (B2R (single (ph i j)) - B2R (ph i j))) by ring end.
      eapply Rle_trans; [apply Rabs_triang|]. el.
    - match goal with |- Rabs ?a <= _ => replace a with ((B2R (single (ph i j)) - B2R m) + (a - (B2R (single (ph i j)) - B2R m))) by ring end. eapply Rle_trans; [apply Rabs_triang|]. el.
    - unfold Rminus. eapply Rle_trans; [apply Rabs_triang|]. rewrite Rabs_Ropp. el. }
  assert (T9 : / 10 ^ 9 = / 1000000000) by (f_equal; ring). assert (T6 : / 10 ^ 6 = / 1000000) by (f_equal; ring). rewrite T9 in HG. rewrite T6.
  assert (GB : forall i j, (i < w)%nat -> (j < w)%nat -> Rabs (B2R (G i j)) <= 101 / 100 * kap).
  { intros i j Hi Hj. destruct (HG i j Hi Hj) as (_ & B & E). replace (B2R (G i j)) with (K i j + (B2R (G i j) - K i j)) by ring. eapply Rle_trans; [apply Rabs_triang|]. el. }
  assert (XK : 0 < X * kap) by (apply Rmult_lt_0_compat; el).
  (* the sum of products *)
  assert (PA : 0 <= pa (gridded w (fun i j => (d i j, G i j))) <= N * (26 / 10 * (X * kap))).
  { split; [apply pa_pos|]. unfold pa. change (fsum (map (fun p => Rabs (B2R (fst p) * B2R (snd p))) (gridded w (fun i j => (d i j, G i j)))) <= N * (26 / 10 * (X * kap))). rewrite fsum_grid.
    eapply Rle_trans; [apply Rle_abs|]. apply sum2_bound. intros i j Hi Hj. cbn [fst snd]. rewrite Rabs_Rabsolu, Rabs_mult. destruct (DD i j Hi Hj) as (_ & _ & B & _).
    apply Rle_trans with (5 / 2 * X * (101 / 100 * kap)); [apply Rmult_le_compat; try apply Rabs_pos; auto|]. replace (5 / 2 * X * (101 / 100 * kap)) with (505 / 200 * (X * kap)) by field. el. }
  assert (XU : X * kap <= bpow radix2 400). { change 400%Z with (100 + 300)%Z. rewrite bpow_plus. apply Rmult_le_compat; el. }
  assert (XL : bpow radix2 (-400) <= X * kap). { change (-400)%Z with (-100 + -300)%Z. rewrite bpow_plus. apply Rmult_le_compat; el. }
  destruct (summed_simple _ _ HR) as [FR ER].
  { unfold pfin. apply all_grid. intros i j Hi Hj. cbn [fst snd]. split; [apply DD; assumption|apply HG; assumption]. }
  { rewrite len_grid, NI. fold N. rewrite UV. el. }
  { fold (d) in PA. change (2 * (pa (gridded w (fun i j => (d i j, G i j))) + 1) <= bpow radix2 1000). destruct PA as [_ PA].
    assert (N * (26 / 10 * (X * kap)) <= 65536 * (26 / 10 * bpow radix2 400)) by (apply Rmult_le_compat; el).
    assert (L : 1000000 * bpow radix2 400 <= bpow radix2 1000). { apply Rle_trans with (bpow radix2 20 * bpow radix2 400); [apply Rmult_le_compat_r; [apply bpow_ge_0|cbn; el]|]. rewrite <- bpow_plus. apply bpow_le. lia. }
    assert (1 <= bpow radix2 400) by (change 1 with (bpow radix2 0); apply bpow_le; lia). el. }
  split; [exact FR|]. rewrite len_grid, NI in ER. fold N in ER.
  change (pe (gridded w (fun i j => (single (sub64 (single (ph i j)) m), G i j)))) with (fsum (map (fun p => B2R (fst p) * B2R (snd p)) (gridded w (fun i j => (d i j, G i j))))) in ER.
  change (pa (gridded w (fun i j => (single (sub64 (single (ph i j)) m), G i j)))) with (pa (gridded w (fun i j => (d i j, G i j)))) in ER.
  rewrite fsum_grid in ER. cbn [fst snd] in ER.
  assert (S1 : Rabs (sum2 w (fun i j => B2R (d i j) * B2R (G i j)) - sum2 w (fun i j => (B2R (ph i j) - B2R m) * K i j)) <= N * (5 * e23 * (X * kap))).
  { apply sum2_abs. intros i j Hi Hj. destruct (DD i j Hi Hj) as (_ & E & _ & B). destruct (HG i j Hi Hj) as (_ & _ & EG). pose proof (GB i j Hi Hj) as BG.
    replace (B2R (d i j) * B2R (G i j) - (B2R (ph i j) - B2R m) * K i j) with ((B2R (d i j) - (B2R (ph i j) - B2R m)) * B2R (G i j) + (B2R (ph i j) - B2R m) * (B2R (G i j) - K i j)) by ring.
    eapply Rle_trans; [apply Rabs_triang|]. rewrite !Rabs_mult.
    assert (A1 : Rabs (B2R (d i j) - (B2R (ph i j) - B2R m)) * Rabs (B2R (G i j)) <= 4 * e23 * X * (101 / 100 * kap)) by (apply Rmult_le_compat; try apply Rabs_pos; assumption).
    assert (A2 : Rabs (B2R (ph i j) - B2R m) * Rabs (B2R (G i j) - K i j) <= 5 / 2 * X * (/ 1000000000 * kap)) by (apply Rmult_le_compat; try apply Rabs_pos; assumption).
    replace (4 * e23 * X * (101 / 100 * kap)) with (404 / 100 * e23 * (X * kap)) in A1 by field. replace (5 / 2 * X * (/ 1000000000 * kap)) with (5 / 2 * / 1000000000 * (X * kap)) in A2 by field. el. }
  assert (S2 : sum2 w (fun i j => (B2R (ph i j) - B2R m) * K i j) = sum2 w (fun i j => (B2R (ph i j) - mean_of w (fun i j => B2R (ph i j))) * K i j)).
  { rewrite (sum2_lin w (fun i j => B2R (ph i j)) K (B2R m)), (sum2_lin w (fun i j => B2R (ph i j)) K (mean_of w (fun i j => B2R (ph i j)))), Z. ring. }
  rewrite <- S2. set (A := sum2 w (fun i j => B2R (d i j) * B2R (G i j))) in *. set (C := sum2 w (fun i j => (B2R (ph i j) - B2R m) * K i j)) in *.
  assert (S3 : smallest <= / 1000000000000 * (X * kap)).
  { apply Rle_trans with (bpow radix2 (-60) * bpow radix2 (-400)); [unfold smallest; rewrite <- bpow_plus; apply bpow_le; lia|]. apply Rmult_le_compat; try apply bpow_ge_0; [cbn; el|exact XL]. }
  assert (S4 : 2 * N * unit_roundoff * pa (gridded w (fun i j => (d i j, G i j))) <= / 1000000000 * (N * (X * kap))).
  { destruct PA as [P0 P1]. apply Rle_trans with (2 * N * unit_roundoff * (N * (26 / 10 * (X * kap)))); [apply Rmult_le_compat_l; [rewrite UV; el|exact P1]|].
    replace (2 * N * unit_roundoff * (N * (26 / 10 * (X * kap)))) with ((52 / 10 * N * unit_roundoff) * (N * (X * kap))) by field.
    apply Rmult_le_compat_r; [apply Rmult_le_pos; el|]. rewrite UV. el. }
  assert (S5 : 4 * N * smallest <= 4 * N * (/ 1000000000000 * (X * kap))) by (apply Rmult_le_compat_l; el).
  assert (NXK : 0 < N * (X * kap)) by (apply Rmult_lt_0_compat; el).
  replace (B2R r - C) with ((B2R r - A) + (A - C)) by ring. eapply Rle_trans; [apply Rabs_triang|].
  replace (/ 1000000 * N * X * kap) with (/ 1000000 * (N * (X * kap))) by ring. el.
Qed.
Lemma neg_exact x : is_finite x = true -> is_finite (mul64 x (ofZ64 (-1))) = true /\ (Rabs (B2R x) <= bpow radix2 1000 -> B2R (mul64 x (ofZ64 (-1))) = - B2R x).
Proof.
  intro F. destruct (ofZ_correct (-1)) as [F1 E1]; [lia|]. assert (R1 : rep64 (B2R x)) by (apply (generic_format_B2R 53 1024)).
  assert (Q : Rabs (B2R x) <= bpow radix2 1000 -> is_finite (mul64 x (ofZ64 (-1))) = true /\ B2R (mul64 x (ofZ64 (-1))) = - B2R x).
  { intro B. destruct (mul_correct x (ofZ64 (-1)) F F1) as [FM EM]; [rewrite E1; replace (B2R x * -1) with (- B2R x) by ring; rewrite Rabs_Ropp; exact B|]. split; [exact FM|].
    rewrite EM, E1. replace (B2R x * -1) with (- B2R x) by ring. apply rnd_rep. apply generic_format_opp. exact R1. }
  split; [|intro B; apply Q; exact B].
  pose proof (@Bmult_correct 53 1024 prec64 emax64 mode_NE x (ofZ64 (-1))) as C. rewrite Rlt_bool_true in C.
  - destruct C as (_ & C & _). change (is_finite (mul64 x (ofZ64 (-1))) = is_finite x && is_finite (ofZ64 (-1)))%bool in C. rewrite C, F, F1. reflexivity.
  - rewrite E1. replace (B2R x * -1) with (- B2R x) by ring. rewrite round_generic; [|apply valid_rnd_N|apply generic_format_opp; exact R1]. rewrite Rabs_Ropp. apply abs_B2R_lt_emax.
Qed.
Lemma sum_id n : sum_to n INR = INR n * (INR n - 1) / 2.
Proof. induction n as [|n IH]; [cbn; lra|]. cbn [sum_to]. rewrite IH, S_INR. field. Qed.
Lemma sum_sq n : sum_to n (fun k => INR k * INR k) = INR n * (INR n - 1) * (2 * INR n - 1) / 6.
Proof. induction n as [|n IH]; [cbn; lra|]. cbn [sum_to]. rewrite IH, S_INR. field. Qed.
Lemma tilt_sum sg w : (1 <= w)%nat -> sum_to w (minus_tilt sg w) = 0.
Proof.
  intro H. rewrite (sum_ext w (minus_tilt sg w) (fun k => sg * (INR (w - 1) / 2) + (- sg) * INR k)) by (intros; unfold minus_tilt; ring).
  rewrite sum_add, sum_const, (sum_scale w (- sg) INR), sum_id, minus_INR by exact H. cbn [INR]. field.
Qed.
Lemma tilt_sq sg w : (1 <= w)%nat -> sum_to w (fun k => minus_tilt sg w k * minus_tilt sg w k) = sg * sg * (INR w * (INR w * INR w - 1) / 12).
Proof.
  intro H. rewrite (sum_ext w _ (fun k => sg * sg * (INR (w - 1) / 2 * (INR (w - 1) / 2)) + (- (sg * sg * INR (w - 1)) * INR k + sg * sg * (INR k * INR k)))) by (intros; unfold minus_tilt; field).
  rewrite sum_add, sum_const, sum_add, (sum_scale w _ INR), (sum_scale w (sg * sg) (fun k => INR k * INR k)), sum_id, sum_sq, minus_INR by exact H. cbn [INR]. field.
Qed.
Lemma tilt_le sg w k : 0 < sg -> (k < w)%nat -> Rabs (minus_tilt sg w k) <= INR w * sg / 2.
Proof.
  intros S H. unfold minus_tilt. rewrite minus_INR by lia. cbn [INR]. assert (0 <= INR k) by apply pos_INR. assert (INR k + 1 <= INR w) by (rewrite <- S_INR; apply le_INR; lia).
  rewrite Rabs_mult, (Rabs_pos_eq sg) by lra. replace (INR w * sg / 2) with (sg * (INR w / 2)) by field. apply Rmult_le_compat_l; [lra|]. apply Rabs_le. lra.
Qed.

Section Coordinates.
Variables (sg : R) (amp : b64) (P : Z) (w : nat).
Hypothesis HT : tilted sg amp P w.
Let W := INR w * sg.
Lemma sg_pos : 0 < sg. Proof. destruct HT as (_ & _ & S & _). pose proof (bpow_gt_0 radix2 (-100)). lra. Qed.
Lemma med_by a : 1 <= a <= bpow radix2 100 -> medium (a * sg).
Proof.
  intro A. destruct HT as (_ & _ & S & _). pose proof (bpow_gt_0 radix2 (-100)) as B0. split.
  - apply Rle_trans with (1 * bpow radix2 (-100)); [rewrite Rmult_1_l; apply bpow_le; lia|]. apply Rmult_le_compat; lra.
  - apply Rle_trans with (bpow radix2 100 * bpow radix2 100); [apply Rmult_le_compat; lra|]. rewrite <- bpow_plus. apply bpow_le. lia.
Qed.
Lemma b100 : 1048576 <= bpow radix2 100. Proof. change 1048576 with (bpow radix2 20). apply bpow_le. lia. Qed.
Lemma W_pos : 0 < W. Proof. pose proof sg_pos. destruct HT as (_ & _ & _ & HW & _). destruct (width_facts w HW) as (A & _). apply Rmult_lt_0_compat; lra. Qed.
Lemma W_med : medium W. Proof. apply med_by. destruct HT as (_ & _ & _ & HW & _). destruct (width_facts w HW) as (A & _). pose proof b100. lra. Qed.
Lemma lin_ok k : (k < w)%nat -> acc 9 W (linspace64 (ofZ64 0) amp P (Z.of_nat k)) (INR k * sg).
Proof.
  intro Hk. pose proof sg_pos as SP. pose proof W_pos as WP. pose proof W_med as WM. pose proof b100 as B1. destruct HT as (FA & EA & S & HW & HP). destruct (width_facts w HW) as (IW & _).
  set (M := IZR (P - 1)) in *. assert (MB : 1 <= M <= 1048576) by (unfold M; split; apply IZR_le; lia). assert (KW : 0 <= INR k <= INR w) by (split; [apply pos_INR|apply le_INR; lia]).
  assert (KB : Rabs (INR k * sg) <= W) by (rewrite Rabs_pos_eq by (apply Rmult_le_pos; lra); apply Rmult_le_compat_r; lra).
  unfold linspace64. destruct (Z.eqb_spec (Z.of_nat k) (P - 1)) as [E|E].
  { apply acc_scale with (k := 0) (W := W); [|lra|lra]. apply acc_exact; [exact FA| |exact KB]. rewrite EA. unfold M. rewrite <- E, <- INR_IZR_INZ. reflexivity. }
  destruct (ofZ_correct 0) as [F0 E0]; [lia|]. destruct (ofZ_correct (P - 1)) as [FP EP]; [lia|]. fold M in EP. destruct (ofZ_correct (Z.of_nat k)) as [FK EK]; [lia|]. rewrite <- INR_IZR_INZ in EK.
  assert (MS : 0 < M * sg) by (apply Rmult_lt_0_compat; lra).
  assert (A1 : acc 2 (M * sg) (sub64 amp (ofZ64 0)) (M * sg)).
  { replace 2 with (0 + 0 + 2) by ring. replace (M * sg) with (M * sg - 0) at 2 by ring. apply acc_sub; [apply med_by; lra|lra|lra|apply acc_exact; [exact FA|exact EA|rewrite Rabs_pos_eq; lra]|apply acc_exact; [exact F0|exact E0|rewrite Rabs_R0; lra]|].
    rewrite Rminus_0_r, Rabs_pos_eq; lra. }
  assert (MD : M * sg / M = sg) by (field; lra).
  assert (A2 : acc 4 sg (div64 (sub64 amp (ofZ64 0)) (ofZ64 (P - 1))) sg).
  { replace 4 with (2 + 2) by ring. rewrite <- MD at 1 2. apply acc_div_by; [exact EP|rewrite MD; rewrite <- (Rmult_1_l sg); apply med_by; lra|lra|lra|exact A1]. }
  set (st := div64 (sub64 amp (ofZ64 0)) (ofZ64 (P - 1))) in *. destruct A2 as (FS & BS & ES). assert (NZ : nonzero64 st = true).
  { rewrite nonzero_spec by exact FS. destruct (Req_EM_T (B2R st) 0) as [Q|]; [|reflexivity]. exfalso. rewrite Q in ES. replace (0 - sg) with (- sg) in ES by ring. rewrite Rabs_Ropp, Rabs_pos_eq in ES by lra. rewrite u_val in ES. lra. }
  rewrite NZ. replace (INR k * sg) with (INR k * sg + 0) by ring. replace 9 with (7 + 0 + 2) by ring. apply acc_add; [exact WM|lra|lra| |apply acc_exact; [exact F0|exact E0|rewrite Rabs_R0; lra]|rewrite Rplus_0_r; exact KB].
  replace 7 with (0 + 4 + 3) by ring. apply acc_mul; [exact WM|lra|lra|lra|lra|apply acc_exact; [exact FK|exact EK|rewrite Rabs_pos_eq; lra]|]. split; [exact FS|]. split; assumption.
Qed.
Lemma mean_ok t : summed_ones (map (fun k => linspace64 (ofZ64 0) amp P (Z.of_nat k)) (seq 0 w)) t -> acc 560 W (div64 t (ofZ64 (Z.of_nat w))) (sg * (INR (w - 1) / 2)).
Proof.
  intro H. pose proof sg_pos as SP. pose proof W_pos as WP. pose proof W_med as WM. pose proof b100 as B1. pose proof lin_ok as LO. destruct HT as (FA & EA & S & HW & HP). destruct (width_facts w HW) as (IW & _).
  pose proof u_val as UV. unfold summed_ones in H. rewrite map_map in H. set (x := fun k => linspace64 (ofZ64 0) amp P (Z.of_nat k)) in *. change (summed (map (fun k => (x k, ofZ64 1)) (seq 0 w)) t) in H. destruct (ofZ_correct 1) as [F1 E1]; [lia|].
  assert (XB : forall k, (k < w)%nat -> is_finite (x k) = true /\ Rabs (B2R (x k)) <= 1001 / 1000 * W /\ Rabs (B2R (x k) - INR k * sg) <= 9 * (unit_roundoff * W)).
  { intros k Hk. destruct (LO k Hk) as (F & B & E). split; [exact F|]. split; [|exact E]. replace (B2R (x k)) with (INR k * sg + (B2R (x k) - INR k * sg)) by ring. eapply Rle_trans; [apply Rabs_triang|]. unfold x in *. rewrite UV in E. lra. }
  assert (PA : pa (map (fun k => (x k, ofZ64 1)) (seq 0 w)) <= INR w * (1001 / 1000 * W)).
  { unfold pa. rewrite map_map. cbn [fst snd]. change (fsum (map (fun k => Rabs (B2R (x k) * B2R (ofZ64 1))) (seq 0 w)) <= INR w * (1001 / 1000 * W)). rewrite fsum_seq. eapply Rle_trans; [apply Rle_abs|]. apply sum_bound.
    intros k Hk. rewrite Rabs_Rabsolu, E1, Rmult_1_r. apply XB. exact Hk. }
  assert (PE : pe (map (fun k => (x k, ofZ64 1)) (seq 0 w)) = sum_to w (fun k => B2R (x k))).
  { unfold pe. rewrite map_map. cbn [fst snd]. change (fsum (map (fun k => B2R (x k) * B2R (ofZ64 1)) (seq 0 w)) = sum_to w (fun k => B2R (x k))). rewrite fsum_seq. apply sum_ext. intros. rewrite E1. ring. }
  assert (LN : length (map (fun k => (x k, ofZ64 1)) (seq 0 w)) = w) by (rewrite map_length, seq_length; reflexivity).
  assert (WU : W <= bpow radix2 500) by apply WM. assert (WL : bpow radix2 (-500) <= W) by apply WM.
  destruct (summed_simple _ _ H) as [FR ER].
  { unfold pfin. apply Forall_forall. intros p Hp. apply in_map_iff in Hp. destruct Hp as (k & <- & Hk). apply in_seq in Hk. cbn [fst snd]. split; [apply XB; lia|exact F1]. }
  { rewrite LN, UV. lra. }
  { assert (INR w * (1001 / 1000 * W) <= 256 * (1001 / 1000 * bpow radix2 500)) by (apply Rmult_le_compat; lra).
    assert (1024 * bpow radix2 500 <= bpow radix2 1000) by (change 1024 with (bpow radix2 10); rewrite <- bpow_plus; apply bpow_le; lia). assert (1 <= bpow radix2 500) by (change 1 with (bpow radix2 0); apply bpow_le; lia). lra. }
  rewrite LN, PE in ER.
  assert (S1 : Rabs (sum_to w (fun k => B2R (x k)) - sum_to w (fun k => sg * INR k)) <= INR w * (9 * (unit_roundoff * W))). { apply sum_abs. intros k Hk. rewrite (Rmult_comm sg). apply XB. exact Hk. }
  rewrite (sum_scale w sg INR), sum_id in S1. set (T := sg * (INR w * (INR w - 1) / 2)) in *.
  assert (UW : 0 < unit_roundoff * W) by (apply Rmult_lt_0_compat; [rewrite UV|]; lra).
  assert (S2 : 2 * INR w * unit_roundoff * pa (map (fun k => (x k, ofZ64 1)) (seq 0 w)) <= 2 * 256 * unit_roundoff * (INR w * (1001 / 1000 * W))).
  { pose proof (pa_pos (map (fun k => (x k, ofZ64 1)) (seq 0 w))). apply Rmult_le_compat; [rewrite UV; lra|lra|rewrite UV; lra|exact PA]. }
  assert (S3 : smallest <= / 1000 * (unit_roundoff * W)).
  { apply Rle_trans with (bpow radix2 (-10) * (bpow radix2 (-53) * bpow radix2 (-500))); [unfold smallest; rewrite <- !bpow_plus; apply bpow_le; lia|].
    pose proof (bpow_gt_0 radix2 (-500)). pose proof (bpow_gt_0 radix2 (-53)). apply Rmult_le_compat; [apply bpow_ge_0|apply Rmult_le_pos; lra|cbn; lra|]. unfold unit_roundoff. apply Rmult_le_compat_l; lra. }
  assert (S4 : 4 * INR w * smallest <= 4 * INR w * (/ 1000 * (unit_roundoff * W))) by (apply Rmult_le_compat_l; lra).
  assert (WW : 0 < INR w * W) by (apply Rmult_lt_0_compat; lra).
  assert (A : acc 550 (INR w * W) t T).
  { split; [exact FR|]. split.
    - unfold T. rewrite Rabs_pos_eq by (apply Rmult_le_pos; [lra|]; assert (0 <= INR w * (INR w - 1)) by (apply Rmult_le_pos; lra); lra). unfold W.
      replace (sg * (INR w * (INR w - 1) / 2)) with (INR w * sg * ((INR w - 1) / 2)) by field. replace (INR w * (INR w * sg)) with (INR w * sg * INR w) by ring. fold W. apply Rmult_le_compat_l; lra.
    - replace (B2R t - T) with ((B2R t - sum_to w (fun k => B2R (x k))) + (sum_to w (fun k => B2R (x k)) - T)) by ring. eapply Rle_trans; [apply Rabs_triang|].
      replace (550 * (unit_roundoff * (INR w * W))) with (550 * (INR w * (unit_roundoff * W))) by ring. replace (2 * 256 * unit_roundoff * (INR w * (1001 / 1000 * W))) with (512512 / 1000 * (INR w * (unit_roundoff * W))) in S2 by field.
      replace (4 * INR w * (/ 1000 * (unit_roundoff * W))) with (4 / 1000 * (INR w * (unit_roundoff * W))) in S4 by field. replace (INR w * (9 * (unit_roundoff * W))) with (9 * (INR w * (unit_roundoff * W))) in S1 by ring.
      assert (0 < INR w * (unit_roundoff * W)) by (apply Rmult_lt_0_compat; lra). lra. }
  destruct (ofZ_correct (Z.of_nat w)) as [FW EW]; [lia|]. rewrite <- INR_IZR_INZ in EW. assert (Q : INR w * W / INR w = W) by (field; lra).
  pose proof (acc_div_by 550 (INR w) (INR w * W) t T (ofZ64 (Z.of_nat w)) EW ltac:(rewrite Q; exact WM) ltac:(lra) ltac:(lra) A) as D. rewrite Q in D.
  replace (sg * (INR (w - 1) / 2)) with (T / INR w) by (unfold T; rewrite minus_INR by lia; cbn [INR]; field; lra). apply acc_scale with (k := 552) (W := W); [|lra|lra]. replace 552 with (550 + 2) by ring. exact D.
Qed.
Lemma coord_ok mean k : acc 560 W mean (sg * (INR (w - 1) / 2)) -> (k < w)%nat ->
  is_finite (sub_coord64 amp P mean k) = true /\ Rabs (B2R (sub_coord64 amp P mean k) - minus_tilt sg w k) <= / 10 ^ 13 * W.
Proof.
  intros HM Hk. pose proof sg_pos as SP. pose proof W_pos as WP. pose proof W_med as WM. pose proof (lin_ok k Hk) as L. pose proof (tilt_le sg w k SP Hk) as TL. fold W in TL.
  assert (A : acc (9 + 560 + 2) W (sub64 (linspace64 (ofZ64 0) amp P (Z.of_nat k)) mean) (INR k * sg - sg * (INR (w - 1) / 2))).
  { apply acc_sub; [exact WM|lra|lra|exact L|exact HM|]. replace (INR k * sg - sg * (INR (w - 1) / 2)) with (- minus_tilt sg w k) by (unfold minus_tilt; ring). rewrite Rabs_Ropp. lra. }
  unfold sub_coord64. set (z := sub64 (linspace64 (ofZ64 0) amp P (Z.of_nat k)) mean) in *. destruct A as (F & B & E). rewrite u_val in E. replace (10 ^ 13) with 10000000000000 by ring.
  assert (WU : W <= bpow radix2 500) by apply WM. assert (Q : 2 * bpow radix2 500 <= bpow radix2 1000) by (change 2 with (bpow radix2 1); rewrite <- bpow_plus; apply bpow_le; lia).
  destruct (neg_exact z F) as [F1 E1]. split; [exact F1|]. rewrite E1.
  - replace (- B2R z - minus_tilt sg w k) with (- (B2R z - (INR k * sg - sg * (INR (w - 1) / 2)))) by (unfold minus_tilt; ring). rewrite Rabs_Ropp. lra.
  - replace (B2R z) with ((INR k * sg - sg * (INR (w - 1) / 2)) + (B2R z - (INR k * sg - sg * (INR (w - 1) / 2)))) by ring. eapply Rle_trans; [apply Rabs_triang|]. lra.
Qed.
End Coordinates.
(** along a row or a column *)
Definition along (sel : nat -> nat -> nat) : Prop := sel = (fun _ j => j) \/ sel = (fun i _ => i).
Lemma along_lt sel w i j : along sel -> (i < w)%nat -> (j < w)%nat -> (sel i j < w)%nat.
Proof. intros [-> | ->]; auto. Qed.
Lemma along_sum sel w f : along sel -> sum2 w (fun i j => f (sel i j)) = INR w * sum_to w f.
Proof.
  unfold sum2. intros [-> | ->]; [apply sum_const|]. rewrite (sum_ext w _ (fun i => INR w * f i)) by (intros; apply sum_const). apply sum_scale.
Qed.
Lemma slope_ok sg amp P w X (ph : nat -> nat -> b64) sel c S t r :
  tilted sg amp P w -> along sel -> bpow radix2 (-100) <= X <= bpow radix2 100 ->
  (forall i j, (i < w)%nat -> (j < w)%nat -> is_finite (ph i j) = true /\ Rabs (B2R (ph i j)) <= X) ->
  (forall k, (k < w)%nat -> is_finite (c k) = true /\ Rabs (B2R (c k) - minus_tilt sg w k) <= / 10 ^ 13 * (INR w * sg)) ->
  summed (gridded w (fun i j => (c (sel i j), c (sel i j)))) S -> summed32 (gridded w (fun i j => single (ph i j))) t ->
  summed (gridded w (fun i j => (single (sub64 (single (ph i j)) (single (div64 t (ofZ64 (Z.of_nat w * Z.of_nat w))))), div64 (c (sel i j)) S))) r ->
  is_finite r = true /\
  Rabs (B2R r - sum2 w (fun i j => (B2R (ph i j) - mean_of w (fun i j => B2R (ph i j))) * minus_tilt sg w (sel i j)) / (INR w * sum_to w (fun k => minus_tilt sg w k * minus_tilt sg w k)))
    <= 2 / 10 ^ 5 * X / (sg * INR w).
Proof.
  intros HT AL HX HP HC HS H32 HR. pose proof (sg_pos sg amp P w HT) as SP. pose proof (W_pos sg amp P w HT) as WP. pose proof (W_med sg amp P w HT) as WM. pose proof u_val as UV.
  destruct HT as (FA & EA & SB & HW & HPP). destruct (width_facts w HW) as (IW & NZ & NI & N2). set (W := INR w * sg) in *. set (N := INR w * INR w) in *. replace (10 ^ 13) with 10000000000000 in HC by ring.
  assert (N4 : 4 <= N) by (unfold N; replace 4 with (2 * 2) by ring; apply Rmult_le_compat; lra).
  rewrite tilt_sq by lia. fold N. set (Q := sg * sg * (INR w * (N - 1) / 12)).
  set (V := INR w * Q). assert (VE : V = W * W * ((N - 1) / 12)) by (unfold V, Q, W; field). assert (WW : 0 < W * W) by (apply Rmult_lt_0_compat; exact WP).
  assert (VL : W * W * (N / 16) <= V) by (rewrite VE; apply Rmult_le_compat_l; lra). assert (VP : 0 < V) by (rewrite VE; apply Rmult_lt_0_compat; lra).
  assert (VU : V <= W * W * 6000) by (rewrite VE; apply Rmult_le_compat_l; lra).
  assert (NWW : 4 * (W * W) <= N * (W * W)) by (apply Rmult_le_compat_r; lra).
  (* the coordinates *)
  assert (CB : forall k, (k < w)%nat -> Rabs (minus_tilt sg w k) <= W / 2 /\ Rabs (B2R (c k)) <= 51 / 100 * W).
  { intros k Hk. pose proof (tilt_le sg w k SP Hk) as B. fold W in B. split; [exact B|]. destruct (HC k Hk) as [_ E]. replace (B2R (c k)) with (minus_tilt sg w k + (B2R (c k) - minus_tilt sg w k)) by ring. eapply Rle_trans; [apply Rabs_triang|]. lra. }
  (* the norm *)
  assert (SQ : Rabs (sum2 w (fun i j => B2R (c (sel i j)) * B2R (c (sel i j))) - V) <= N * (/ 5000000000000 * (W * W))).
  { replace V with (sum2 w (fun i j => minus_tilt sg w (sel i j) * minus_tilt sg w (sel i j))) by (rewrite (along_sum sel w (fun k => minus_tilt sg w k * minus_tilt sg w k) AL), tilt_sq by lia; reflexivity).
    apply sum2_abs. intros i j Hi Hj. pose proof (along_lt sel w i j AL Hi Hj) as L. set (k := sel i j) in *. destruct (CB k L) as [B1 B2]. destruct (HC k L) as [_ E].
    replace (B2R (c k) * B2R (c k) - minus_tilt sg w k * minus_tilt sg w k) with ((B2R (c k) - minus_tilt sg w k) * (B2R (c k) + minus_tilt sg w k)) by ring. rewrite Rabs_mult.
    apply Rle_trans with (/ 10000000000000 * W * (2 * W)); [|replace (/ 10000000000000 * W * (2 * W)) with (2 / 10000000000000 * (W * W)) by field; lra].
    apply Rmult_le_compat; try apply Rabs_pos; [exact E|]. eapply Rle_trans; [apply Rabs_triang|]. lra. }
  assert (WU : W * W <= bpow radix2 220).
  { assert (W <= bpow radix2 110). { apply Rle_trans with (bpow radix2 10 * bpow radix2 100); [apply Rmult_le_compat; cbn in *; lra|]. rewrite <- bpow_plus. apply bpow_le. lia. }
    change 220%Z with (110 + 110)%Z. rewrite bpow_plus. apply Rmult_le_compat; lra. }
  assert (W1 : bpow radix2 (-100) <= W). { apply Rle_trans with (1 * sg); [lra|]. apply Rmult_le_compat_r; lra. }
  assert (WL : bpow radix2 (-200) <= W * W).
  { pose proof (bpow_gt_0 radix2 (-100)). change (-200)%Z with (-100 + -100)%Z. rewrite bpow_plus. apply Rmult_le_compat; lra. }
  set (g2 := gridded w (fun i j => (c (sel i j), c (sel i j)))) in *.
  assert (PE : pe g2 = sum2 w (fun i j => B2R (c (sel i j)) * B2R (c (sel i j)))) by (exact (fsum_grid w (fun p : b64 * b64 => B2R (fst p) * B2R (snd p)) (fun i j => (c (sel i j), c (sel i j))))).
  assert (PA : pa g2 = pe g2). { rewrite PE. unfold pa, g2. change (fsum (map (fun p : b64 * b64 => Rabs (B2R (fst p) * B2R (snd p))) (gridded w (fun i j => (c (sel i j), c (sel i j))))) = sum2 w (fun i j => B2R (c (sel i j)) * B2R (c (sel i j)))).
    rewrite fsum_grid. cbn [fst snd]. unfold sum2. apply sum_ext. intros i _. apply sum_ext. intros j _. apply Rabs_pos_eq. apply Rle_0_sqr. }
  assert (PV : Rabs (pe g2 - V) <= / 100000000000 * V). { rewrite PE. eapply Rle_trans; [exact SQ|]. replace (N * (/ 5000000000000 * (W * W))) with (16 / 5000000000000 * (W * W * (N / 16))) by field. lra. }
  apply Rabs_le_inv in PV. destruct (summed_simple _ _ HS) as [FS ES].
  { unfold pfin, g2. apply all_grid. intros i j Hi Hj. cbn [fst snd]. pose proof (HC _ (along_lt sel w i j AL Hi Hj)) as [F _]. split; exact F. }
  { unfold g2. rewrite len_grid, NI. fold N. rewrite UV. lra. }
  { rewrite PA. assert (20000 * bpow radix2 220 <= bpow radix2 1000). { apply Rle_trans with (bpow radix2 20 * bpow radix2 220); [apply Rmult_le_compat_r; [apply bpow_ge_0|cbn; lra]|]. rewrite <- bpow_plus. apply bpow_le. lia. }
    assert (1 <= bpow radix2 220) by (change 1 with (bpow radix2 0); apply bpow_le; lia). lra. }
  assert (LG : INR (length g2) = N) by (unfold g2; rewrite len_grid, NI; reflexivity). assert (ES' : Rabs (B2R S - pe g2) <= 2 * N * unit_roundoff * pe g2 + 4 * N * smallest) by (rewrite <- LG; rewrite <- PA at 2; exact ES). clear ES.
  assert (SM : smallest <= / 1000000000000000 * (W * W)).
  { apply Rle_trans with (bpow radix2 (-60) * bpow radix2 (-200)); [unfold smallest; rewrite <- bpow_plus; apply bpow_le; lia|]. apply Rmult_le_compat; try apply bpow_ge_0; [cbn; lra|exact WL]. }
  assert (SV : Rabs (B2R S - V) <= / 10000000000 * V).
  { replace (B2R S - V) with ((B2R S - pe g2) + (pe g2 - V)) by ring. eapply Rle_trans; [apply Rabs_triang|].
    assert (Z1 : 2 * N * unit_roundoff * pe g2 <= 2 * 65536 * unit_roundoff * (2 * V)). { apply Rmult_le_compat; [rewrite UV; lra|lra|rewrite UV; lra|lra]. }
    assert (Z2 : 4 * N * smallest <= 64 / 1000000000000000 * (W * W * (N / 16))). { replace (64 / 1000000000000000 * (W * W * (N / 16))) with (4 * N * (/ 1000000000000000 * (W * W))) by field. apply Rmult_le_compat_l; lra. }
    assert (Z3 : Rabs (pe g2 - V) <= / 100000000000 * V) by (apply Rabs_le; lra). rewrite UV in Z1, ES'. lra. }
  (* the weights *)
  set (kap := W / V). assert (KE : kap = 12 / (W * (N - 1))). { unfold kap. rewrite VE. field. lra. }
  assert (KP : 0 < kap) by (apply Rdiv_lt_0_compat; assumption).
  assert (WN : W <= W * (N - 1) <= W * 65536) by (split; [rewrite <- (Rmult_1_r W) at 1|]; apply Rmult_le_compat_l; lra).
  assert (KB : bpow radix2 (-300) <= kap <= bpow radix2 300).
  { rewrite KE. unfold Rdiv. assert (WU1 : W <= bpow radix2 110). { apply Rle_trans with (bpow radix2 10 * bpow radix2 100); [apply Rmult_le_compat; cbn in *; lra|]. rewrite <- bpow_plus. apply bpow_le. lia. }
    assert (I1 : / (W * (N - 1)) <= bpow radix2 100). { change 100%Z with (- (-100))%Z. rewrite bpow_opp. apply Rinv_le; [apply bpow_gt_0|lra]. }
    assert (I2 : bpow radix2 (-126) <= / (W * (N - 1))). { replace (bpow radix2 (-126)) with (/ bpow radix2 126) by (rewrite <- bpow_opp; reflexivity). apply Rinv_le; [lra|]. apply Rle_trans with (bpow radix2 110 * bpow radix2 16); [cbn in *; lra|]. rewrite <- bpow_plus. apply bpow_le. lia. }
    assert (bpow radix2 (-300) <= bpow radix2 (-126)) by (apply bpow_le; lia). assert (16 * bpow radix2 100 <= bpow radix2 300) by (change 16 with (bpow radix2 4); rewrite <- bpow_plus; apply bpow_le; lia).
    pose proof (bpow_gt_0 radix2 (-126)). lra. }
  apply Rabs_le_inv in SV. assert (S0 : 0 < B2R S) by lra.
  assert (GK : forall k, (k < w)%nat -> is_finite (div64 (c k) S) = true /\ Rabs (minus_tilt sg w k / V) <= kap /\ Rabs (B2R (div64 (c k) S) - minus_tilt sg w k / V) <= / 10 ^ 9 * kap).
  { intros k Hk. destruct (CB k Hk) as [B1 B2]. destruct (HC k Hk) as [FC EC]. replace (10 ^ 9) with 1000000000 by ring.
    assert (D0 : Rabs (minus_tilt sg w k / V) <= kap / 2). { unfold Rdiv at 1. rewrite Rabs_mult, (Rabs_pos_eq (/ V)) by (apply Rlt_le, Rinv_0_lt_compat; lra). replace (kap / 2) with (W / 2 * / V) by (unfold kap; field; lra). apply Rmult_le_compat_r; [apply Rlt_le, Rinv_0_lt_compat; lra|exact B1]. }
    assert (D1 : Rabs (B2R (c k) / B2R S - minus_tilt sg w k / V) <= / 2000000000 * kap).
    { replace (B2R (c k) / B2R S - minus_tilt sg w k / V) with (((B2R (c k) - minus_tilt sg w k) * V - minus_tilt sg w k * (B2R S - V)) / (B2R S * V)) by (field; lra).
      assert (SV2 : 0 < B2R S * V) by (apply Rmult_lt_0_compat; lra). unfold Rdiv. rewrite Rabs_mult, (Rabs_pos_eq (/ (B2R S * V))) by (apply Rlt_le, Rinv_0_lt_compat; exact SV2).
      apply Rmult_le_reg_r with (B2R S * V); [exact SV2|]. rewrite Rmult_assoc, Rinv_l, Rmult_1_r by lra. unfold kap. replace (/ 2000000000 * (W / V) * (B2R S * V)) with (/ 2000000000 * (W * B2R S)) by (field; lra).
      unfold Rminus at 1. eapply Rle_trans; [apply Rabs_triang|]. rewrite Rabs_Ropp, !Rabs_mult, (Rabs_pos_eq V) by lra.
      assert (Y1 : Rabs (B2R (c k) - minus_tilt sg w k) * V <= / 10000000000000 * W * V) by (apply Rmult_le_compat_r; lra).
      assert (Y2 : Rabs (minus_tilt sg w k) * Rabs (B2R S - V) <= W / 2 * (/ 10000000000 * V)) by (apply Rmult_le_compat; try apply Rabs_pos; [exact B1|apply Rabs_le; lra]).
      assert (Y3 : W * (99 / 100 * V) <= W * B2R S) by (apply Rmult_le_compat_l; lra). assert (0 < W * V) by (apply Rmult_lt_0_compat; lra).
      replace (/ 10000000000000 * W * V) with (/ 10000000000000 * (W * V)) in Y1 by ring. replace (W / 2 * (/ 10000000000 * V)) with (/ 20000000000 * (W * V)) in Y2 by field. replace (W * (99 / 100 * V)) with (99 / 100 * (W * V)) in Y3 by ring. lra. }
    assert (D2 : Rabs (B2R (c k) / B2R S) <= kap). { replace (B2R (c k) / B2R S) with (minus_tilt sg w k / V + (B2R (c k) / B2R S - minus_tilt sg w k / V)) by ring. eapply Rle_trans; [apply Rabs_triang|]. lra. }
    destruct (div_correct (c k) S FC) as [FD ED]; [lra| |]. { assert (bpow radix2 300 <= bpow radix2 1000) by (apply bpow_le; lia). lra. }
    split; [exact FD|]. split; [lra|]. rewrite ED. pose proof (rnd_any (B2R (c k) / B2R S)) as RA.
    assert (Z3 : smallest <= / 1000000000000 * kap).
    { apply Rle_trans with (bpow radix2 (-60) * bpow radix2 (-300)); [unfold smallest; rewrite <- bpow_plus; apply bpow_le; lia|]. apply Rmult_le_compat; try apply bpow_ge_0; [cbn; lra|lra]. }
    match goal with |- Rabs (?a - ?b) <= _ => replace (a - b) with ((a - B2R (c k) / B2R S) + (B2R (c k) / B2R S - b)) by ring end. eapply Rle_trans; [apply Rabs_triang|]. rewrite UV in RA. lra. }
  destruct (kernel w X kap ph (fun i j => div64 (c (sel i j)) S) (fun i j => minus_tilt sg w (sel i j) / V) t r HW HX KB HP) as [FR ER].
  { intros i j Hi Hj. apply GK. apply along_lt; assumption. }
  { rewrite (along_sum sel w (fun k => minus_tilt sg w k / V) AL). unfold Rdiv. rewrite (sum_ext w _ (fun k => / V * minus_tilt sg w k)) by (intros; ring). rewrite (sum_scale w (/ V) (minus_tilt sg w)), tilt_sum by lia. ring. }
  { exact H32. } { exact HR. }
  split; [exact FR|]. fold V. match goal with |- Rabs (B2R r - ?a / V) <= _ => replace (a / V) with (sum2 w (fun i j => (B2R (ph i j) - mean_of w (fun i j => B2R (ph i j))) * (minus_tilt sg w (sel i j) / V))) end.
  - eapply Rle_trans; [exact ER|]. fold N. replace (10 ^ 6) with 1000000 by ring. replace (10 ^ 5) with 100000 by ring. replace (2 / 100000 * X / (sg * INR w)) with (X * (2 / 100000 / W)) by (unfold W; field; lra).
    pose proof (bpow_gt_0 radix2 (-100)). replace (/ 1000000 * N * X * kap) with (X * (/ 1000000 * N * kap)) by ring. apply Rmult_le_compat_l; [lra|]. rewrite KE.
    replace (/ 1000000 * N * (12 / (W * (N - 1)))) with (12 / 1000000 * N / (N - 1) / W) by (field; lra). unfold Rdiv at 1 4. apply Rmult_le_compat_r; [apply Rlt_le, Rinv_0_lt_compat; lra|].
    apply Rmult_le_reg_r with (N - 1); [lra|]. replace (12 / 1000000 * N / (N - 1) * (N - 1)) with (12 / 1000000 * N) by (field; lra). lra.
  - unfold sum2, Rdiv. rewrite Rmult_comm, <- sum_scale. apply sum_ext. intros i _. rewrite <- sum_scale. apply sum_ext. intros j _. ring.
Qed.
Lemma slopes_ok sg amp P w X ph rx ry : tilted sg amp P w -> bpow radix2 (-100) <= X <= bpow radix2 100 ->
  (forall i j, (i < w)%nat -> (j < w)%nat -> is_finite (ph i j) = true /\ Rabs (B2R (ph i j)) <= X) -> grad_slopes64 amp P w ph rx ry ->
  (is_finite rx = true /\ Rabs (B2R rx - best_x sg w (fun i j => B2R (ph i j))) <= 2 / 10 ^ 5 * X / (sg * INR w)) /\
  (is_finite ry = true /\ Rabs (B2R ry - best_y sg w (fun i j => B2R (ph i j))) <= 2 / 10 ^ 5 * X / (sg * INR w)).
Proof.
  intros HT HX HP (t & Sx & Sy & s & H1 & H2 & H3 & H4 & H5 & H6). pose proof (mean_ok sg amp P w HT t H1) as M. pose proof (fun k => coord_ok sg amp P w HT _ k M) as C.
  split; [exact (slope_ok sg amp P w X ph (fun _ j => j) _ Sx s rx HT (or_introl eq_refl) HX HP C H2 H4 H5)|exact (slope_ok sg amp P w X ph (fun i _ => i) _ Sy s ry HT (or_intror eq_refl) HX HP C H3 H4 H6)].
Qed.

(** least squares *)
Lemma sum2_ext w f g : (forall i j, f i j = g i j) -> sum2 w f = sum2 w g.
Proof. intro H. unfold sum2. apply sum_ext. intros i _. apply sum_ext. intros j _. apply H. Qed.
Lemma sum2_add w f g : sum2 w (fun i j => f i j + g i j) = sum2 w f + sum2 w g.
Proof. unfold sum2. rewrite <- sum_add. apply sum_ext. intros. apply sum_add. Qed.
Lemma sum2_scale w c f : sum2 w (fun i j => c * f i j) = c * sum2 w f.
Proof. unfold sum2. rewrite <- sum_scale. apply sum_ext. intros. apply sum_scale. Qed.
Lemma misfit_form sg w p a bx by_ : (1 <= w)%nat ->
  misfit sg w p a bx by_ =
    sum2 w (fun i j => p i j * p i j) + - (2 * a) * sum2 w p + - (2 * bx) * sum2 w (fun i j => p i j * minus_tilt sg w j) + - (2 * by_) * sum2 w (fun i j => p i j * minus_tilt sg w i)
    + (INR w * INR w) * (a * a) + INR w * sum_to w (fun k => minus_tilt sg w k * minus_tilt sg w k) * (bx * bx + by_ * by_).
Proof.
  intro H. unfold misfit. set (T := minus_tilt sg w). set (q := sum_to w (fun k => T k * T k)).
  change (sum2 w (fun i j => (p i j - (a + bx * T j + by_ * T i)) * (p i j - (a + bx * T j + by_ * T i))) =
    sum2 w (fun i j => p i j * p i j) + - (2 * a) * sum2 w p + - (2 * bx) * sum2 w (fun i j => p i j * T j) + - (2 * by_) * sum2 w (fun i j => p i j * T i) + (INR w * INR w) * (a * a) + INR w * q * (bx * bx + by_ * by_)).
  rewrite (sum2_ext w _ (fun i j => p i j * p i j + (- (2 * a) * p i j + (- (2 * bx) * (p i j * T j) + (- (2 * by_) * (p i j * T i) + (a * a + (bx * bx * (T j * T j) + (by_ * by_ * (T i * T i)
    + (2 * a * bx * T j + (2 * a * by_ * T i + 2 * bx * by_ * (T i * T j)))))))))) ) by (intros; ring).
  rewrite !sum2_add, !sum2_scale. rewrite (along_sum (fun _ j => j) w (fun k => T k * T k) (or_introl eq_refl)), (along_sum (fun i _ => i) w (fun k => T k * T k) (or_intror eq_refl)).
  rewrite (along_sum (fun _ j => j) w T (or_introl eq_refl)), (along_sum (fun i _ => i) w T (or_intror eq_refl)). fold q.
  replace (sum2 w (fun i j => T i * T j)) with 0.
  - assert (TS : sum_to w T = 0) by (apply tilt_sum; exact H). rewrite TS. rewrite (along_sum (fun _ j => j) w (fun _ => a) (or_introl eq_refl)), sum_const. ring.
  - assert (TS : sum_to w T = 0) by (apply tilt_sum; exact H). unfold sum2. rewrite (sum_ext w _ (fun i => T i * sum_to w T)) by (intros; apply sum_scale). rewrite TS. rewrite (sum_ext w _ (fun _ => 0)) by (intros; ring). rewrite sum_const. ring.
Qed.
Lemma best_ok sg w p : 0 < sg -> (2 <= w)%nat -> forall a bx by_, misfit sg w p (mean_of w p) (best_x sg w p) (best_y sg w p) <= misfit sg w p a bx by_.
Proof.
  intros S H a bx by_. rewrite !misfit_form by lia. assert (IW : 2 <= INR w) by (change 2 with (INR 2); apply le_INR; exact H).
  set (q := sum_to w (fun k => minus_tilt sg w k * minus_tilt sg w k)). assert (Q : 0 < INR w * q).
  { apply Rmult_lt_0_compat; [lra|]. unfold q. rewrite tilt_sq by lia. apply Rmult_lt_0_compat; [apply Rmult_lt_0_compat; exact S|]. assert (4 <= INR w * INR w) by (replace 4 with (2 * 2) by ring; apply Rmult_le_compat; lra).
    assert (0 < INR w * (INR w * INR w - 1)) by (apply Rmult_lt_0_compat; lra). lra. }
  assert (NP : 0 < INR w * INR w) by (apply Rmult_lt_0_compat; lra).
  assert (E1 : sum2 w p = INR w * INR w * mean_of w p) by (unfold mean_of; change (sum_to w (fun i => sum_to w (fun j => p i j))) with (sum2 w p); field; lra).
  assert (EX : sum2 w (fun i j => p i j * minus_tilt sg w j) = INR w * q * best_x sg w p).
  { unfold best_x. fold q. change (sum_to w (fun i => sum_to w (fun j => (p i j - mean_of w p) * minus_tilt sg w j))) with (sum2 w (fun i j => (p i j - mean_of w p) * (fun _ j => minus_tilt sg w j) i j)). rewrite (sum2_lin w p (fun _ j => minus_tilt sg w j)).
    rewrite (along_sum (fun _ j => j) w (minus_tilt sg w) (or_introl eq_refl)), tilt_sum by lia. field. split; [|lra]. intro Z. rewrite Z in Q. lra. }
  assert (EY : sum2 w (fun i j => p i j * minus_tilt sg w i) = INR w * q * best_y sg w p).
  { unfold best_y. fold q. change (sum_to w (fun i => sum_to w (fun j => (p i j - mean_of w p) * minus_tilt sg w i))) with (sum2 w (fun i j => (p i j - mean_of w p) * (fun i _ => minus_tilt sg w i) i j)). rewrite (sum2_lin w p (fun i _ => minus_tilt sg w i)).
    rewrite (along_sum (fun i _ => i) w (minus_tilt sg w) (or_intror eq_refl)), tilt_sum by lia. field. split; [|lra]. intro Z. rewrite Z in Q. lra. }
  rewrite E1, EX, EY. set (N := INR w * INR w) in *. set (V := INR w * q) in *. set (m := mean_of w p). set (x := best_x sg w p). set (y := best_y sg w p).
  assert (A1 : 0 <= N * ((a - m) * (a - m))) by (apply Rmult_le_pos; [lra|apply Rle_0_sqr]). assert (A2 : 0 <= V * ((bx - x) * (bx - x))) by (apply Rmult_le_pos; [lra|apply Rle_0_sqr]). assert (A3 : 0 <= V * ((by_ - y) * (by_ - y))) by (apply Rmult_le_pos; [lra|apply Rle_0_sqr]).
  lra.
Qed.
Lemma plane_ok sg w a bx by_ : 0 < sg -> (2 <= w)%nat -> let p := fun i j => a + bx * minus_tilt sg w j + by_ * minus_tilt sg w i in best_x sg w p = bx /\ best_y sg w p = by_.
Proof.
  intros S H p. assert (IW : 2 <= INR w) by (change 2 with (INR 2); apply le_INR; exact H). set (q := sum_to w (fun k => minus_tilt sg w k * minus_tilt sg w k)).
  assert (Q : 0 < q).
  { unfold q. rewrite tilt_sq by lia. apply Rmult_lt_0_compat; [apply Rmult_lt_0_compat; exact S|]. assert (4 <= INR w * INR w) by (replace 4 with (2 * 2) by ring; apply Rmult_le_compat; lra).
    assert (0 < INR w * (INR w * INR w - 1)) by (apply Rmult_lt_0_compat; lra). lra. }
  assert (TS : sum_to w (minus_tilt sg w) = 0) by (apply tilt_sum; lia). set (T := minus_tilt sg w) in *.
  assert (X0 : sum2 w (fun i j => T i * T j) = 0). { unfold sum2. rewrite (sum_ext w _ (fun i => T i * sum_to w T)) by (intros; apply sum_scale). rewrite TS, (sum_ext w _ (fun _ => 0)) by (intros; ring). rewrite sum_const. ring. }
  set (m := mean_of w p). split.
  - unfold best_x. fold m T q. change (sum_to w (fun i => sum_to w (fun j => (p i j - m) * T j))) with (sum2 w (fun i j => (p i j - m) * T j)).
    rewrite (sum2_ext w _ (fun i j => (a - m) * T j + (bx * (T j * T j) + by_ * (T i * T j)))) by (intros; unfold p; fold T; ring). rewrite !sum2_add, !sum2_scale, X0.
    rewrite (along_sum (fun _ j => j) w T (or_introl eq_refl)), (along_sum (fun _ j => j) w (fun k => T k * T k) (or_introl eq_refl)), TS. fold q. field. lra.
  - unfold best_y. fold m T q. change (sum_to w (fun i => sum_to w (fun j => (p i j - m) * T i))) with (sum2 w (fun i j => (p i j - m) * T i)).
    rewrite (sum2_ext w _ (fun i j => (a - m) * T i + (bx * (T i * T j) + by_ * (T i * T i)))) by (intros; unfold p; fold T; ring). rewrite !sum2_add, !sum2_scale, X0.
    rewrite (along_sum (fun i _ => i) w T (or_intror eq_refl)), (along_sum (fun i _ => i) w (fun k => T k * T k) (or_intror eq_refl)), TS. fold q. field. lra.
Qed.

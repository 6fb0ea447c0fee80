(** Lemmas for a mirror's surface in floating-point arithmetic. *)
From Coq Require Import ZArith List.
From Flocq Require Import Core BinarySingleNaN.
From Verif.Base Require Import Float64.
From Verif.Model Require Import FloatInterp FloatDot FloatGrad.
From Verif.Spec Require Import FloatLoopSpec FloatDotSpec FloatInterpSpec FloatGradSpec.
From Verif.Proofs Require Import FloatLoopProofs FloatDotProofs FloatGradProofs FloatGradFrame.
From Coq Require Import Reals Bool Lia Lra.
From Verif.Model Require Import FloatMirror.
From Verif.Spec Require Import FloatMirrorSpec.
Import ListNotations.
Local Open Scope R_scope.

Definition z0 : R := bpow radix2 (-1023).
Lemma z0_facts : 0 < z0 /\ smallest <= z0 /\ smallest <= z0 * unit_roundoff * 4 /\ 1000 * z0 <= bpow radix2 (-1000) /\ z0 <= 1.
Proof.
  unfold z0, smallest, unit_roundoff. split; [apply bpow_gt_0|]. split; [apply bpow_le; lia|]. split; [change 4 with (bpow radix2 2); rewrite <- !bpow_plus; apply bpow_le; lia|].
  split; [apply Rle_trans with (bpow radix2 10 * bpow radix2 (-1023)); [apply Rmult_le_compat_r; [apply bpow_ge_0|cbn; lra]|rewrite <- bpow_plus; apply bpow_le; lia]|]. change 1 with (bpow radix2 0). apply bpow_le. lia.
Qed.
Lemma few_s x : 0 <= x -> x * unit_roundoff <= / 64 -> 4 * x * smallest <= z0.
Proof.
  intros X H. destruct z0_facts as (Z & S1 & S2 & _ & _). pose proof s_pos. pose proof u_pos. apply Rle_trans with (4 * x * (z0 * unit_roundoff * 4)); [apply Rmult_le_compat_l; lra|].
  replace (4 * x * (z0 * unit_roundoff * 4)) with (16 * (x * unit_roundoff) * z0) by ring. apply Rle_trans with (16 * / 64 * z0); [apply Rmult_le_compat_r; lra|lra].
Qed.
Lemma surface_ok nx infl cmds A sh : driven nx infl cmds A -> surface64 nx infl cmds sh -> forall i j, (i < nx)%nat -> (j < nx)%nat ->
  is_finite (sh i j) = true /\ Rabs (B2R (sh i j) - exact_surface nx infl cmds i j) <= (4 * INR (length infl) + 8 * (INR nx * INR nx)) * unit_roundoff * A + bpow radix2 (-1000).
Proof.
  intros (NX & _ & HN & HP & HA & FC & HI) (raw & t & HR & HT & HS). set (n := INR (length infl)) in *. set (N := INR nx * INR nx) in *. pose proof u_pos as U0. pose proof s_pos as S0. destruct z0_facts as (Z & S1 & S2 & ZB & Z1).
  assert (NN : 0 <= n) by apply pos_INR. assert (N1 : 1 <= N). { assert (1 <= INR nx) by (change 1 with (INR 1); apply le_INR; exact NX). unfold N. replace 1 with (1 * 1) by ring. apply Rmult_le_compat; lra. }
  pose proof u_val as UV. assert (BIG : bpow radix2 900 * 8 <= bpow radix2 1000) by (change 8 with (bpow radix2 3); rewrite <- bpow_plus; apply bpow_le; lia). assert (B9 : 64 <= bpow radix2 900) by (change 64 with (bpow radix2 6); apply bpow_le; lia).
  set (x := combined infl cmds). set (e := 2 * n * unit_roundoff * A + z0). set (q := n * unit_roundoff) in *. set (Q := N * unit_roundoff) in *.
  assert (Q0 : 0 <= q) by (unfold q; apply Rmult_le_pos; lra). assert (UQ : unit_roundoff <= Q) by (unfold Q; rewrite <- (Rmult_1_l unit_roundoff) at 1; apply Rmult_le_compat_r; lra).
  pose proof (few_s n NN HN) as NS. pose proof (few_s N ltac:(lra) HP) as NS2.
  assert (QA : 0 <= q * A <= / 64 * A) by (split; [apply Rmult_le_pos; lra|apply Rmult_le_compat_r; lra]).
  assert (QQA : 0 <= Q * A <= / 64 * A) by (split; [apply Rmult_le_pos; lra|apply Rmult_le_compat_r; lra]).
  assert (UA : unit_roundoff * A <= Q * A) by (apply Rmult_le_compat_r; lra). assert (UA0 : 0 <= unit_roundoff * A) by (apply Rmult_le_pos; lra).
  assert (QZ : 0 <= Q * z0 <= / 64 * z0) by (split; [apply Rmult_le_pos; lra|apply Rmult_le_compat_r; lra]). assert (UZ : 0 <= unit_roundoff * z0 <= / 64 * z0) by (split; [apply Rmult_le_pos; lra|apply Rmult_le_compat_r; lra]).
  assert (EE : e = 2 * (q * A) + z0) by (unfold e, q; ring).
  assert (RW : forall i j, (i < nx)%nat -> (j < nx)%nat -> is_finite (raw i j) = true /\ Rabs (B2R (raw i j) - x i j) <= e /\ Rabs (x i j) <= A).
  { intros i j Hi Hj. destruct (HI i j Hi Hj) as [FI AI]. set (sl := map (fun f => f i j) infl) in *. destruct (product_ok cmds sl (raw i j) FC FI (HR i j Hi Hj)) as [F E].
    - unfold sl. rewrite map_length. fold n. fold q. lra.
    - lra.
    - split; [exact F|]. assert (LE : INR (length sl) = n) by (unfold sl, n; rewrite map_length; reflexivity). cbv zeta in E. rewrite LE in E. split.
      + eapply Rle_trans; [exact E|]. assert (2 * n * unit_roundoff * abs_sum cmds sl <= 2 * n * unit_roundoff * A) by (apply Rmult_le_compat_l; [apply Rmult_le_pos; lra|exact AI]). unfold e. lra.
      + unfold x, combined. fold sl. eapply Rle_trans; [apply (pe_pa (combine cmds sl))|exact AI]. }
  set (B := A + e). assert (BB : 0 <= e /\ A <= B <= 33 / 32 * A + z0) by (unfold B; lra).
  assert (RB : forall i j, (i < nx)%nat -> (j < nx)%nat -> Rabs (B2R (raw i j)) <= B). { intros i j Hi Hj. destruct (RW i j Hi Hj) as (_ & E & X). replace (B2R (raw i j)) with (x i j + (B2R (raw i j) - x i j)) by ring. eapply Rle_trans; [apply Rabs_triang|]. unfold B. lra. }
  destruct (ofZ_correct 1 ltac:(lia)) as [F1 V1].
  set (l := map (fun y => (y, ofZ64 1)) (gridded nx raw)). assert (LL : INR (length l) = N) by (unfold l; rewrite map_length, len_grid, mult_INR; reflexivity).
  assert (PF : pfin l). { unfold l, pfin. apply Forall_map. apply all_grid. intros i j Hi Hj. split; [apply (RW i j Hi Hj)|exact F1]. }
  assert (PE : pe l = sum2 nx (fun i j => B2R (raw i j))). { unfold pe, l. rewrite map_map. change (fsum (map (fun y => B2R (fst (y, ofZ64 1)) * B2R (snd (y, ofZ64 1))) (gridded nx raw)) = sum2 nx (fun i j => B2R (raw i j))). rewrite fsum_grid. apply sum2_ext. intros i j. cbn [fst snd]. rewrite V1. ring. }
  assert (PA : pa l <= N * B). { unfold pa, l. rewrite map_map. change (fsum (map (fun y => Rabs (B2R (fst (y, ofZ64 1)) * B2R (snd (y, ofZ64 1)))) (gridded nx raw)) <= N * B). rewrite fsum_grid. unfold sum2, N.
    replace (INR nx * INR nx * B) with (sum_to nx (fun _ => INR nx * B)) by (rewrite sum_const; ring). apply sum_le. intros i Hi. rewrite <- sum_const. apply sum_le. intros j Hj. cbn [fst snd]. rewrite V1, Rmult_1_r. apply RB; assumption. }
  assert (N47 : N <= bpow radix2 47). { apply Rmult_le_reg_r with unit_roundoff; [exact U0|]. fold Q. eapply Rle_trans; [exact HP|]. unfold unit_roundoff. rewrite <- bpow_plus. cbn. lra. }
  assert (NB : 2 * (N * B + 1) <= bpow radix2 1000). { assert (N * B <= bpow radix2 47 * (2 * bpow radix2 900)) by (apply Rmult_le_compat; lra). assert (bpow radix2 47 * (2 * bpow radix2 900) * 4 <= bpow radix2 1000) by (change 2 with (bpow radix2 1); change 4 with (bpow radix2 2); rewrite <- !bpow_plus; apply bpow_le; lia).
    assert (1 <= N * B + 64). { assert (0 <= N * B) by (apply Rmult_le_pos; lra). lra. } assert (1 <= bpow radix2 47 * (2 * bpow radix2 900)). { change 2 with (bpow radix2 1). rewrite <- !bpow_plus. change 1 with (bpow radix2 0). apply bpow_le. lia. } lra. }
  destruct (summed_simple l t HT PF) as [FT ET]; [rewrite LL; fold Q; lra|lra|]. rewrite LL, PE in ET.
  set (y := sum2 nx (fun i j => B2R (raw i j)) / N). set (mx := mean_of nx x).
  assert (YM : Rabs (y - mx) <= e). { unfold y, mx, mean_of. change (sum_to nx (fun i => sum_to nx (fun j => x i j))) with (sum2 nx x). fold N. replace (sum2 nx (fun i j => B2R (raw i j)) / N - sum2 nx x / N) with ((sum2 nx (fun i j => B2R (raw i j)) - sum2 nx x) / N) by (field; lra).
    unfold Rdiv. rewrite Rabs_mult, (Rabs_pos_eq (/ N)) by (apply Rlt_le, Rinv_0_lt_compat; lra). apply Rmult_le_reg_r with N; [lra|]. rewrite Rmult_assoc, Rinv_l, Rmult_1_r by lra. rewrite Rmult_comm. apply sum2_abs. intros i j Hi Hj. apply (RW i j Hi Hj). }
  assert (MX : Rabs mx <= A). { unfold mx, mean_of. change (sum_to nx (fun i => sum_to nx (fun j => x i j))) with (sum2 nx x). fold N. unfold Rdiv. rewrite Rabs_mult, (Rabs_pos_eq (/ N)) by (apply Rlt_le, Rinv_0_lt_compat; lra). apply Rmult_le_reg_r with N; [lra|].
    rewrite Rmult_assoc, Rinv_l, Rmult_1_r by lra. rewrite Rmult_comm. apply sum2_bound. intros i j Hi Hj. apply (RW i j Hi Hj). }
  assert (TY : Rabs (B2R t / N - y) <= 2 * (Q * B) + z0). { unfold y. replace (B2R t / N - sum2 nx (fun i j => B2R (raw i j)) / N) with ((B2R t - sum2 nx (fun i j => B2R (raw i j))) / N) by (field; lra).
    unfold Rdiv. rewrite Rabs_mult, (Rabs_pos_eq (/ N)) by (apply Rlt_le, Rinv_0_lt_compat; lra). apply Rmult_le_reg_r with N; [lra|]. rewrite Rmult_assoc, Rinv_l, Rmult_1_r by lra. eapply Rle_trans; [exact ET|].
    assert (2 * N * unit_roundoff * pa l <= 2 * N * unit_roundoff * (N * B)) by (apply Rmult_le_compat_l; [apply Rmult_le_pos; lra|exact PA]). assert (z0 * 1 <= z0 * N) by (apply Rmult_le_compat_l; lra). unfold Q. lra. }
  assert (QB : 0 <= Q * B <= 34 / 32 * (Q * A) + z0). { split; [apply Rmult_le_pos; lra|]. apply Rle_trans with (Q * (33 / 32 * A + z0)); [apply Rmult_le_compat_l; lra|]. rewrite Rmult_plus_distr_l. replace (Q * (33 / 32 * A)) with (33 / 32 * (Q * A)) by ring. lra. }
  assert (TN : Rabs (B2R t / N - mx) <= e + (2 * (Q * B) + z0)). { replace (B2R t / N - mx) with ((B2R t / N - y) + (y - mx)) by ring. eapply Rle_trans; [apply Rabs_triang|]. lra. }
  assert (TA : Rabs (B2R t / N) <= A + e + (2 * (Q * B) + z0)). { replace (B2R t / N) with (mx + (B2R t / N - mx)) by ring. eapply Rle_trans; [apply Rabs_triang|]. lra. }
  assert (NZ : is_finite (ofZ64 (Z.of_nat nx * Z.of_nat nx)) = true /\ B2R (ofZ64 (Z.of_nat nx * Z.of_nat nx)) = N).
  { assert (IN : IZR (Z.of_nat nx * Z.of_nat nx) = N) by (rewrite mult_IZR, <- INR_IZR_INZ; reflexivity). destruct (ofZ_correct (Z.of_nat nx * Z.of_nat nx)) as [F E]; [|rewrite IN in E; split; assumption].
    rewrite Z.abs_eq by lia. apply le_IZR. rewrite IN. eapply Rle_trans; [exact N47|]. change (bpow radix2 47) with (IZR (2 ^ 47)). apply IZR_le. lia. }
  destruct NZ as [FN EN]. destruct (div_correct t (ofZ64 (Z.of_nat nx * Z.of_nat nx)) FT) as [FD ED]; [rewrite EN; lra|rewrite EN; eapply Rle_trans; [exact TA|]; lra|]. rewrite EN in ED.
  set (m := div64 t (ofZ64 (Z.of_nat nx * Z.of_nat nx))) in *.
  pose proof (rnd_any (B2R t / N)) as DE. rewrite <- ED in DE.
  assert (UT : unit_roundoff * Rabs (B2R t / N) <= 2 * (unit_roundoff * A) + z0).
  { apply Rle_trans with (unit_roundoff * (2 * A + 16 * z0)); [apply Rmult_le_compat_l; lra|]. rewrite Rmult_plus_distr_l. replace (unit_roundoff * (2 * A)) with (2 * (unit_roundoff * A)) by ring. replace (unit_roundoff * (16 * z0)) with (16 * (unit_roundoff * z0)) by ring. lra. }
  assert (MM : Rabs (B2R m - mx) <= e + (2 * (Q * B) + z0) + 2 * (unit_roundoff * A) + 2 * z0). { replace (B2R m - mx) with ((B2R m - B2R t / N) + (B2R t / N - mx)) by ring. eapply Rle_trans; [apply Rabs_triang|]. lra. }
  intros i j Hi Hj. rewrite (HS i j Hi Hj). fold m. destruct (RW i j Hi Hj) as (FR & ER & XR). pose proof (RB i j Hi Hj) as BR.
  assert (D : Rabs (B2R (raw i j) - B2R m - (x i j - mx)) <= 2 * e + (2 * (Q * B) + z0) + 2 * (unit_roundoff * A) + 2 * z0).
  { replace (B2R (raw i j) - B2R m - (x i j - mx)) with ((B2R (raw i j) - x i j) - (B2R m - mx)) by ring. unfold Rminus at 1. eapply Rle_trans; [apply Rabs_triang|]. rewrite Rabs_Ropp. lra. }
  assert (XM : Rabs (x i j - mx) <= 2 * A). { unfold Rminus. eapply Rle_trans; [apply Rabs_triang|]. rewrite Rabs_Ropp. lra. }
  assert (RM : Rabs (B2R (raw i j) - B2R m) <= 3 * A + 16 * z0). { replace (B2R (raw i j) - B2R m) with ((x i j - mx) + (B2R (raw i j) - B2R m - (x i j - mx))) by ring. eapply Rle_trans; [apply Rabs_triang|]. lra. }
  destruct (sub_correct (raw i j) m FR FD) as [FS ES]; [eapply Rle_trans; [exact RM|]; lra|]. split; [exact FS|]. pose proof (rnd_any (B2R (raw i j) - B2R m)) as SE. rewrite <- ES in SE.
  assert (US : unit_roundoff * Rabs (B2R (raw i j) - B2R m) <= 3 * (unit_roundoff * A) + z0).
  { apply Rle_trans with (unit_roundoff * (3 * A + 16 * z0)); [apply Rmult_le_compat_l; lra|]. rewrite Rmult_plus_distr_l. replace (unit_roundoff * (3 * A)) with (3 * (unit_roundoff * A)) by ring. replace (unit_roundoff * (16 * z0)) with (16 * (unit_roundoff * z0)) by ring. lra. }
  unfold exact_surface. fold x. fold mx. replace (B2R (sub64 (raw i j) m) - (x i j - mx)) with ((B2R (sub64 (raw i j) m) - (B2R (raw i j) - B2R m)) + (B2R (raw i j) - B2R m - (x i j - mx))) by ring. eapply Rle_trans; [apply Rabs_triang|].
  replace ((4 * n + 8 * N) * unit_roundoff * A) with (4 * (q * A) + 8 * (Q * A)) by (unfold q, Q; ring). lra.
Qed.

Lemma exact_bound nx infl cmds A : driven nx infl cmds A -> forall i j, (i < nx)%nat -> (j < nx)%nat -> Rabs (exact_surface nx infl cmds i j) <= 2 * A.
Proof.
  intros (NX & _ & _ & _ & _ & _ & HI). set (x := combined infl cmds). set (N := INR nx * INR nx).
  assert (N1 : 1 <= N). { assert (1 <= INR nx) by (change 1 with (INR 1); apply le_INR; exact NX). unfold N. replace 1 with (1 * 1) by ring. apply Rmult_le_compat; lra. }
  assert (XR : forall i j, (i < nx)%nat -> (j < nx)%nat -> Rabs (x i j) <= A) by (intros i j Hi Hj; destruct (HI i j Hi Hj) as [_ AI]; eapply Rle_trans; [apply (pe_pa (combine cmds (map (fun f => f i j) infl)))|exact AI]).
  assert (MX : Rabs (mean_of nx x) <= A). { unfold mean_of. change (sum_to nx (fun i => sum_to nx (fun j => x i j))) with (sum2 nx x). fold N. unfold Rdiv. rewrite Rabs_mult, (Rabs_pos_eq (/ N)) by (apply Rlt_le, Rinv_0_lt_compat; lra). apply Rmult_le_reg_r with N; [lra|].
    rewrite Rmult_assoc, Rinv_l, Rmult_1_r by lra. rewrite Rmult_comm. apply sum2_bound. exact XR. }
  intros i j Hi Hj. unfold exact_surface. fold x. unfold Rminus. eapply Rle_trans; [apply Rabs_triang|]. rewrite Rabs_Ropp. pose proof (XR i j Hi Hj). lra.
Qed.
Lemma screen_ok nx pad infl cmds A sh : driven nx infl cmds A -> surface64 nx infl cmds sh ->
  let scr := on_screen64 nx pad sh in
  let err := (4 * INR (length infl) + 8 * (INR nx * INR nx)) * unit_roundoff * A + bpow radix2 (-1000) in
  fa_rows scr = (Z.of_nat nx + 2 * Z.of_nat pad)%Z /\ fa_cols scr = (Z.of_nat nx + 2 * Z.of_nat pad)%Z /\ bounded_by scr (2 * A + err) /\
  forall i j, (0 <= i < fa_rows scr)%Z -> (0 <= j < fa_cols scr)%Z -> Rabs (numbers scr i j - exact_screen nx pad infl cmds i j) <= err.
Proof.
  intros HD HS scr err. destruct (ofZ_correct 0 ltac:(lia)) as [F0 V0]. assert (A0 : 0 <= A) by (destruct HD as (_ & _ & _ & _ & HA & _); apply HA).
  assert (E0 : 0 <= err). { unfold err. pose proof (bpow_gt_0 radix2 (-1000)). pose proof u_pos. assert (0 <= (4 * INR (length infl) + 8 * (INR nx * INR nx)) * unit_roundoff * A).
    { apply Rmult_le_pos; [apply Rmult_le_pos; [|lra]|exact A0]. pose proof (pos_INR (length infl)). pose proof (Rmult_le_pos _ _ (pos_INR nx) (pos_INR nx)). lra. } lra. }
  assert (ALL : forall i j, is_finite (fa_at scr i j) = true /\ Rabs (numbers scr i j - exact_screen nx pad infl cmds i j) <= err /\ Rabs (exact_screen nx pad infl cmds i j) <= 2 * A).
  { intros i j. unfold numbers, exact_screen, scr, on_screen64. cbn [fa_at]. destruct (Z.leb_spec (Z.of_nat pad) i); cbn [andb]; [destruct (Z.ltb_spec i (Z.of_nat pad + Z.of_nat nx)); cbn [andb]; [destruct (Z.leb_spec (Z.of_nat pad) j); cbn [andb]; [destruct (Z.ltb_spec j (Z.of_nat pad + Z.of_nat nx)); cbn [andb]|]|]|];
    try (split; [exact F0|]; rewrite V0, Rminus_0_r, Rabs_R0; split; lra).
    destruct (surface_ok nx infl cmds A sh HD HS (Z.to_nat (i - Z.of_nat pad)) (Z.to_nat (j - Z.of_nat pad))) as [F E]; [lia|lia|]. split; [exact F|]. split; [exact E|]. apply (exact_bound nx infl cmds A HD); lia. }
  split; [reflexivity|]. split; [reflexivity|]. split; [|intros i j _ _; apply ALL]. intros i j _ _. destruct (ALL i j) as (F & E & X). split; [exact F|].
  replace (numbers scr i j) with (exact_screen nx pad infl cmds i j + (numbers scr i j - exact_screen nx pad infl cmds i j)) by ring. eapply Rle_trans; [apply Rabs_triang|]. lra.
Qed.

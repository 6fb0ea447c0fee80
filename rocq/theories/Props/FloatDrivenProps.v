(** Property theorem C210: from the commands of the mirrors to the slopes of a gradient sensor. *)
From Coq Require Import ZArith List Permutation.
From Flocq Require Import Core BinarySingleNaN.
From Verif.Base Require Import Float64.
From Verif.Model Require Import Rounding64 FloatInterp FloatLos FloatFootprint FloatLoop FloatDot FloatGrad FloatGradChain FloatMirror.
From Verif.Spec Require Import FloatLoopSpec FloatDotSpec FloatInterpSpec FloatLosSpec FloatFootprintSpec FloatGradSpec FloatGradChainSpec FloatMirrorSpec.
From Verif.Proofs Require Import FloatLoopProofs FloatInterpProofs FloatGradProofs FloatGradFrame FloatMirrorProofs.
From Coq Require Import Reals Bool Lia Lra.
From Verif.Model Require Import FloatDriven.
From Verif.Spec Require Import FloatDrivenSpec.
From Verif.Proofs Require Import FloatDrivenProofs.
From Verif.Proofs Require Import FloatDrivenFrame.
Import ListNotations.
Local Open Scope R_scope.

(** C210: on every frame of a run, both slopes of a sub-aperture are numbers, and differ from the tilts (arcsec) of the plane that fits best what exact arithmetic sees of the screens less
    the surfaces that the commands make by no more than 5e-5 + 3200 * 2^-53 * G of the sum of the largest values, 8 times what rounding does to the surfaces (C209), and 2^-40, over the phase
    of a tilt of one arcsec across the sub-aperture. *)
Theorem C210_slopes :
  forall (g : grad_sensor) (theta h G step : R) (frames : list (list (farr * b64) * list (mirror64 * list b64))) (bounds : list (list R * list R)) (ss : list (b64 * b64)),
    usable g theta h G step -> Forall2 (command_within g theta h) frames bounds -> driven_run64 g Single frames ss ->
    length ss = length frames /\
    forall n s f b, nth_error ss n = Some s -> nth_error frames n = Some f -> nth_error bounds n = Some b ->
      let bound := ((5 / 10 ^ 5 + 3200 * unit_roundoff * G) * (total (fst b) + shown (snd f) (snd b)) + 8 * missed (snd f) (snd b) + bpow radix2 (-40)) * B2R (gs_c g) / (step * INR (gs_w g)) in
      is_finite (fst s) = true /\ is_finite (snd s) = true /\
      Rabs (B2R (fst s) - best_x step (gs_w g) (exact_residual g (fst f) (snd f))) <= bound /\ Rabs (B2R (snd s) - best_y step (gs_w g) (exact_residual g (fst f) (snd f))) <= bound.
Proof.
  intros g theta h G step frames bounds ss HU HF. generalize Single. revert ss. induction HF as [|f b fs bs HB HF IH]; intros [|s ss] d HR; cbn [driven_run64] in HR; try contradiction HR.
  - split; [reflexivity|]. intros [|n] s f b E; discriminate E.
  - destruct HR as [H1 H2]. destruct (IH ss Double H2) as [IL IN]. split; [cbn; rewrite IL; reflexivity|]. intros [|n] s' f' b' Es Ef Eb; cbn [nth_error] in *; [|exact (IN n s' f' b' Es Ef Eb)].
    injection Es as <-. injection Ef as <-. injection Eb as <-. exact (driven_frame_ok g theta h G step d f b s HU HB H1).
Qed.
Print Assumptions C210_slopes.

(** Non-vacuity: screens and a line of sight of 64 pixels of a metre, a screen that rises by 3 from column to column and a mirror with an actuator that tilts it the same way.  For a command k
    the tilt seen in exact arithmetic is k - 3; there are slopes; and two frames, with the commands 2 and then 3, have them. *)
Definition plain : geometry64 := mkGeo (lit64 5723664318800627 (-70)) (ofZ64 0) (ofZ64 1) (ofZ64 1) 64 64.
Definition looking : grad_sensor := mkSensor plain (ofZ64 0) (ofZ64 0) (ofZ64 1) (ofZ64 63) 64 16 32 16 (fun _ _ => ofZ64 1).
Definition tilter : mirror64 := mkMirror 64 0 [fun _ j => ofZ64 (Z.of_nat j)] (ofZ64 0).
Definition rising : list (farr * b64) := [(mkFarr 64 64 (fun _ j => ofZ64 (if (0 <=? j)%Z && (j <? 64)%Z then 3 * j else 0)), ofZ64 0)].
Lemma value z : (Z.abs z <= 2 ^ 53)%Z -> is_finite (ofZ64 z) = true /\ B2R (ofZ64 z) = IZR z.
Proof. apply ofZ_correct. Qed.
Lemma usable_plain : usable looking (/ 1000) 20000 64 1.
Proof.
  assert (P1 : bpow radix2 (-100) <= / 1024 /\ 1048576 <= bpow radix2 100). { change (/ 1024) with (bpow radix2 (-10)). change 1048576 with (bpow radix2 20). split; apply bpow_le; lia. }
  assert (P2 : bpow radix2 (-60) <= 1 <= bpow radix2 40). { change 1 with (bpow radix2 0). split; apply bpow_le; lia. }
  assert (ZA : is_finite (lit64 5723664318800627 (-70)) = true).
  { assert (B : 1 <= bpow radix2 1000) by (change 1 with (bpow radix2 0); apply bpow_le; lia). destruct (lit_correct 5723664318800627 (-70)) as [F E]; [rewrite Rabs_pos_eq; [|apply Rmult_le_pos; [lra|apply bpow_ge_0]]; cbn; cbn in B; lra|]. exact F. }
  destruct (value 0%Z) as [F0 E0]; [lia|]. destruct (value 1%Z) as [F1 E1]; [lia|]. destruct (value 63%Z) as [F63 E63]; [lia|].
  unfold usable, looking. cbn [gs_geo gs_c gs_amp gs_pupil gs_w gs_row gs_col gs_mask]. rewrite E1. split; [|split; [exact F1|split; [exact P2|split; [|cbn [g_nout plain]; split; [lia|split; [cbn; lia|split; [lia|split; [cbn; lia|]]]]]]]].
  - unfold sensible, plain. cbn [g_asec g_src g_pix g_opix g_nout g_scrn]. rewrite E1. repeat split; auto; try lia; lra.
  - unfold tilted. split; [exact F63|]. split; [rewrite E63; cbn; lra|]. split; [lra|]. split; lia.
  - intros i j. split; [exact F1|]. right. reflexivity.
Qed.
Lemma within_plain : within plain (/ 1000) 20000 (ofZ64 0) (ofZ64 0).
Proof.
  destruct (value 0%Z) as [F0 E0]; [lia|]. unfold within, plain. cbn [g_asec g_src]. rewrite E0. rewrite Rmult_0_r, Rabs_R0. repeat split; auto; try lra.
Qed.
Lemma tilter_driven c : is_finite c = true -> Rabs (B2R c) <= 10 -> driven 64 (mm_infl tilter) [c] 630.
Proof.
  intros FC BC. assert (I64 : INR 64 = 64) by (cbn; lra). unfold driven. cbn [mm_infl tilter length]. split; [lia|]. split; [reflexivity|]. rewrite u_val, I64. split; [cbn; lra|]. split; [lra|]. split; [split; [lra|]; apply Rle_trans with (bpow radix2 10); [cbn; lra|apply bpow_le; lia]|].
  split; [constructor; [exact FC|constructor]|]. intros i j Hi Hj. destruct (value (Z.of_nat j)) as [FJ EJ]; [lia|]. assert (HJ : 0 <= IZR (Z.of_nat j) <= 63) by (split; apply IZR_le; lia).
  split; [constructor; [exact FJ|constructor]|]. change (Rabs (B2R c * B2R (ofZ64 (Z.of_nat j))) + 0 <= 630). rewrite EJ, Rabs_mult, (Rabs_pos_eq (IZR _)) by lra. rewrite Rplus_0_r. replace 630 with (10 * 63) by ring. apply Rmult_le_compat; try lra. apply Rabs_pos.
Qed.
Lemma tilter_miss : 0 <= miss tilter 630 <= / 10 ^ 6.
Proof.
  unfold miss. cbn [mm_infl tilter length mm_nx]. rewrite u_val. assert (I64 : INR 64 = 64) by (cbn; lra). rewrite I64. change (INR 1) with 1. assert (0 < bpow radix2 (-1000) <= / 1073741824). { split; [apply bpow_gt_0|]. change (/ 1073741824) with (bpow radix2 (-30)). apply bpow_le. lia. } lra.
Qed.
Lemma tilter_within c : is_finite c = true -> Rabs (B2R c) <= 10 -> command_within looking (/ 1000) 20000 (rising, [(tilter, [c])]) ([189], [630]).
Proof.
  intros FC BC. pose proof tilter_miss as M. unfold command_within, shown. cbn [fst snd combine map total fold_right looking gs_geo gs_posx gs_posy length rising].
  assert (B5 : 2000 <= bpow radix2 50) by (apply Rle_trans with (bpow radix2 11); [cbn; lra|apply bpow_le; lia]).
  split; [|split; [|repeat split; try lia; lra]].
  - constructor; [|constructor]. cbn [fst snd]. split; [unfold fits; cbn [fa_rows fa_cols]; lia|]. split; [|split; apply within_plain]. intros i j Hi Hj. unfold numbers. cbn [fa_at fa_rows fa_cols] in *. destruct (Z.leb_spec 0 j); [|lia]. destruct (Z.ltb_spec j 64); [|lia]. cbn [andb].
    destruct (value (3 * j)%Z) as [F E]; [lia|]. split; [exact F|]. rewrite E, Rabs_pos_eq by (apply IZR_le; lia). apply IZR_le. lia.
  - constructor; [|constructor]. cbv zeta. cbn [fst snd tilter mm_nx mm_pad mm_infl mm_alt]. split; [apply (tilter_driven c FC BC)|]. split; [cbn; lia|]. split; apply within_plain.
Qed.
Lemma straight_at d k : straight d (IZR k) = d k.
Proof. unfold straight. rewrite Zfloor_IZR. ring. Qed.
Lemma foot_plain k : (0 <= k < 64)%Z -> nearest_on 64 (footprint plain (B2R (ofZ64 0)) (B2R (ofZ64 0)) k) = IZR k.
Proof.
  intro K. destruct (value 0%Z) as [F0 E0]; [lia|]. destruct (value 1%Z) as [F1 E1]; [lia|]. assert (HK : 0 <= IZR k <= 63) by (split; apply IZR_le; lia).
  assert (E : footprint plain (B2R (ofZ64 0)) (B2R (ofZ64 0)) k = IZR k). { unfold footprint, beam, plain. cbn [g_asec g_src g_pix g_opix g_nout g_scrn]. rewrite E0, E1. destruct (Req_EM_T 0 0) as [_|N]; [|contradiction N; reflexivity]. change (64 - 1)%Z with 63%Z. field. }
  rewrite E. unfold nearest_on. change (64 - 1)%Z with 63%Z. rewrite Rmin_left, Rmax_right; lra.
Qed.
Lemma tilter_surface c i j : (i < 64)%nat -> (j < 64)%nat -> exact_surface 64 (mm_infl tilter) [c] i j = B2R c * (INR j - 63 / 2).
Proof.
  assert (CB : forall i j, (j < 64)%nat -> combined (mm_infl tilter) [c] i j = B2R c * INR j). { intros a b Hb. destruct (value (Z.of_nat b)) as [F E]; [lia|]. change (B2R c * B2R (ofZ64 (Z.of_nat b)) + 0 = B2R c * INR b). rewrite E, <- INR_IZR_INZ. ring. }
  intros Hi Hj. unfold exact_surface. rewrite (CB i j Hj). assert (M : mean_of 64 (combined (mm_infl tilter) [c]) = B2R c * (63 / 2)).
  { unfold mean_of. rewrite (sum_ext 64 _ (fun _ => B2R c * sum_to 64 INR)) by (intros a Ha; rewrite <- sum_scale; apply sum_ext; intros b Hb; apply CB; exact Hb). rewrite sum_const, sum_id. assert (I64 : INR 64 = 64) by (cbn; lra). rewrite I64. field. }
  rewrite M. ring.
Qed.
Lemma tilt_seen c : best_x 1 16 (exact_residual looking rising [(tilter, [c])]) = B2R c - 3.
Proof.
  destruct (value 1%Z) as [F1 E1]; [lia|]. apply (best_affine 1 16 (3 * (32 + 15 / 2) - B2R c * (32 + 15 / 2 - 63 / 2))); [lra|lia|]. intros i j Hi Hj.
  assert (HJ : (0 <= 32 + Z.of_nat j < 64)%Z) by lia. assert (HI : (0 <= 16 + Z.of_nat i < 64)%Z) by lia.
  unfold exact_residual, exact_seen, exact_mirrors, looking, rising. cbn [gs_mask gs_c gs_geo gs_posx gs_posy gs_row gs_col map fold_right fst snd]. cbv zeta. cbn [fst snd tilter mm_nx mm_pad mm_infl mm_alt fa_rows fa_cols]. rewrite E1.
  change (Z.of_nat 64 + 2 * Z.of_nat 0)%Z with 64%Z. rewrite !(foot_plain _ HI), !(foot_plain _ HJ). unfold bilinear. rewrite !straight_at. unfold numbers. cbn [fa_at].
  assert (T : exact_screen 64 0 [fun _ j : nat => ofZ64 (Z.of_nat j)] [c] (16 + Z.of_nat i) (32 + Z.of_nat j) = B2R c * (32 + INR j - 63 / 2)).
  { unfold exact_screen. change (Z.of_nat 0) with 0%Z. change (0 + Z.of_nat 64)%Z with 64%Z. destruct (Z.leb_spec 0 (16 + Z.of_nat i)); [|lia]. destruct (Z.ltb_spec (16 + Z.of_nat i) 64); [|lia]. destruct (Z.leb_spec 0 (32 + Z.of_nat j)); [|lia]. destruct (Z.ltb_spec (32 + Z.of_nat j) 64); [|lia]. cbn [andb].
    rewrite !Z.sub_0_r. change [fun _ j : nat => ofZ64 (Z.of_nat j)] with (mm_infl tilter). rewrite tilter_surface by lia. rewrite INR_IZR_INZ, Z2Nat.id by lia. rewrite plus_IZR, <- INR_IZR_INZ. reflexivity. }
  rewrite T. destruct (Z.leb_spec 0 (32 + Z.of_nat j)); [|lia]. destruct (Z.ltb_spec (32 + Z.of_nat j) 64); [|lia]. cbn [andb]. destruct (value (3 * (32 + Z.of_nat j))%Z) as [F E]; [lia|]. rewrite E, mult_IZR, plus_IZR, <- INR_IZR_INZ.
  unfold minus_tilt. replace (INR (16 - 1)) with 15 by (cbn; lra). field.
Qed.
Example C210_instance :
  usable looking (/ 1000) 20000 64 1 /\
  (forall c, is_finite c = true -> Rabs (B2R c) <= 10 -> command_within looking (/ 1000) 20000 (rising, [(tilter, [c])]) ([189], [630]) /\
     best_x 1 16 (exact_residual looking rising [(tilter, [c])]) = B2R c - 3 /\ (forall d, exists s, driven_frame64 looking d rising [(tilter, [c])] s)) /\
  exists ss, driven_run64 looking Single [(rising, [(tilter, [ofZ64 2])]); (rising, [(tilter, [ofZ64 3])])] ss.
Proof.
  assert (A : forall c, is_finite c = true -> Rabs (B2R c) <= 10 -> forall d, exists s, driven_frame64 looking d rising [(tilter, [c])] s).
  { intros c FC BC d. eexists. exact (driven_fun_ok looking (/ 1000) 20000 64 1 d (rising, [(tilter, [c])]) ([189], [630]) usable_plain (tilter_within c FC BC)). }
  split; [exact usable_plain|]. split.
  - intros c FC BC. split; [exact (tilter_within c FC BC)|]. split; [exact (tilt_seen c)|exact (A c FC BC)].
  - destruct (value 2%Z) as [F2 E2]; [lia|]. destruct (value 3%Z) as [F3 E3]; [lia|]. destruct (A (ofZ64 2) F2) with (d := Single) as [s1 H1]; [rewrite E2, Rabs_pos_eq; lra|]. destruct (A (ofZ64 3) F3) with (d := Double) as [s2 H2]; [rewrite E3, Rabs_pos_eq; lra|].
    exists [s1; s2]. split; [exact H1|]. split; [exact H2|exact I].
Qed.

(** Lemmas for the way from commands to slopes. *)
From Coq Require Import ZArith List.
From Flocq Require Import Core BinarySingleNaN.
From Verif.Base Require Import Float64.
From Verif.Model Require Import FloatInterp FloatLos FloatFootprint FloatDot FloatGrad FloatGradChain FloatMirror.
From Verif.Spec Require Import FloatLoopSpec FloatInterpSpec FloatLosSpec FloatFootprintSpec FloatGradSpec FloatGradChainSpec FloatMirrorSpec.
From Verif.Proofs Require Import FloatLoopProofs FloatInterpProofs FloatGradProofs FloatGradFrame FloatGradChainProofs FloatMirrorProofs.
From Coq Require Import Reals Bool Lia Lra.
From Verif.Model Require Import FloatDriven.
From Verif.Spec Require Import FloatDrivenSpec.
Import ListNotations.
Local Open Scope R_scope.

Lemma bilinear_near n f g e x y : (forall i j, (0 <= i < n)%Z -> (0 <= j < n)%Z -> Rabs (f i j - g i j) <= e) -> 0 <= x <= IZR (n - 1) -> 0 <= y <= IZR (n - 1) -> Rabs (bilinear f x y - bilinear g x y) <= e.
Proof.
  intros H X Y. unfold bilinear. rewrite straight_minus. apply (straight_abs n); [|exact Y]. intros j Hj. rewrite straight_minus. apply (straight_abs n); [|exact X]. intros i Hi. apply H; assumption.
Qed.
Lemma nearest_in n x : (1 <= n)%Z -> 0 <= nearest_on n x <= IZR (n - 1).
Proof.
  intro H. unfold nearest_on. assert (0 <= IZR (n - 1)) by (apply IZR_le; lia). split; [apply Rmax_l|]. apply Rmax_lub; [assumption|apply Rmin_r].
Qed.
Definition as_seen (ms : list (mirror64 * list b64)) (shs : list (nat -> nat -> b64)) : list (farr * b64) :=
  map (fun p => (on_screen64 (mm_nx (fst (fst p))) (mm_pad (fst (fst p))) (snd p), mm_alt (fst (fst p)))) (combine ms shs).
Definition mirror_in (g : grad_sensor) (theta h : R) (mc : mirror64 * list b64) (A : R) : Prop :=
  let m := fst mc in driven (mm_nx m) (mm_infl m) (snd mc) A /\ (2 <= Z.of_nat (mm_nx m) + 2 * Z.of_nat (mm_pad m) <= 2 ^ 20)%Z /\
    within (gs_geo g) theta h (gs_posx g) (mm_alt m) /\ within (gs_geo g) theta h (gs_posy g) (mm_alt m).
Lemma mirrors_ok g theta h ms As shs : Forall2 (mirror_in g theta h) ms As -> Forall2 (fun mc sh => surface64 (mm_nx (fst mc)) (mm_infl (fst mc)) (snd mc) sh) ms shs ->
  fine (gs_geo g) theta h (gs_posx g) (gs_posy g) (as_seen ms shs) (map (fun p => 2 * snd p + miss (fst (fst p)) (snd p)) (combine ms As)) /\
  length (as_seen ms shs) = length ms /\
  forall p q, Rabs (exact_seen (gs_geo g) (gs_posx g) (gs_posy g) p q (as_seen ms shs) - exact_mirrors g p q ms) <= missed ms As.
Proof.
  intro H. revert shs. induction H as [|mc A ms As HM H IH]; intros shs HS; inversion HS as [|? sh ? shr S1 S2]; subst.
  - split; [constructor|]. split; [reflexivity|]. intros p q. unfold missed. cbn. rewrite Rminus_0_r, Rabs_R0. lra.
  - destruct (IH shr S2) as (I1 & I2 & I3). destruct HM as (HD & HN & W1 & W2). destruct mc as [m cm]. cbn [fst snd] in *. destruct (screen_ok (mm_nx m) (mm_pad m) (mm_infl m) cm A sh HD S1) as (R1 & R2 & R3 & R4). cbv zeta in R1, R2, R3, R4.
    split; [|split].
    + unfold as_seen. cbn [combine map fst snd]. constructor; [|exact I1]. cbn [fst snd]. split; [unfold fits; rewrite R1, R2; lia|]. split; [exact R3|]. split; assumption.
    + cbn. f_equal. exact I2.
    + intros p q. unfold missed. cbn [combine map fst snd total fold_right].
      change (exact_seen (gs_geo g) (gs_posx g) (gs_posy g) p q (as_seen ((m, cm) :: ms) (sh :: shr))) with
        (bilinear (numbers (on_screen64 (mm_nx m) (mm_pad m) sh)) (nearest_on (fa_rows (on_screen64 (mm_nx m) (mm_pad m) sh)) (footprint (gs_geo g) (B2R (gs_posx g)) (B2R (mm_alt m)) p))
           (nearest_on (fa_cols (on_screen64 (mm_nx m) (mm_pad m) sh)) (footprint (gs_geo g) (B2R (gs_posy g)) (B2R (mm_alt m)) q))
         + exact_seen (gs_geo g) (gs_posx g) (gs_posy g) p q (as_seen ms shr)).
      change (exact_mirrors g p q ((m, cm) :: ms)) with
        (bilinear (exact_screen (mm_nx m) (mm_pad m) (mm_infl m) cm) (nearest_on (Z.of_nat (mm_nx m) + 2 * Z.of_nat (mm_pad m)) (footprint (gs_geo g) (B2R (gs_posx g)) (B2R (mm_alt m)) p))
           (nearest_on (Z.of_nat (mm_nx m) + 2 * Z.of_nat (mm_pad m)) (footprint (gs_geo g) (B2R (gs_posy g)) (B2R (mm_alt m)) q))
         + exact_mirrors g p q ms).
      rewrite R1, R2 in R4. rewrite R1, R2. set (n := (Z.of_nat (mm_nx m) + 2 * Z.of_nat (mm_pad m))%Z) in *.
      match goal with |- Rabs (?a + ?b - (?c + ?d)) <= _ => replace (a + b - (c + d)) with ((a - c) + (b - d)) by ring end. eapply Rle_trans; [apply Rabs_triang|]. apply Rplus_le_compat; [|apply I3].
      apply (bilinear_near n); [exact R4|apply nearest_in; lia|apply nearest_in; lia].
Qed.
Lemma driven_frame_ok g theta h G step d f b s : usable g theta h G step -> command_within g theta h f b -> driven_frame64 g d (fst f) (snd f) s ->
  let bound := ((5 / 10 ^ 5 + 3200 * unit_roundoff * G) * (total (fst b) + shown (snd f) (snd b)) + 8 * missed (snd f) (snd b) + bpow radix2 (-40)) * B2R (gs_c g) / (step * INR (gs_w g)) in
  is_finite (fst s) = true /\ is_finite (snd s) = true /\
  Rabs (B2R (fst s) - best_x step (gs_w g) (exact_residual g (fst f) (snd f))) <= bound /\ Rabs (B2R (snd s) - best_y step (gs_w g) (exact_residual g (fst f) (snd f))) <= bound.
Proof.
  intros HU (B1 & B2 & B3 & B4 & B5 & B6) (shs & HS & HG) bound. destruct f as [scr ms]. destruct b as [bs As]. cbn [fst snd] in *. fold (as_seen ms shs) in HG. destruct (mirrors_ok g theta h ms As shs B2 HS) as (M1 & M2 & M3).
  destruct (grad_frame_ok g theta h G step d (scr, as_seen ms shs) (bs, map (fun p => 2 * snd p + miss (fst (fst p)) (snd p)) (combine ms As)) s HU) as (F1 & F2 & E1 & E2).
  { split; [exact B1|]. split; [exact M1|]. cbn [fst snd]. rewrite M2. split; [exact B3|]. split; [exact B4|]. split; [exact B5|exact B6]. }
  { exact HG. }
  split; [exact F1|]. split; [exact F2|]. cbn [fst snd] in E1, E2. change (total (map (fun p => 2 * snd p + miss (fst (fst p)) (snd p)) (combine ms As))) with (shown ms As) in E1, E2.
  pose proof HU as (_ & FC & BC & TL & _ & _ & _ & _ & MK). pose proof TL as (_ & _ & SB & HW & _). pose proof (bpow_gt_0 radix2 (-100)). pose proof (bpow_gt_0 radix2 (-60)). assert (SP : 0 < step) by lra. set (w := gs_w g) in *. set (c := B2R (gs_c g)) in *.
  assert (IW : 0 < INR w) by (apply (lt_INR 0); lia). assert (D0 : 0 <= missed ms As) by (eapply Rle_trans; [apply Rabs_pos|apply (M3 0%Z 0%Z)]).
  assert (NR : forall i j, (i < w)%nat -> (j < w)%nat -> Rabs (exact_phase g (scr, as_seen ms shs) i j - exact_residual g scr ms i j) <= missed ms As * c).
  { intros i j _ _. unfold exact_phase, exact_residual. cbn [fst snd]. fold c. pose proof (M3 (gs_row g + Z.of_nat i)%Z (gs_col g + Z.of_nat j)%Z) as D. set (a := exact_seen _ _ _ _ _ scr) in *. set (p := exact_seen _ _ _ _ _ (as_seen ms shs)) in *. set (q := exact_mirrors _ _ _ _) in *.
    replace (B2R (gs_mask g i j) * (c * (a - p)) - B2R (gs_mask g i j) * (c * (a - q))) with (- (B2R (gs_mask g i j) * (c * (p - q)))) by ring. rewrite Rabs_Ropp, Rabs_mult, Rabs_mult, (Rabs_pos_eq c) by lra.
    replace (missed ms As * c) with (1 * (c * missed ms As)) by ring. apply Rmult_le_compat; [apply Rabs_pos|apply Rmult_le_pos; [lra|apply Rabs_pos]| |apply Rmult_le_compat_l; [lra|exact D]].
    destruct (MK i j) as [_ [E|E]]; rewrite E; [rewrite Rabs_R0|rewrite Rabs_R1]; lra. }
  pose proof (best_lip step w (fun _ j => j) _ _ _ SP ltac:(lia) (or_introl eq_refl) NR) as Q1. pose proof (best_lip step w (fun i _ => i) _ _ _ SP ltac:(lia) (or_intror eq_refl) NR) as Q2. cbv zeta in Q1, Q2.
  assert (SUM : bound = ((5 / 10 ^ 5 + 3200 * unit_roundoff * G) * (total bs + shown ms As) + bpow radix2 (-40)) * c / (step * INR w) + 8 * (missed ms As * c) / (step * INR w)) by (unfold bound; field; split; lra).
  split.
  - replace (B2R (fst s) - best_x step w (exact_residual g scr ms)) with ((B2R (fst s) - best_x step w (exact_phase g (scr, as_seen ms shs))) + (best_x step w (exact_phase g (scr, as_seen ms shs)) - best_x step w (exact_residual g scr ms))) by ring.
    eapply Rle_trans; [apply Rabs_triang|]. rewrite SUM. apply Rplus_le_compat; [exact E1|exact Q1].
  - replace (B2R (snd s) - best_y step w (exact_residual g scr ms)) with ((B2R (snd s) - best_y step w (exact_phase g (scr, as_seen ms shs))) + (best_y step w (exact_phase g (scr, as_seen ms shs)) - best_y step w (exact_residual g scr ms))) by ring.
    eapply Rle_trans; [apply Rabs_triang|]. rewrite SUM. apply Rplus_le_compat; [exact E2|exact Q2].
Qed.

(** Lemmas for the gradient sensor behind its line of sight. *)
From Coq Require Import ZArith List.
From Flocq Require Import Core BinarySingleNaN.
From Verif.Base Require Import Float64.
From Verif.Model Require Import Rounding64 FloatInterp FloatLos FloatFootprint FloatDot FloatGrad.
From Verif.Spec Require Import FloatLoopSpec FloatInterpSpec FloatLosSpec FloatFootprintSpec FloatGradSpec.
From Verif.Proofs Require Import FloatLoopProofs FloatLosProofs FloatLosFrame FloatFootprintProofs FloatFootprintFrame FloatGradProofs FloatGradFrame.
From Coq Require Import Reals Bool Lia Lra.
From Verif.Model Require Import FloatGradChain.
From Verif.Spec Require Import FloatGradChainSpec.
Import ListNotations.
Local Open Scope R_scope.

(** the best tilts hardly change with the phase *)
Lemma best_lip sg w sel p q dl : 0 < sg -> (2 <= w)%nat -> along sel -> (forall i j, (i < w)%nat -> (j < w)%nat -> Rabs (p i j - q i j) <= dl) ->
  let fit p := sum2 w (fun i j => (p i j - mean_of w p) * minus_tilt sg w (sel i j)) / (INR w * sum_to w (fun k => minus_tilt sg w k * minus_tilt sg w k)) in
  Rabs (fit p - fit q) <= 8 * dl / (sg * INR w).
Proof.
  intros S HW AL H fit. assert (IW : 2 <= INR w) by (change 2 with (INR 2); apply le_INR; exact HW). assert (DP : 0 <= dl). { eapply Rle_trans; [apply Rabs_pos|]. apply (H 0%nat 0%nat); lia. }
  set (V := INR w * sum_to w (fun k => minus_tilt sg w k * minus_tilt sg w k)). set (N := INR w * INR w). set (W := INR w * sg).
  assert (N4 : 4 <= N) by (unfold N; replace 4 with (2 * 2) by ring; apply Rmult_le_compat; lra). assert (WP : 0 < W) by (apply Rmult_lt_0_compat; lra).
  assert (VE : V = W * W * ((N - 1) / 12)) by (unfold V; rewrite tilt_sq by lia; unfold W, N; field). assert (VP : 0 < V) by (rewrite VE; apply Rmult_lt_0_compat; [apply Rmult_lt_0_compat; exact WP|lra]).
  assert (E : forall r, fit r = sum2 w (fun i j => r i j * minus_tilt sg w (sel i j)) / V).
  { intro r. unfold fit. fold V. rewrite (sum2_lin w r (fun i j => minus_tilt sg w (sel i j)) (mean_of w r)), (along_sum sel w (minus_tilt sg w) AL), tilt_sum by lia. f_equal. ring. }
  rewrite !E. replace (sum2 w (fun i j => p i j * minus_tilt sg w (sel i j)) / V - sum2 w (fun i j => q i j * minus_tilt sg w (sel i j)) / V)
    with ((sum2 w (fun i j => p i j * minus_tilt sg w (sel i j)) - sum2 w (fun i j => q i j * minus_tilt sg w (sel i j))) / V) by (field; lra).
  assert (D : Rabs (sum2 w (fun i j => p i j * minus_tilt sg w (sel i j)) - sum2 w (fun i j => q i j * minus_tilt sg w (sel i j))) <= INR w * INR w * (dl * (W / 2))).
  { apply sum2_abs. intros i j Hi Hj. replace (p i j * minus_tilt sg w (sel i j) - q i j * minus_tilt sg w (sel i j)) with ((p i j - q i j) * minus_tilt sg w (sel i j)) by ring. rewrite Rabs_mult.
    apply Rmult_le_compat; try apply Rabs_pos; [apply H; assumption|]. apply tilt_le; [exact S|]. apply along_lt; assumption. }
  unfold Rdiv at 1. rewrite Rabs_mult, (Rabs_pos_eq (/ V)) by (apply Rlt_le, Rinv_0_lt_compat; exact VP). apply Rmult_le_reg_r with V; [exact VP|]. rewrite Rmult_assoc, Rinv_l, Rmult_1_r by lra.
  eapply Rle_trans; [exact D|]. fold N. replace (8 * dl / (sg * INR w) * V) with (dl * W * (8 * (N - 1) / 12)) by (rewrite VE; unfold W; field; lra). replace (N * (dl * (W / 2))) with (dl * W * (N / 2)) by field.
  apply Rmult_le_compat_l; [apply Rmult_le_pos; lra|]. lra.
Qed.
Lemma by_mask x m : is_finite x = true -> Rabs (B2R x) <= bpow radix2 1000 -> is_finite m = true -> B2R m = 0 \/ B2R m = 1 -> is_finite (mul64 x m) = true /\ B2R (mul64 x m) = B2R m * B2R x.
Proof.
  intros FX BX FM [E|E]; (destruct (mul_correct x m FX FM) as [F EM]; [rewrite E, ?Rmult_0_r, ?Rmult_1_r, ?Rabs_R0; [apply bpow_ge_0 || exact BX]|]); (split; [exact F|]); rewrite EM, E.
  - rewrite Rmult_0_r, Rmult_0_l. apply round_0. apply valid_rnd_N.
  - rewrite Rmult_1_r, Rmult_1_l. apply rnd_rep. apply (generic_format_B2R 53 1024).
Qed.
Lemma pixel_ok g theta h G step d f b i j ph : usable g theta h G step -> frame_within g theta h f b -> (i < gs_w g)%nat -> (j < gs_w g)%nat -> sees g d f i j ph ->
  let T := total (fst b) + total (snd b) in
  0 <= T <= bpow radix2 51 /\ is_finite (mul64 ph (gs_mask g i j)) = true /\ Rabs (B2R (mul64 ph (gs_mask g i j))) <= 2 * (T + bpow radix2 (-30)) * B2R (gs_c g) /\
  Rabs (B2R (mul64 ph (gs_mask g i j)) - exact_phase g f i j) <= ((11 / 10 ^ 8 + 400 * unit_roundoff * G) * T + bpow radix2 (-50)) * B2R (gs_c g).
Proof.
  intros (SN & FC & BC & TL & R0 & R1 & C0 & C1 & HM) (M1 & M2 & L1 & L2 & T1 & T2) Hi Hj (r & d' & E). cbv zeta. destruct (HM i j) as [FM VM].
  set (p := (gs_row g + Z.of_nat i)%Z) in *. set (q := (gs_col g + Z.of_nat j)%Z) in *. assert (HP : (0 <= p < g_nout (gs_geo g))%Z) by (unfold p; lia). assert (HQ : (0 <= q < g_nout (gs_geo g))%Z) by (unfold q; lia).
  destruct (cross_ok (gs_geo g) theta h G (gs_posx g) (gs_posy g) p q (fst f) (fst b) SN HP HQ M1) as [K1 X1]. destruct (cross_ok (gs_geo g) theta h G (gs_posx g) (gs_posy g) p q (snd f) (snd b) SN HP HQ M2) as [K2 X2].
  assert (LL1 : (Z.of_nat (length (cross64 (gs_geo g) (gs_posx g) (gs_posy g) p q (fst f))) <= 2 ^ 20)%Z) by (unfold cross64; rewrite map_length; exact L1).
  assert (LL2 : (Z.of_nat (length (cross64 (gs_geo g) (gs_posx g) (gs_posy g) p q (snd f))) <= 2 ^ 20)%Z) by (unfold cross64; rewrite map_length; exact L2).
  assert (BC' : bpow radix2 (-60) <= B2R (gs_c g) <= bpow radix2 60). { split; [apply BC|]. eapply Rle_trans; [apply BC|]. apply bpow_le. lia. }
  destruct (frame_ok d (gs_c g) _ _ (fst b) (snd b) K1 K2 LL1 LL2 T1 T2 FC BC') as (r0 & ph0 & E0 & FR & FP & B & BP). rewrite E0 in E. injection E as -> -> <-.
  destruct (sum_ok _ _ K1 LL1 T1) as (_ & _ & _ & P1 & A1 & _). destruct (sum_ok _ _ K2 LL2 T2) as (_ & _ & _ & P2 & A2 & _).
  set (c := B2R (gs_c g)) in *. set (S := total_seen (cross64 (gs_geo g) (gs_posx g) (gs_posy g) p q (fst f))) in *. set (K := total_seen (cross64 (gs_geo g) (gs_posx g) (gs_posy g) p q (snd f))) in *.
  set (S' := exact_seen (gs_geo g) (gs_posx g) (gs_posy g) p q (fst f)) in *. set (K' := exact_seen (gs_geo g) (gs_posx g) (gs_posy g) p q (snd f)) in *. set (T := total (fst b) + total (snd b)) in *.
  assert (TT : 0 <= T <= bpow radix2 51). { unfold T. change (bpow radix2 51) with (bpow radix2 (50 + 1)). rewrite bpow_plus. change (bpow radix2 1) with 2. lra. } split; [exact TT|].
  pose proof (bpow_gt_0 radix2 (-60)) as C60. assert (CP : 0 < c) by lra. pose proof (bpow_gt_0 radix2 (-80)) as T80. replace (10 ^ 7) with 10000000 in B by ring. replace (10 ^ 8) with 100000000 by ring.
  assert (T30 : 1048576 * bpow radix2 (-80) <= bpow radix2 (-50) /\ 1024 * bpow radix2 (-50) <= bpow radix2 (-30)). { change 1048576 with (bpow radix2 20). change 1024 with (bpow radix2 10). rewrite <- !bpow_plus. split; apply bpow_le; lia. }
  assert (SM : smallest <= bpow radix2 (-80) * c). { apply Rle_trans with (bpow radix2 (-80) * bpow radix2 (-60)); [unfold smallest; rewrite <- bpow_plus; apply bpow_le; lia|]. apply Rmult_le_compat_l; lra. }
  pose proof u_val as UV. assert (BR : Rabs (B2R r) <= 1001 / 1000 * T + bpow radix2 (-80)).
  { replace (B2R r) with ((S - K) + (B2R r - (S - K))) by ring. eapply Rle_trans; [apply Rabs_triang|]. assert (Rabs (S - K) <= T). { unfold Rminus. eapply Rle_trans; [apply Rabs_triang|]. rewrite Rabs_Ropp. unfold T. lra. } fold T in B. lra. }
  assert (CR : Rabs (c * B2R r) <= c * (1001 / 1000 * T + bpow radix2 (-80))) by (rewrite Rabs_mult, (Rabs_pos_eq c) by lra; apply Rmult_le_compat_l; lra).
  set (t80 := bpow radix2 (-80)) in *. set (Y := c * (1001 / 1000 * T + t80)) in *. assert (YE : Y = 1001 / 1000 * (c * T) + t80 * c) by (unfold Y; ring). assert (CT : 0 <= c * T) by (apply Rmult_le_pos; lra). assert (C8 : 0 < t80 * c) by (apply Rmult_lt_0_compat; lra).
  assert (EP : Rabs (B2R ph - c * B2R r) <= / 1000000000000 * (c * T) + 2 * (t80 * c)). { rewrite UV in BP. lra. }
  assert (BPH : Rabs (B2R ph) <= 1002 / 1000 * (c * T) + 4 * (t80 * c)). { replace (B2R ph) with (c * B2R r + (B2R ph - c * B2R r)) by ring. eapply Rle_trans; [apply Rabs_triang|]. lra. }
  assert (SC : 1048576 * (t80 * c) <= bpow radix2 (-50) * c) by (rewrite <- Rmult_assoc; apply Rmult_le_compat_r; lra). assert (SC2 : 1024 * (bpow radix2 (-50) * c) <= bpow radix2 (-30) * c) by (rewrite <- Rmult_assoc; apply Rmult_le_compat_r; lra).
  assert (BX : Rabs (B2R ph) <= bpow radix2 1000).
  { eapply Rle_trans; [exact BPH|]. assert (c * T <= bpow radix2 60 * bpow radix2 51) by (apply Rmult_le_compat; lra). assert (bpow radix2 60 * bpow radix2 51 * 4 <= bpow radix2 1000) by (change 4 with (bpow radix2 2); rewrite <- !bpow_plus; apply bpow_le; lia).
    assert (t80 * c <= 1 * bpow radix2 60). { apply Rmult_le_compat; try lra. unfold t80. change 1 with (bpow radix2 0). apply bpow_le. lia. } assert (bpow radix2 60 * 8 <= bpow radix2 1000) by (change 8 with (bpow radix2 3); rewrite <- !bpow_plus; apply bpow_le; lia). lra. }
  destruct (by_mask ph (gs_mask g i j) FP BX FM VM) as [FF EF]. split; [exact FF|]. unfold exact_phase. fold p q c S' K'.
  assert (MB : forall x, Rabs (B2R (gs_mask g i j) * x) <= Rabs x). { intro x. destruct VM as [-> | ->]; [rewrite Rmult_0_l, Rabs_R0; apply Rabs_pos|rewrite Rmult_1_l; lra]. }
  rewrite EF. split.
  - eapply Rle_trans; [apply MB|]. replace (2 * (T + bpow radix2 (-30)) * c) with (2 * (c * T) + 2 * (bpow radix2 (-30) * c)) by ring. lra.
  - replace (B2R (gs_mask g i j) * B2R ph - B2R (gs_mask g i j) * (c * (S' - K'))) with (B2R (gs_mask g i j) * (B2R ph - c * (S' - K'))) by ring. eapply Rle_trans; [apply MB|].
    assert (DE : Rabs (B2R r - (S' - K')) <= T / 10000000 + t80 + 400 * unit_roundoff * G * T).
    { replace (B2R r - (S' - K')) with ((B2R r - (S - K)) + ((S - S') - (K - K'))) by ring. eapply Rle_trans; [apply Rabs_triang|]. fold T in B.
      assert (Z : Rabs ((S - S') - (K - K')) <= 400 * unit_roundoff * G * T). { unfold Rminus at 1. eapply Rle_trans; [apply Rabs_triang|]. rewrite Rabs_Ropp. unfold T. lra. } lra. }
    replace (B2R ph - c * (S' - K')) with ((B2R ph - c * B2R r) + c * (B2R r - (S' - K'))) by ring. eapply Rle_trans; [apply Rabs_triang|]. rewrite (Rabs_mult c), (Rabs_pos_eq c) by lra.
    assert (CD : c * Rabs (B2R r - (S' - K')) <= c * (T / 10000000 + t80 + 400 * unit_roundoff * G * T)) by (apply Rmult_le_compat_l; lra).
    replace (c * (T / 10000000 + t80 + 400 * unit_roundoff * G * T)) with (/ 10000000 * (c * T) + t80 * c + 400 * unit_roundoff * G * T * c) in CD by field.
    replace (((11 / 100000000 + 400 * unit_roundoff * G) * T + bpow radix2 (-50)) * c) with (11 / 100000000 * (c * T) + bpow radix2 (-50) * c + 400 * unit_roundoff * G * T * c) by field. lra.
Qed.
Lemma grad_frame_ok g theta h G step d f b s : usable g theta h G step -> frame_within g theta h f b -> grad_frame64 g d f s ->
  let bound := ((5 / 10 ^ 5 + 3200 * unit_roundoff * G) * (total (fst b) + total (snd b)) + bpow radix2 (-40)) * B2R (gs_c g) / (step * INR (gs_w g)) in
  is_finite (fst s) = true /\ is_finite (snd s) = true /\
  Rabs (B2R (fst s) - best_x step (gs_w g) (exact_phase g f)) <= bound /\ Rabs (B2R (snd s) - best_y step (gs_w g) (exact_phase g f)) <= bound.
Proof.
  intros HU HF (ph & HS & HG). cbv zeta. pose proof HU as (SN & FC & BC & TL & _). pose proof TL as (_ & _ & SB & HW & _). pose proof (bpow_gt_0 radix2 (-100)) as P100. pose proof (bpow_gt_0 radix2 (-60)) as P60.
  pose proof (fun i j Hi Hj => pixel_ok g theta h G step d f b i j (ph i j) HU HF Hi Hj (HS i j Hi Hj)) as PX. cbv zeta in PX. set (T := total (fst b) + total (snd b)) in *. set (c := B2R (gs_c g)) in *. set (w := gs_w g) in *.
  destruct (PX 0%nat 0%nat ltac:(lia) ltac:(lia)) as (TT & _). set (X := 2 * (T + bpow radix2 (-30)) * c).
  assert (HX : bpow radix2 (-100) <= X <= bpow radix2 100).
  { pose proof (bpow_gt_0 radix2 (-30)) as P30. unfold X. split.
    - apply Rle_trans with (bpow radix2 (-30) * bpow radix2 (-60)); [rewrite <- bpow_plus; apply bpow_le; lia|]. apply Rmult_le_compat; lra.
    - apply Rle_trans with (bpow radix2 53 * bpow radix2 40); [|rewrite <- bpow_plus; apply bpow_le; lia]. assert (bpow radix2 (-30) <= bpow radix2 51) by (apply bpow_le; lia).
      assert (E53 : bpow radix2 53 = 4 * bpow radix2 51) by (change 4 with (bpow radix2 2); rewrite <- bpow_plus; reflexivity). apply Rmult_le_compat; lra. }
  destruct (slopes_ok step (gs_amp g) (gs_pupil g) w X _ (fst s) (snd s) TL HX (fun i j Hi Hj => conj (proj1 (proj2 (PX i j Hi Hj))) (proj1 (proj2 (proj2 (PX i j Hi Hj))))) HG) as [[F1 E1] [F2 E2]].
  split; [exact F1|]. split; [exact F2|]. set (dl := ((11 / 10 ^ 8 + 400 * unit_roundoff * G) * T + bpow radix2 (-50)) * c) in *.
  assert (SP : 0 < step) by lra. destruct (width_facts w HW) as (IW & _). assert (WP : 0 < step * INR w) by (apply Rmult_lt_0_compat; lra).
  pose proof (best_lip step w (fun _ j => j) (fun i j => B2R (mul64 (ph i j) (gs_mask g i j))) (exact_phase g f) dl SP ltac:(lia) (or_introl eq_refl) (fun i j Hi Hj => proj2 (proj2 (proj2 (PX i j Hi Hj))))) as Q1. cbv zeta in Q1.
  pose proof (best_lip step w (fun i _ => i) (fun i j => B2R (mul64 (ph i j) (gs_mask g i j))) (exact_phase g f) dl SP ltac:(lia) (or_intror eq_refl) (fun i j Hi Hj => proj2 (proj2 (proj2 (PX i j Hi Hj))))) as Q2. cbv zeta in Q2.
  assert (SUM : 2 / 10 ^ 5 * X / (step * INR w) + 8 * dl / (step * INR w) <= ((5 / 10 ^ 5 + 3200 * unit_roundoff * G) * T + bpow radix2 (-40)) * c / (step * INR w)).
  { replace (2 / 10 ^ 5 * X / (step * INR w) + 8 * dl / (step * INR w)) with ((2 / 10 ^ 5 * X + 8 * dl) / (step * INR w)) by (field; lra). apply Rmult_le_compat_r; [apply Rlt_le, Rinv_0_lt_compat; exact WP|].
    unfold X, dl. replace (10 ^ 5) with 100000 by ring. replace (10 ^ 8) with 100000000 by ring.
    replace (2 / 100000 * (2 * (T + bpow radix2 (-30)) * c) + 8 * (((11 / 100000000 + 400 * unit_roundoff * G) * T + bpow radix2 (-50)) * c))
      with ((4 / 100000 * (T + bpow radix2 (-30)) + 8 * (11 / 100000000 * T + bpow radix2 (-50)) + 3200 * unit_roundoff * G * T) * c) by field.
    replace (((5 / 100000 + 3200 * unit_roundoff * G) * T + bpow radix2 (-40)) * c) with ((5 / 100000 * T + bpow radix2 (-40) + 3200 * unit_roundoff * G * T) * c) by ring.
    apply Rmult_le_compat_r; [lra|]. assert (Z1 : bpow radix2 (-50) * 1024 <= bpow radix2 (-40)) by (change 1024 with (bpow radix2 10); rewrite <- bpow_plus; apply bpow_le; lia).
    assert (Z2 : bpow radix2 (-30) = bpow radix2 (-40) * 1024) by (change 1024 with (bpow radix2 10); rewrite <- bpow_plus; reflexivity). pose proof (bpow_gt_0 radix2 (-40)). lra. }
  split.
  - match type of E1 with Rabs (_ - ?m) <= _ => replace (B2R (fst s) - best_x step w (exact_phase g f)) with ((B2R (fst s) - m) + (m - best_x step w (exact_phase g f))) by ring end. eapply Rle_trans; [apply Rabs_triang|]. eapply Rle_trans; [|exact SUM]. apply Rplus_le_compat; [exact E1|exact Q1].
  - match type of E2 with Rabs (_ - ?m) <= _ => replace (B2R (snd s) - best_y step w (exact_phase g f)) with ((B2R (snd s) - m) + (m - best_y step w (exact_phase g f))) by ring end. eapply Rle_trans; [apply Rabs_triang|]. eapply Rle_trans; [|exact SUM]. apply Rplus_le_compat; [exact E2|exact Q2].
Qed.

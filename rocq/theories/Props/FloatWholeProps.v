(** Property theorem C211: the whole loop in floating-point arithmetic. *)
From Coq Require Import ZArith List Permutation.
From Flocq Require Import Core BinarySingleNaN.
From Verif.Base Require Import Float64 Py.
From Verif.Model Require Import Rounding64 FloatInterp FloatLos FloatFootprint FloatLoop FloatDot FloatGrad FloatGradChain FloatMirror FloatDriven.
From Verif.Spec Require Import FloatLoopSpec FloatDotSpec FloatInterpSpec FloatLosSpec FloatFootprintSpec FloatGradSpec FloatGradChainSpec FloatMirrorSpec FloatDrivenSpec.
From Verif.Proofs Require Import FloatLoopProofs FloatDotProofs FloatGradProofs FloatGradFrame FloatDrivenFrame.
From Verif.Props Require Import FloatDotProps FloatDelayProps FloatDrivenProps.
From Coq Require Import Reals Bool Lia Lra.
From Verif.Model Require Import FloatWhole.
From Verif.Spec Require Import FloatWholeSpec.
From Verif.Proofs Require Import FloatWholeProofs.
Import ListNotations.
Local Open Scope R_scope.

(** C211: if the loop would work in exact arithmetic, it works in floating-point arithmetic.  Frame n has the screens [screens n]; of the program's slopes and of its products with the control
    matrix, added up in whatever order, nothing else is known.  The run does not fail, its commands are numbers, and approach those wanted as in C190, with the noise eta of the exact system
    raised by R1 * e, what rounding of the slopes can do through the control matrix, and by the rounding of the product. *)
Theorem C211_loop :
  forall (lm : list (mirror64 * b64)) (me : list meas) (ctrl : list (list b64)) (step : grad_sensor -> R) (theta h G : R) (b : list R * list R)
    (g range delta eta v first W S e R1 : R) (wanted : nat -> nat -> R) (screens : nat -> list (farr * b64)) (slopes responds : list (list b64 -> list b64)),
  let ms := integrators lm in
  let total := fl_total ms in
  let n := INR (length me) in
  let M := R1 * (S + e) in
  let eta' := eta + R1 * e + 2 * n * unit_roundoff * M + 4 * n * smallest in
  let k := g * (1 - delta) - 11 * unit_roundoff in
  let rest := (eta' + v + unit_roundoff * (11 * W + 3 * eta') + 4 * smallest) / k in
  Forall (fun mg => is_finite (snd mg) = true /\ g <= B2R (snd mg) <= 1) lm ->
  Forall (fun m => usable (me_sensor m) theta h G (step (me_sensor m))) me ->
  length ctrl = total -> Forall (fun row => length row = length me /\ weight row <= R1) ctrl -> Forall all_finite ctrl ->
  0 < g -> 0 <= delta < 1 -> 0 <= eta -> 0 <= v -> 0 <= first -> 0 <= W -> 0 <= S -> 0 <= e -> 0 <= R1 -> 0 < k ->
  n * unit_roundoff <= / 2 -> 2 * (M + 1) <= bpow radix2 1000 -> first + rest <= range -> 8 * (W + range + eta' + 1) <= bpow radix2 1000 ->
  (forall i x, (x < total)%nat -> Rabs (wanted i x) <= W) ->
  (forall i x, (x < total)%nat -> Rabs (wanted (Datatypes.S i) x - wanted i x) <= v) ->
  (forall x, (x < total)%nat -> Rabs (wanted 0%nat x) <= first) ->
  (forall i, (i < length slopes)%nat -> corrects step theta h G me (map fst lm) ctrl b total range delta eta S e (wanted i) (screens i)) ->
  (forall i sl c, nth_error slopes i = Some sl -> fl_within total (wanted i) c range -> measured64 me (map fst lm) (screens i) c (sl c)) ->
  Forall2 (fun sl f => forall c, control_product ctrl (sl c) (f c)) slopes responds ->
  exists s outs, fl_run ms 0 (fl_init ms) responds = Ok (s, outs) /\ length outs = length responds /\
    forall i c, nth_error outs i = Some c -> fl_within total (wanted i) c ((1 - k) ^ i * first + rest).
Proof.
  intros lm me ctrl step theta h G b g range delta eta v first W S e R1 wanted screens slopes responds ms total n M eta' k rest HG HU LC HC HF G0 HD HN HV H1 HW HS HE HR Hk Hu HB Hr Hb HWn Hv H0 HX HM HP.
  assert (RE : 0 <= R1 * e) by (apply Rmult_le_pos; assumption). assert (MM : 0 <= M) by (unfold M; apply Rmult_le_pos; lra).
  assert (HGm : Forall (fun m => is_finite (fm_gain m) = true /\ g <= B2R (fm_gain m) <= 1) ms) by (unfold ms, integrators; clear - HG; induction HG as [|mg lm H _ IH]; constructor; [exact H|exact IH]).
  apply (C191_loop ms (length me) ctrl g range delta (eta + R1 * e) v first W M wanted slopes responds HGm LC HF G0 HD); try assumption; [lra|].
  intros i sl Hi. apply (optics_ok step theta h G me lm ctrl b range delta eta S e R1 (wanted i) (screens i) sl HU HC HE HS).
  - apply HX. apply nth_error_Some. rewrite Hi. discriminate.
  - intros c Hc. exact (HM i sl c Hi Hc).
Qed.
Print Assumptions C211_loop.

(** C211, with commands that reach the mirrors [loop_delay] frames late, as C190_delay. *)
Theorem C211_delay :
  forall (lm : list (mirror64 * b64)) (me : list meas) (ctrl : list (list b64)) (step : grad_sensor -> R) (theta h G : R) (b : list R * list R)
    (g gmax range delta eta v first W S e R1 : R) (loop_delay : nat) (wanted : nat -> nat -> R) (screens : nat -> list (farr * b64)) (slopes responds : list (list b64 -> list b64)),
  let ms := integrators lm in
  let total := fl_total ms in
  let n := INR (length me) in
  let dl := INR loop_delay in
  let M := R1 * (S + e) in
  let eta' := eta + R1 * e + 2 * n * unit_roundoff * M + 4 * n * smallest in
  let noise := eta' + (unit_roundoff * (W + 7 * range + 3 * eta') + 3 * smallest) / g in
  let rate := g * (1 - delta) - dl * (gmax * gmax) * (1 + delta) in
  let left := (v + gmax * (noise + delta * (dl * v) + dl * (gmax * (noise + (1 + delta) * (dl * v))))) / rate in
  Forall (fun mg => is_finite (snd mg) = true /\ g <= B2R (snd mg) <= gmax) lm ->
  Forall (fun m => usable (me_sensor m) theta h G (step (me_sensor m))) me ->
  length ctrl = total -> Forall (fun row => length row = length me /\ weight row <= R1) ctrl -> Forall all_finite ctrl ->
  0 < g -> g <= gmax -> gmax <= 1 -> 0 <= delta < 1 -> 0 <= eta -> 0 <= v -> 0 <= first -> 0 <= W -> 0 <= S -> 0 <= e -> 0 <= R1 -> 0 < rate ->
  n * unit_roundoff <= / 2 -> 2 * (M + 1) <= bpow radix2 1000 -> first + left + dl * v <= range -> 32 * (W + range + eta' + 1) <= bpow radix2 1000 -> 0 <= range ->
  (forall i x, (x < total)%nat -> Rabs (wanted i x) <= W) ->
  (forall i x, (x < total)%nat -> Rabs (wanted (Datatypes.S i) x - wanted i x) <= v) ->
  (forall x, (x < total)%nat -> Rabs (wanted 0%nat x) <= first) ->
  (forall i, (i < length slopes)%nat -> corrects step theta h G me (map fst lm) ctrl b total range delta eta S e (wanted i) (screens i)) ->
  (forall i sl c, nth_error slopes i = Some sl -> fl_within total (wanted i) c range -> measured64 me (map fst lm) (screens i) c (sl c)) ->
  Forall2 (fun sl f => forall c, control_product ctrl (sl c) (f c)) slopes responds ->
  exists s outs, fl_run ms (Z.of_nat loop_delay) (fl_init ms) responds = Ok (s, outs) /\ length outs = length responds /\
    forall i c, nth_error outs i = Some c -> fl_within total (wanted i) c ((1 - rate) ^ ((i - loop_delay) / (2 * loop_delay + 1)) * first + left + dl * v).
Proof.
  intros lm me ctrl step theta h G b g gmax range delta eta v first W S e R1 loop_delay wanted screens slopes responds ms total n dl M eta' noise rate left HG HU LC HC HF G0 GG G1 HD HN HV H1 HW HS HE HR Hk Hu HB Hr Hb Hp HWn Hv H0 HX HM HP.
  assert (RE : 0 <= R1 * e) by (apply Rmult_le_pos; assumption). assert (MM : 0 <= M) by (unfold M; apply Rmult_le_pos; lra).
  assert (HGm : Forall (fun m => fm_closed m = true /\ is_finite (fm_gain m) = true /\ g <= B2R (fm_gain m) <= gmax) ms) by (unfold ms, integrators; clear - HG; induction HG as [|mg lm H _ IH]; constructor; [split; [reflexivity|exact H]|exact IH]).
  assert (E0 : 0 <= eta').
  { unfold eta', n. pose proof u_pos. pose proof s_pos. pose proof (pos_INR (length me)).
    assert (0 <= 2 * INR (length me) * unit_roundoff * M) by (apply Rmult_le_pos; [apply Rmult_le_pos; lra|lra]). assert (0 <= 4 * INR (length me) * smallest) by (apply Rmult_le_pos; lra). lra. }
  apply (C190_delay ms g gmax range delta eta' v first W loop_delay wanted responds HGm G0 GG G1 HD E0 HV H1 HW Hk Hr Hb Hp HWn Hv H0).
  intros i f Hf. destruct (forall2_nth _ _ _ HP i f Hf) as (sl & Hsl & P). apply (product_accurate ms (length me) ctrl range delta (eta + R1 * e) M (wanted i) sl f LC HF MM Hu HB); [|exact P].
  apply (optics_ok step theta h G me lm ctrl b range delta eta S e R1 (wanted i) (screens i) sl HU HC HE HS).
  - apply HX. apply nth_error_Some. rewrite Hsl. discriminate.
  - intros c Hc. exact (HM i sl c Hsl Hc).
Qed.
Print Assumptions C211_delay.

(** Non-vacuity: the tilting mirror and the rising screen of C210, gain 1/2, a control matrix that turns the sign: from 0, the command approaches 3. *)
Definition tl_lm : list (mirror64 * b64) := [(tilter, lit64 1 (-1))].
Definition tl_me : list meas := [mkMeas looking true].
Definition tl_ctrl : list (list b64) := [[ofZ64 (-1)]].
Definition tl_slopes (c : list b64) : list b64 := [fst (driven_fun looking Double rising (dealt [tilter] c))].
Definition tl_responds (c : list b64) : list b64 := map (fun row => dotsum (combine row (tl_slopes c))) tl_ctrl.
Lemma tl_command c E : fl_within 1 (fun _ => 3) c E -> E <= 7 -> exists x, c = [x] /\ is_finite x = true /\ Rabs (B2R x) <= 10 /\ Rabs (B2R x - 3) <= 7.
Proof.
  intros [L H] HE. destruct c as [|x [|]]; try discriminate L. destruct (H 0%nat ltac:(lia)) as [F D]. cbn [nth] in F, D. exists x. split; [reflexivity|]. split; [exact F|]. rewrite Rabs_minus_sym in D. split; [|lra].
  replace (B2R x) with ((B2R x - 3) + 3) by ring. eapply Rle_trans; [apply Rabs_triang|]. rewrite (Rabs_pos_eq 3) by lra. lra.
Qed.
Lemma tl_error x : slope_error (fun _ => 1) 64 [(tilter, [x])] ([189], [630]) (mkMeas looking true) <= / 100.
Proof.
  pose proof tilter_miss as T. destruct (value 1%Z) as [F1 E1]; [lia|]. unfold slope_error, shown, missed. cbn [fst snd combine map total fold_right me_sensor looking gs_c gs_w]. rewrite E1, u_val.
  replace (INR 16) with 16 by (cbn; lra). assert (B : 0 < bpow radix2 (-40) <= / 1024) by (split; [apply bpow_gt_0|change (/ 1024) with (bpow radix2 (-10)); apply bpow_le; lia]).
  replace (10 ^ 5) with 100000 by ring. replace (/ 10 ^ 6) with (/ 1000000) in T by (replace (10 ^ 6) with 1000000 by ring; reflexivity). lra.
Qed.
Lemma tl_corrects : corrects (fun _ => 1) (/ 1000) 20000 64 tl_me [tilter] tl_ctrl ([189], [630]) 1 7 0 0 7 (/ 100) (fun _ => 3) rising.
Proof.
  intros c E HW HE. destruct (tl_command c E HW HE) as (x & -> & FX & BX & DX). change (shares 0 [tilter] [x]) with [(tilter, [x])].
  assert (EX : exact_slope (fun _ => 1) rising [tilter] [x] (mkMeas looking true) = B2R x - 3) by exact (tilt_seen x). split.
  - intros k [<-|[]]. split; [exact (tilter_within x FX BX)|]. split; [exact (tl_error x)|]. rewrite EX. exact DX.
  - intros [|[|i]] row Hr; try discriminate Hr. change (Some [ofZ64 (-1)] = Some row) in Hr. apply (f_equal (fun o => match o with Some r => r | None => [] end)) in Hr. subst row. unfold exact_command. cbn [combine tl_me map fold_right fst snd nth]. rewrite EX. destruct (value (-1)%Z) as [F E1]; [lia|]. rewrite E1.
    match goal with |- Rabs ?a <= _ => replace a with 0 by ring end. rewrite Rabs_R0. lra.
Qed.
Lemma tl_measured c : fl_within 1 (fun _ => 3) c 7 -> measured64 tl_me [tilter] rising c (tl_slopes c).
Proof.
  intro HW. destruct (tl_command c 7 HW ltac:(lra)) as (x & -> & FX & BX & _). change (dealt ([tilter]) [x]) with [(tilter, [x])]. unfold tl_slopes. change (dealt [tilter] [x]) with [(tilter, [x])]. unfold measured64. constructor; [|constructor]. change (dealt ([tilter]) [x]) with [(tilter, [x])]. cbn [me_sensor me_x].
  exists Double, (driven_fun looking Double rising [(tilter, [x])]). split; [|reflexivity]. exact (driven_fun_ok looking (/ 1000) 20000 64 1 Double (rising, [(tilter, [x])]) ([189], [630]) usable_plain (tilter_within x FX BX)).
Qed.
Example C211_instance : forall N : nat, exists s outs, fl_run (integrators tl_lm) 0 (fl_init (integrators tl_lm)) (repeat tl_responds N) = Ok (s, outs) /\ length outs = N /\
  forall i c, nth_error outs i = Some c -> exists x, c = [x] /\ is_finite x = true /\ Rabs (B2R x - 3) <= (6 / 10) ^ i * 3 + / 20.
Proof.
  intro N. pose proof u_val as UV. pose proof s_pos as S0. assert (S1 : smallest <= / 1048576) by (change (/ 1048576) with (bpow radix2 (-20)); apply bpow_le; lia).
  assert (BG : 1024 <= bpow radix2 1000) by (change 1024 with (bpow radix2 10); apply bpow_le; lia).
  assert (G2 : is_finite (lit64 1 (-1)) = true /\ B2R (lit64 1 (-1)) = / 2).
  { destruct (lit_correct 1 (-1)) as [F E]; [rewrite Rabs_pos_eq; cbn; cbn in BG; lra|]. split; [exact F|]. rewrite E. rewrite rnd_rep; [cbn; lra|]. apply rep_F2R; lia. }
  destruct G2 as [FG EG]. destruct (value (-1)%Z) as [FM EM]; [lia|]. change (INR (length tl_me)) with 1.
  set (eta' := 0 + 1 * / 100 + 2 * 1 * unit_roundoff * (1 * (7 + / 100)) + 4 * 1 * smallest). set (k := / 2 * (1 - 0) - 11 * unit_roundoff). set (rest := (eta' + 0 + unit_roundoff * (11 * 3 + 3 * eta') + 4 * smallest) / k).
  assert (HE : 0 <= eta' <= / 90) by (unfold eta'; rewrite UV; lra). assert (HK : 4 / 10 <= k <= / 2) by (unfold k; rewrite UV; lra).
  assert (HR : 0 <= rest <= / 20).
  { assert (Q : 0 <= unit_roundoff * (11 * 3 + 3 * eta') <= / 1000000) by (rewrite UV; split; [apply Rmult_le_pos; lra|lra]). assert (IK : 0 < / k <= 10 / 4) by (split; [apply Rinv_0_lt_compat; lra|replace (10 / 4) with (/ (4 / 10)) by lra; apply Rinv_le; lra]).
    unfold rest, Rdiv. split; [apply Rmult_le_pos; lra|]. apply Rle_trans with (/ 80 * (10 / 4)); [apply Rmult_le_compat; lra|lra]. }
  destruct (C211_loop tl_lm tl_me tl_ctrl (fun _ => 1) (/ 1000) 20000 64 ([189], [630]) (/ 2) 7 0 0 0 3 3 7 (/ 100) 1 (fun _ _ => 3) (fun _ => rising) (repeat tl_slopes N) (repeat tl_responds N)) as (s & outs & R1 & R2 & R3); try lra.
  - constructor; [|constructor]. cbn [snd]. rewrite EG. split; [exact FG|lra].
  - constructor; [exact usable_plain|constructor].
  - reflexivity.
  - constructor; [|constructor]. split; [reflexivity|]. unfold weight. cbn [map fold_right]. rewrite EM. rewrite Rabs_left; lra.
  - constructor; [constructor; [exact FM|constructor]|constructor].
  - change (INR (length tl_me)) with 1. rewrite UV. lra.
  - change (INR (length tl_me)) with 1. fold eta' k. fold rest. lra.
  - change (INR (length tl_me)) with 1. fold eta'. lra.
  - intros i x _. rewrite Rabs_pos_eq; lra.
  - intros i x _. rewrite Rminus_diag_eq, Rabs_R0; [lra|reflexivity].
  - intros x _. rewrite Rabs_pos_eq; lra.
  - intros i _. exact tl_corrects.
  - intros i sl c Hs HW. apply nth_error_In, repeat_spec in Hs. rewrite Hs. exact (tl_measured c HW).
  - clear. induction N as [|N IH]; constructor; [|exact IH]. intro c. constructor; [apply dotsum_ok|constructor].
  - exists s, outs. split; [exact R1|]. split; [rewrite R2; apply repeat_length|]. intros i c Hc. destruct (R3 i c Hc) as [L H]. change (INR (length tl_me)) with 1 in H. fold eta' k in H. fold rest in H.
    destruct c as [|x [|]]; try discriminate L. destruct (H 0%nat ltac:(cbn; lia)) as [F D]. cbn [nth] in F, D. exists x. split; [reflexivity|]. split; [exact F|]. rewrite Rabs_minus_sym. eapply Rle_trans; [exact D|].
    assert (P : (1 - k) ^ i <= (6 / 10) ^ i) by (apply pow_incr; lra). lra.
Qed.
(** The same a frame late with gain 1/4. *)
Definition late_lm : list (mirror64 * b64) := [(tilter, lit64 1 (-2))].
Example C211_delay_instance : forall N : nat, exists s outs, fl_run (integrators late_lm) 1 (fl_init (integrators late_lm)) (repeat tl_responds N) = Ok (s, outs) /\ length outs = N /\
  forall i c, nth_error outs i = Some c -> exists x, c = [x] /\ is_finite x = true /\ Rabs (B2R x - 3) <= (82 / 100) ^ ((i - 1) / 3) * 3 + / 20.
Proof.
  intro N. pose proof u_val as UV. pose proof s_pos as S0. assert (S1 : smallest <= / 1048576) by (change (/ 1048576) with (bpow radix2 (-20)); apply bpow_le; lia).
  assert (BG : 1024 <= bpow radix2 1000) by (change 1024 with (bpow radix2 10); apply bpow_le; lia). destruct fy_gain as [FG EG]. destruct (value (-1)%Z) as [FM EM]; [lia|].
  set (eta' := 0 + 1 * / 100 + 2 * 1 * unit_roundoff * (1 * (7 + / 100)) + 4 * 1 * smallest). set (noise := eta' + (unit_roundoff * (3 + 7 * 7 + 3 * eta') + 3 * smallest) / / 4).
  set (rate := / 4 * (1 - 0) - 1 * (/ 4 * / 4) * (1 + 0)). set (left := (0 + / 4 * (noise + 0 * (1 * 0) + 1 * (/ 4 * (noise + (1 + 0) * (1 * 0))))) / rate).
  assert (HE : 0 <= eta' <= / 90) by (unfold eta'; rewrite UV; lra). assert (HK : rate = 3 / 16) by (unfold rate; lra).
  assert (Q : 0 <= unit_roundoff * (3 + 7 * 7 + 3 * eta') <= / 1000000) by (rewrite UV; split; [apply Rmult_le_pos; lra|lra]).
  assert (HN : 0 <= noise <= / 80) by (unfold noise, Rdiv; rewrite Rinv_inv; lra). assert (HL : 0 <= left <= / 20) by (unfold left; rewrite HK; lra).
  destruct (C211_delay late_lm tl_me tl_ctrl (fun _ => 1) (/ 1000) 20000 64 ([189], [630]) (/ 4) (/ 4) 7 0 0 0 3 3 7 (/ 100) 1 1 (fun _ _ => 3) (fun _ => rising) (repeat tl_slopes N) (repeat tl_responds N)) as (s & outs & R1 & R2 & R3); try lra;
    try (change (INR (length tl_me)) with 1; change (INR 1) with 1; fold eta' noise rate; fold left; rewrite ?UV; lra).
  - constructor; [|constructor]. cbn [snd]. rewrite EG. split; [exact FG|lra].
  - constructor; [exact usable_plain|constructor].
  - reflexivity.
  - constructor; [|constructor]. split; [reflexivity|]. unfold weight. cbn [map fold_right]. rewrite EM. rewrite Rabs_left; lra.
  - constructor; [constructor; [exact FM|constructor]|constructor].
  - intros i x _. rewrite Rabs_pos_eq; lra.
  - intros i x _. rewrite Rminus_diag_eq, Rabs_R0; [lra|reflexivity].
  - intros x _. rewrite Rabs_pos_eq; lra.
  - intros i _. exact tl_corrects.
  - intros i sl c Hs HW. apply nth_error_In, repeat_spec in Hs. rewrite Hs. exact (tl_measured c HW).
  - clear. induction N as [|N IH]; constructor; [|exact IH]. intro c. constructor; [apply dotsum_ok|constructor].
  - exists s, outs. split; [exact R1|]. split; [rewrite R2; apply repeat_length|]. intros i c Hc. destruct (R3 i c Hc) as [L H]. change (INR (length tl_me)) with 1 in H. change (INR 1) with 1 in H. fold eta' in H. fold noise rate in H. fold left in H.
    destruct c as [|x [|]]; try discriminate L. destruct (H 0%nat ltac:(cbn; lia)) as [F D]. cbn [nth] in F, D. exists x. split; [reflexivity|]. split; [exact F|]. rewrite Rabs_minus_sym. eapply Rle_trans; [exact D|]. change (2 * 1 + 1)%nat with 3%nat.
    assert (P : (1 - rate) ^ ((i - 1) / 3) <= (82 / 100) ^ ((i - 1) / 3)) by (apply pow_incr; lra). lra.
Qed.

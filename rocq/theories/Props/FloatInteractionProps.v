(** Property theorem C212: a control matrix that inverts the interaction matrix closes the loop in floating-point arithmetic. *)
From Coq Require Import ZArith List.
From Flocq Require Import Core BinarySingleNaN.
From Verif.Base Require Import Float64 Py.
From Verif.Model Require Import FloatInterp FloatLos FloatLoop FloatDot FloatGradChain FloatMirror FloatDriven FloatWhole.
From Verif.Spec Require Import FloatLoopSpec FloatDotSpec FloatInterpSpec FloatLosSpec FloatGradSpec FloatGradChainSpec FloatMirrorSpec FloatDrivenSpec FloatWholeSpec.
From Verif.Proofs Require Import FloatLoopProofs FloatDotProofs FloatGradProofs FloatGradFrame FloatDrivenFrame.
From Verif.Props Require Import FloatDelayProps FloatDrivenProps FloatWholeProps.
From Coq Require Import Reals Lia Lra.
From Verif.Model Require Import FloatInteraction.
From Verif.Spec Require Import FloatInteractionSpec.
From Verif.Proofs Require Import FloatInteractionProofs.
Import ListNotations.
Local Open Scope R_scope.

(** C212: in exact arithmetic every slope is the one without commands plus, for every actuator, its command times the slope a command of one makes without screens: the interaction matrix tells
    everything about the mirrors. *)
Theorem C212_interaction :
  forall (step : grad_sensor -> R) (screens : list (farr * b64)) (ms : list mirror64) (c : list b64) (k : meas),
  exact_slope step screens ms c k = exact_slope step screens ms (no_command (actuators ms)) k + sum_to (actuators ms) (fun x => B2R (nth x c fzero) * poke step ms (actuators ms) x k).
Proof. exact affine. Qed.
Print Assumptions C212_interaction.

(** C212: C211 without assuming that the control matrix corrects: it only has to be the inverse of the interaction matrix with the sign turned, up to delta, and the commands wanted
    those that leave it, up to eta, nothing to correct. *)
Theorem C212_loop :
  forall (lm : list (mirror64 * b64)) (me : list meas) (ctrl : list (list b64)) (step : grad_sensor -> R) (theta h G : R) (b : list R * list R)
    (g range delta eta v first W S0 P e R1 : R) (wanted : nat -> nat -> R) (screens : nat -> list (farr * b64)) (slopes responds : list (list b64 -> list b64)),
  let ms := integrators lm in
  let total := fl_total ms in
  let n := INR (length me) in
  let S := S0 + range * P in
  let M := R1 * (S + e) in
  let eta' := eta + R1 * e + 2 * n * unit_roundoff * M + 4 * n * smallest in
  let k := g * (1 - delta) - 11 * unit_roundoff in
  let rest := (eta' + v + unit_roundoff * (11 * W + 3 * eta') + 4 * smallest) / k in
  Forall (fun mg => is_finite (snd mg) = true /\ g <= B2R (snd mg) <= 1) lm ->
  Forall (fun m => usable (me_sensor m) theta h G (step (me_sensor m))) me ->
  length ctrl = total -> Forall (fun row => length row = length me /\ weight row <= R1) ctrl -> Forall all_finite ctrl ->
  0 < g -> 0 <= delta < 1 -> 0 <= eta -> 0 <= v -> 0 <= first -> 0 <= W -> 0 <= S0 -> 0 <= P -> 0 <= range -> 0 <= e -> 0 <= R1 -> 0 < k ->
  n * unit_roundoff <= / 2 -> 2 * (M + 1) <= bpow radix2 1000 -> first + rest <= range -> 8 * (W + range + eta' + 1) <= bpow radix2 1000 ->
  (forall i x, (x < total)%nat -> Rabs (wanted i x) <= W) ->
  (forall i x, (x < total)%nat -> Rabs (wanted (Datatypes.S i) x - wanted i x) <= v) ->
  (forall x, (x < total)%nat -> Rabs (wanted 0%nat x) <= first) ->
  inverts step me (map fst lm) total ctrl delta ->
  (forall i, (i < length slopes)%nat -> nulls step me (map fst lm) total ctrl eta (wanted i) (screens i) /\ slopes_within step me (map fst lm) total S0 P (wanted i) (screens i) /\
    not_extreme step theta h G me (map fst lm) b total range e (wanted i) (screens i)) ->
  (forall i sl c, nth_error slopes i = Some sl -> fl_within total (wanted i) c range -> measured64 me (map fst lm) (screens i) c (sl c)) ->
  Forall2 (fun sl f => forall c, control_product ctrl (sl c) (f c)) slopes responds ->
  exists s outs, fl_run ms 0 (fl_init ms) responds = Ok (s, outs) /\ length outs = length responds /\
    forall i c, nth_error outs i = Some c -> fl_within total (wanted i) c ((1 - k) ^ i * first + rest).
Proof.
  intros lm me ctrl step theta h G b g range delta eta v first W S0 P e R1 wanted screens slopes responds ms total n S M eta' k rest HG HU LC HC HF G0 HD HN HV H1 HW HS HP0 Hr0 HE HR Hk Hu HB Hr Hb HWn Hv H0 HI HX HM HP.
  assert (HS' : 0 <= S) by (unfold S; pose proof (Rmult_le_pos _ _ Hr0 HP0); lra).
  apply (C211_loop lm me ctrl step theta h G b g range delta eta v first W S e R1 wanted screens slopes responds); try assumption.
  intros i Hi. destruct (HX i Hi) as (X1 & X2 & X3). unfold total, ms in *. rewrite acts_total in *. apply does_correct; assumption.
Qed.
Print Assumptions C212_loop.

(** C212, with commands that reach the mirrors [loop_delay] frames late. *)
Theorem C212_delay :
  forall (lm : list (mirror64 * b64)) (me : list meas) (ctrl : list (list b64)) (step : grad_sensor -> R) (theta h G : R) (b : list R * list R)
    (g gmax range delta eta v first W S0 P e R1 : R) (loop_delay : nat) (wanted : nat -> nat -> R) (screens : nat -> list (farr * b64)) (slopes responds : list (list b64 -> list b64)),
  let ms := integrators lm in
  let total := fl_total ms in
  let n := INR (length me) in
  let dl := INR loop_delay in
  let S := S0 + range * P in
  let M := R1 * (S + e) in
  let eta' := eta + R1 * e + 2 * n * unit_roundoff * M + 4 * n * smallest in
  let noise := eta' + (unit_roundoff * (W + 7 * range + 3 * eta') + 3 * smallest) / g in
  let rate := g * (1 - delta) - dl * (gmax * gmax) * (1 + delta) in
  let left := (v + gmax * (noise + delta * (dl * v) + dl * (gmax * (noise + (1 + delta) * (dl * v))))) / rate in
  Forall (fun mg => is_finite (snd mg) = true /\ g <= B2R (snd mg) <= gmax) lm ->
  Forall (fun m => usable (me_sensor m) theta h G (step (me_sensor m))) me ->
  length ctrl = total -> Forall (fun row => length row = length me /\ weight row <= R1) ctrl -> Forall all_finite ctrl ->
  0 < g -> g <= gmax -> gmax <= 1 -> 0 <= delta < 1 -> 0 <= eta -> 0 <= v -> 0 <= first -> 0 <= W -> 0 <= S0 -> 0 <= P -> 0 <= e -> 0 <= R1 -> 0 < rate ->
  n * unit_roundoff <= / 2 -> 2 * (M + 1) <= bpow radix2 1000 -> first + left + dl * v <= range -> 32 * (W + range + eta' + 1) <= bpow radix2 1000 -> 0 <= range ->
  (forall i x, (x < total)%nat -> Rabs (wanted i x) <= W) ->
  (forall i x, (x < total)%nat -> Rabs (wanted (Datatypes.S i) x - wanted i x) <= v) ->
  (forall x, (x < total)%nat -> Rabs (wanted 0%nat x) <= first) ->
  inverts step me (map fst lm) total ctrl delta ->
  (forall i, (i < length slopes)%nat -> nulls step me (map fst lm) total ctrl eta (wanted i) (screens i) /\ slopes_within step me (map fst lm) total S0 P (wanted i) (screens i) /\
    not_extreme step theta h G me (map fst lm) b total range e (wanted i) (screens i)) ->
  (forall i sl c, nth_error slopes i = Some sl -> fl_within total (wanted i) c range -> measured64 me (map fst lm) (screens i) c (sl c)) ->
  Forall2 (fun sl f => forall c, control_product ctrl (sl c) (f c)) slopes responds ->
  exists s outs, fl_run ms (Z.of_nat loop_delay) (fl_init ms) responds = Ok (s, outs) /\ length outs = length responds /\
    forall i c, nth_error outs i = Some c -> fl_within total (wanted i) c ((1 - rate) ^ ((i - loop_delay) / (2 * loop_delay + 1)) * first + left + dl * v).
Proof.
  intros lm me ctrl step theta h G b g gmax range delta eta v first W S0 P e R1 loop_delay wanted screens slopes responds ms total n dl S M eta' noise rate left HG HU LC HC HF G0 GG G1 HD HN HV H1 HW HS HP0 HE HR Hk Hu HB Hr Hb Hp HWn Hv H0 HI HX HM HP.
  assert (HS' : 0 <= S) by (unfold S; pose proof (Rmult_le_pos _ _ Hp HP0); lra).
  apply (C211_delay lm me ctrl step theta h G b g gmax range delta eta v first W S e R1 loop_delay wanted screens slopes responds); try assumption.
  intros i Hi. destruct (HX i Hi) as (X1 & X2 & X3). unfold total, ms in *. rewrite acts_total in *. apply does_correct; assumption.
Qed.
Print Assumptions C212_delay.

(** C212: it is enough that the control matrix inverts the interaction matrix the program measured, in floating-point arithmetic: rounding adds at most R1 * e for every actuator. *)
Theorem C212_measured :
  forall (step : grad_sensor -> R) (theta h G : R) (me : list meas) (ms : list mirror64) (size : Z) (alts : list b64) (ctrl imat : list (list b64)) (b : list R * list R) (e R1 delta : R),
  let total := actuators ms in
  Forall (fun k => usable (me_sensor k) theta h G (step (me_sensor k))) me -> 0 <= e -> Forall (fun row => length row = length me /\ weight row <= R1) ctrl ->
  (forall x k, (x < total)%nat -> In k me -> command_within (me_sensor k) theta h (no_turbulence size alts, shares 0 ms (one_command total x)) b /\ slope_error step G (shares 0 ms (one_command total x)) b k <= e) ->
  imat64 me ms size alts total imat -> inverts_measured total ctrl imat delta -> inverts step me ms total ctrl (delta + INR total * (R1 * e)).
Proof. exact measured_inverts. Qed.
Print Assumptions C212_measured.

(** Non-vacuity: the loop of C211_instance.  Its interaction matrix is [[1]], its control matrix [[-1]], the slope of the screen -3. *)
Lemma iv_poke : poke (fun _ => 1) [tilter] 1 0 (mkMeas looking true) = 1 /\ exact_slope (fun _ => 1) rising [tilter] (no_command 1) (mkMeas looking true) = -3.
Proof.
  assert (EX : forall x, exact_slope (fun _ => 1) rising [tilter] [x] (mkMeas looking true) = B2R x - 3) by exact tilt_seen. destruct (value 0%Z) as [F0 E0]; [lia|]. destruct (value 1%Z) as [F1 E1]; [lia|].
  pose proof (EX (ofZ64 0)) as X0. rewrite E0 in X0. change (no_command 1) with [ofZ64 0]. pose proof (C212_interaction (fun _ => 1) rising [tilter] [ofZ64 1] (mkMeas looking true)) as L.
  change (actuators [tilter]) with 1%nat in L. change (no_command 1) with [ofZ64 0] in L. rewrite EX, X0 in L. cbn [sum_to nth] in L. rewrite E1 in L. split; lra.
Qed.
Lemma iv_row f : exact_command f tl_me [ofZ64 (-1)] = - f (mkMeas looking true).
Proof. destruct (value (-1)%Z) as [F1 E1]; [lia|]. unfold exact_command. cbn [combine tl_me map fold_right fst snd]. rewrite E1. ring. Qed.
Lemma iv_inverts : inverts (fun _ => 1) tl_me [tilter] 1 tl_ctrl 0.
Proof.
  intros [|[|i]] row Hr; try discriminate Hr. change (Some [ofZ64 (-1)] = Some row) in Hr. apply (f_equal (fun o => match o with Some r => r | None => [] end)) in Hr. subst row. cbn [sum_to Nat.eqb]. rewrite iv_row, (proj1 iv_poke).
  replace (- (1) + 1) with 0 by ring. rewrite Rabs_R0. lra.
Qed.
Lemma iv_nulls : nulls (fun _ => 1) tl_me [tilter] 1 tl_ctrl 0 (fun _ => 3) rising.
Proof.
  intros [|[|i]] row Hr; try discriminate Hr. change (Some [ofZ64 (-1)] = Some row) in Hr. apply (f_equal (fun o => match o with Some r => r | None => [] end)) in Hr. subst row. unfold open_command. cbn [sum_to]. rewrite !iv_row, (proj1 iv_poke), (proj2 iv_poke).
  match goal with |- Rabs ?a <= _ => replace a with 0 by ring end. rewrite Rabs_R0. lra.
Qed.
Lemma iv_slopes : slopes_within (fun _ => 1) tl_me [tilter] 1 0 1 (fun _ => 3) rising.
Proof.
  intros k [<-|[]]. cbn [sum_to]. rewrite (proj1 iv_poke), (proj2 iv_poke). split; [|rewrite Rabs_R1; lra]. match goal with |- Rabs ?a <= _ => replace a with 0 by ring end. rewrite Rabs_R0. lra.
Qed.
Lemma iv_sane : not_extreme (fun _ => 1) (/ 1000) 20000 64 tl_me [tilter] ([189], [630]) 1 7 (/ 100) (fun _ => 3) rising.
Proof.
  intros c k HW [<-|[]]. destruct (tl_command c 7 HW ltac:(lra)) as (x & -> & FX & BX & _). change (shares 0 [tilter] [x]) with [(tilter, [x])]. split; [exact (tilter_within x FX BX)|exact (tl_error x)].
Qed.
Example C212_instance : forall N : nat, exists s outs, fl_run (integrators tl_lm) 0 (fl_init (integrators tl_lm)) (repeat tl_responds N) = Ok (s, outs) /\ length outs = N /\
  forall i c, nth_error outs i = Some c -> exists x, c = [x] /\ is_finite x = true /\ Rabs (B2R x - 3) <= (6 / 10) ^ i * 3 + / 20.
Proof.
  intro N. pose proof u_val as UV. pose proof s_pos as S0. assert (S1 : smallest <= / 1048576) by (change (/ 1048576) with (bpow radix2 (-20)); apply bpow_le; lia).
  assert (BG : 1024 <= bpow radix2 1000) by (change 1024 with (bpow radix2 10); apply bpow_le; lia).
  assert (G2 : is_finite (lit64 1 (-1)) = true /\ B2R (lit64 1 (-1)) = / 2).
  { destruct (lit_correct 1 (-1)) as [F E]; [rewrite Rabs_pos_eq; cbn; cbn in BG; lra|]. split; [exact F|]. rewrite E. rewrite rnd_rep; [cbn; lra|]. apply rep_F2R; lia. }
  destruct G2 as [FG EG]. destruct (value (-1)%Z) as [FM EM]; [lia|]. change (INR (length tl_me)) with 1.
  set (eta' := 0 + 1 * / 100 + 2 * 1 * unit_roundoff * (1 * (0 + 7 * 1 + / 100)) + 4 * 1 * smallest). set (k := / 2 * (1 - 0) - 11 * unit_roundoff). set (rest := (eta' + 0 + unit_roundoff * (11 * 3 + 3 * eta') + 4 * smallest) / k).
  assert (HE : 0 <= eta' <= / 90) by (unfold eta'; rewrite UV; lra). assert (HK : 4 / 10 <= k <= / 2) by (unfold k; rewrite UV; lra).
  assert (HR : 0 <= rest <= / 20).
  { assert (Q : 0 <= unit_roundoff * (11 * 3 + 3 * eta') <= / 1000000) by (rewrite UV; split; [apply Rmult_le_pos; lra|lra]). assert (IK : 0 < / k <= 10 / 4) by (split; [apply Rinv_0_lt_compat; lra|replace (10 / 4) with (/ (4 / 10)) by lra; apply Rinv_le; lra]).
    unfold rest, Rdiv. split; [apply Rmult_le_pos; lra|]. apply Rle_trans with (/ 80 * (10 / 4)); [apply Rmult_le_compat; lra|lra]. }
  destruct (C212_loop tl_lm tl_me tl_ctrl (fun _ => 1) (/ 1000) 20000 64 ([189], [630]) (/ 2) 7 0 0 0 3 3 0 1 (/ 100) 1 (fun _ _ => 3) (fun _ => rising) (repeat tl_slopes N) (repeat tl_responds N)) as (s & outs & R1 & R2 & R3); try lra.
  - constructor; [|constructor]. cbn [snd]. rewrite EG. split; [exact FG|lra].
  - constructor; [exact usable_plain|constructor].
  - reflexivity.
  - constructor; [|constructor]. split; [reflexivity|]. unfold weight. cbn [map fold_right]. rewrite EM. rewrite Rabs_left; lra.
  - constructor; [constructor; [exact FM|constructor]|constructor].
  - change (INR (length tl_me)) with 1. rewrite UV. lra.
  - change (INR (length tl_me)) with 1. fold eta' k. fold rest. lra.
  - change (INR (length tl_me)) with 1. fold eta'. lra.
  - intros i x _. rewrite Rabs_pos_eq; lra.
  - intros i x _. rewrite Rminus_diag_eq, Rabs_R0; [lra|reflexivity].
  - intros x _. rewrite Rabs_pos_eq; lra.
  - exact iv_inverts.
  - intros i _. split; [exact iv_nulls|]. split; [exact iv_slopes|exact iv_sane].
  - intros i sl c Hs HW. apply nth_error_In, repeat_spec in Hs. rewrite Hs. exact (tl_measured c HW).
  - clear. induction N as [|N IH]; constructor; [|exact IH]. intro c. constructor; [apply dotsum_ok|constructor].
  - exists s, outs. split; [exact R1|]. split; [rewrite R2; apply repeat_length|]. intros i c Hc. destruct (R3 i c Hc) as [L H]. change (INR (length tl_me)) with 1 in H. fold eta' k in H. fold rest in H.
    destruct c as [|x [|]]; try discriminate L. destruct (H 0%nat ltac:(cbn; lia)) as [F D]. cbn [nth] in F, D. exists x. split; [reflexivity|]. split; [exact F|]. rewrite Rabs_minus_sym. eapply Rle_trans; [exact D|].
    assert (P : (1 - k) ^ i <= (6 / 10) ^ i) by (apply pow_incr; lra). lra.
Qed.
Example C212_delay_instance : forall N : nat, exists s outs, fl_run (integrators late_lm) 1 (fl_init (integrators late_lm)) (repeat tl_responds N) = Ok (s, outs) /\ length outs = N /\
  forall i c, nth_error outs i = Some c -> exists x, c = [x] /\ is_finite x = true /\ Rabs (B2R x - 3) <= (82 / 100) ^ ((i - 1) / 3) * 3 + / 20.
Proof.
  intro N. pose proof u_val as UV. pose proof s_pos as S0. assert (S1 : smallest <= / 1048576) by (change (/ 1048576) with (bpow radix2 (-20)); apply bpow_le; lia).
  assert (BG : 1024 <= bpow radix2 1000) by (change 1024 with (bpow radix2 10); apply bpow_le; lia). destruct fy_gain as [FG EG]. destruct (value (-1)%Z) as [FM EM]; [lia|].
  set (eta' := 0 + 1 * / 100 + 2 * 1 * unit_roundoff * (1 * (0 + 7 * 1 + / 100)) + 4 * 1 * smallest). set (noise := eta' + (unit_roundoff * (3 + 7 * 7 + 3 * eta') + 3 * smallest) / / 4).
  set (rate := / 4 * (1 - 0) - 1 * (/ 4 * / 4) * (1 + 0)). set (left := (0 + / 4 * (noise + 0 * (1 * 0) + 1 * (/ 4 * (noise + (1 + 0) * (1 * 0))))) / rate).
  assert (HE : 0 <= eta' <= / 90) by (unfold eta'; rewrite UV; lra). assert (HK : rate = 3 / 16) by (unfold rate; lra).
  assert (Q : 0 <= unit_roundoff * (3 + 7 * 7 + 3 * eta') <= / 1000000) by (rewrite UV; split; [apply Rmult_le_pos; lra|lra]).
  assert (HN : 0 <= noise <= / 80) by (unfold noise, Rdiv; rewrite Rinv_inv; lra). assert (HL : 0 <= left <= / 20) by (unfold left; rewrite HK; lra).
  destruct (C212_delay late_lm tl_me tl_ctrl (fun _ => 1) (/ 1000) 20000 64 ([189], [630]) (/ 4) (/ 4) 7 0 0 0 3 3 0 1 (/ 100) 1 1 (fun _ _ => 3) (fun _ => rising) (repeat tl_slopes N) (repeat tl_responds N)) as (s & outs & R1 & R2 & R3); try lra;
    try (change (INR (length tl_me)) with 1; change (INR 1) with 1; fold eta' noise rate; fold left; rewrite ?UV; lra).
  - constructor; [|constructor]. cbn [snd]. rewrite EG. split; [exact FG|lra].
  - constructor; [exact usable_plain|constructor].
  - reflexivity.
  - constructor; [|constructor]. split; [reflexivity|]. unfold weight. cbn [map fold_right]. rewrite EM. rewrite Rabs_left; lra.
  - constructor; [constructor; [exact FM|constructor]|constructor].
  - intros i x _. rewrite Rabs_pos_eq; lra.
  - intros i x _. rewrite Rminus_diag_eq, Rabs_R0; [lra|reflexivity].
  - intros x _. rewrite Rabs_pos_eq; lra.
  - exact iv_inverts.
  - intros i _. split; [exact iv_nulls|]. split; [exact iv_slopes|exact iv_sane].
  - intros i sl c Hs HW. apply nth_error_In, repeat_spec in Hs. rewrite Hs. exact (tl_measured c HW).
  - clear. induction N as [|N IH]; constructor; [|exact IH]. intro c. constructor; [apply dotsum_ok|constructor].
  - exists s, outs. split; [exact R1|]. split; [rewrite R2; apply repeat_length|]. intros i c Hc. destruct (R3 i c Hc) as [L H]. change (INR (length tl_me)) with 1 in H. change (INR 1) with 1 in H. fold eta' in H. fold noise rate in H. fold left in H.
    destruct c as [|x [|]]; try discriminate L. destruct (H 0%nat ltac:(cbn; lia)) as [F D]. cbn [nth] in F, D. exists x. split; [reflexivity|]. split; [exact F|]. rewrite Rabs_minus_sym. eapply Rle_trans; [exact D|]. change (2 * 1 + 1)%nat with 3%nat.
    assert (P : (1 - rate) ^ ((i - 1) / 3) <= (82 / 100) ^ ((i - 1) / 3)) by (apply pow_incr; lra). lra.
Qed.

(** The interaction matrix of that mirror is measured up to 1/100, and the control matrix inverts it up to that. *)
Lemma iv_blank c : is_finite c = true -> Rabs (B2R c) <= 10 -> command_within looking (/ 1000) 20000 (no_turbulence 64 [ofZ64 0], [(tilter, [c])]) ([189], [630]).
Proof.
  intros FC BC. destruct (tilter_within c FC BC) as (W1 & W2 & W3 & W4 & W5 & W6). split; [|split; [exact W2|split; [exact W3|split; [exact W4|split; [exact W5|exact W6]]]]]. change (no_turbulence 64 [ofZ64 0]) with [(mkFarr 64 64 (fun _ _ => ofZ64 0), ofZ64 0)]. cbn [fst snd].
  constructor; [|constructor]. cbn [fst snd]. split; [unfold fits; cbn [fa_rows fa_cols]; lia|]. split; [|split; apply within_plain]. intros i j Hi Hj. unfold numbers. cbn [fa_at]. destruct (value 0%Z) as [F E]; [lia|]. split; [exact F|]. rewrite E, Rabs_R0. lra.
Qed.
Example C212_measured_instance : exists imat, imat64 tl_me [tilter] 64 [ofZ64 0] 1 imat /\ inverts_measured 1 tl_ctrl imat (/ 100) /\ inverts (fun _ => 1) tl_me [tilter] 1 tl_ctrl (/ 50).
Proof.
  destruct (value 1%Z) as [F1 E1]; [lia|]. destruct (value (-1)%Z) as [FM EM]; [lia|]. assert (B1 : Rabs (B2R (ofZ64 1)) <= 10) by (rewrite E1, Rabs_R1; lra).
  set (sl := fst (driven_fun looking Double (no_turbulence 64 [ofZ64 0]) [(tilter, [ofZ64 1])])).
  assert (MS : measured64 tl_me [tilter] (no_turbulence 64 [ofZ64 0]) [ofZ64 1] [sl]).
  { unfold measured64. constructor; [|constructor]. change (dealt [tilter] [ofZ64 1]) with [(tilter, [ofZ64 1])]. cbn [me_sensor me_x].
    exists Double, (driven_fun looking Double (no_turbulence 64 [ofZ64 0]) [(tilter, [ofZ64 1])]). split; [|reflexivity]. exact (driven_fun_ok looking (/ 1000) 20000 64 1 Double (no_turbulence 64 [ofZ64 0], [(tilter, [ofZ64 1])]) ([189], [630]) usable_plain (iv_blank _ F1 B1)). }
  assert (HK : forall k, In k tl_me -> command_within (me_sensor k) (/ 1000) 20000 (no_turbulence 64 [ofZ64 0], shares 0 [tilter] [ofZ64 1]) ([189], [630]) /\ slope_error (fun _ => 1) 64 (shares 0 [tilter] [ofZ64 1]) ([189], [630]) k <= / 100).
  { intros k [<-|[]]. change (shares 0 [tilter] [ofZ64 1]) with [(tilter, [ofZ64 1])]. split; [exact (iv_blank _ F1 B1)|exact (tl_error _)]. }
  assert (HU : Forall (fun k => usable (me_sensor k) (/ 1000) 20000 64 1) tl_me) by (constructor; [exact usable_plain|constructor]).
  pose proof (measured_near (fun _ => 1) (/ 1000) 20000 64 [tilter] ([189], [630]) (/ 100) (no_turbulence 64 [ofZ64 0]) [ofZ64 1] eq_refl tl_me [sl] HU HK MS) as N.
  assert (W : weight [ofZ64 (-1)] = 1) by (unfold weight; cbn [map fold_right]; rewrite EM, Rabs_left; lra).
  pose proof (row_near _ (/ 100) tl_me [sl] N [ofZ64 (-1)] eq_refl) as D. rewrite iv_row, W in D. change [ofZ64 1] with (one_command 1 0) in D. rewrite blank_slope, (proj1 iv_poke) in D.
  assert (IM : imat64 tl_me [tilter] 64 [ofZ64 0] 1 [map (mul64 (ofZ64 (-1))) [sl]]) by (unfold imat64; cbn [seq]; constructor; [|constructor]; exists [sl]; split; [exact MS|reflexivity]).
  assert (IV : inverts_measured 1 tl_ctrl [map (mul64 (ofZ64 (-1))) [sl]] (/ 100)).
  { intros [|[|i]] row Hr; try discriminate Hr. change (Some [ofZ64 (-1)] = Some row) in Hr. apply (f_equal (fun o => match o with Some r => r | None => [] end)) in Hr. subst row. cbn [sum_to Nat.eqb]. rewrite Rplus_0_l. rewrite Rmult_1_l in D. exact D. }
  exists [map (mul64 (ofZ64 (-1))) [sl]]. split; [exact IM|]. split; [exact IV|].
  replace (/ 50) with (/ 100 + INR (actuators [tilter]) * (1 * / 100)) by (change (INR (actuators [tilter])) with 1; lra).
  apply (C212_measured (fun _ => 1) (/ 1000) 20000 64 tl_me [tilter] 64 [ofZ64 0] tl_ctrl [map (mul64 (ofZ64 (-1))) [sl]] ([189], [630]) (/ 100) 1 (/ 100) HU); [lra| |intros [|x] k Hx Hk; [exact (HK k Hk)|exfalso; change (actuators [tilter]) with 1%nat in Hx; lia]|exact IM|exact IV].
  constructor; [|constructor]. split; [reflexivity|]. rewrite W. lra.
Qed.

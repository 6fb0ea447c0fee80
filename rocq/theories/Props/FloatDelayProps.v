(** Property theorem C190, with a loop delay. *)
From Coq Require Import ZArith List.
From Flocq Require Import Core BinarySingleNaN.
From Verif.Base Require Import Float64 Py.
From Verif.Model Require Import FloatLoop.
From Verif.Spec Require Import FloatLoopSpec.
From Verif.Proofs Require Import FloatLoopProofs.
From Verif.Proofs Require Import FloatDelay.
From Coq Require Import Reals Lra Lia.
Import ListNotations.
Local Open Scope R_scope.

(** C190, part 2: the same with commands applied [loop_delay] frames late, for mirrors in closed loop with gains between g and G.  If loop_delay G^2 (1 + delta) < g (1 - delta), no
    command ever becomes infinite or NaN, the error that was there at first falls by at least the difference of the two every 2 loop_delay + 1 frames, as without rounding
    (C181), and rounding acts like noise of (u (W + 7 range + 3 eta) + 3 s) / g in the measurements, however many frames there are. *)
Theorem C190_delay :
  forall (ms : list fmirror) (g G range delta eta v first W : R) (loop_delay : nat) (wanted : nat -> nat -> R) (responds : list (list b64 -> list b64)),
  let total := fl_total ms in
  let dl := INR loop_delay in
  let noise := eta + (unit_roundoff * (W + 7 * range + 3 * eta) + 3 * smallest) / g in
  let rate := g * (1 - delta) - dl * (G * G) * (1 + delta) in
  let left := (v + G * (noise + delta * (dl * v) + dl * (G * (noise + (1 + delta) * (dl * v))))) / rate in
  Forall (fun m => fm_closed m = true /\ is_finite (fm_gain m) = true /\ g <= B2R (fm_gain m) <= G) ms ->
  0 < g -> g <= G -> G <= 1 -> 0 <= delta < 1 -> 0 <= eta -> 0 <= v -> 0 <= first -> 0 <= W -> 0 < rate ->
  first + left + dl * v <= range -> 32 * (W + range + eta + 1) <= bpow radix2 1000 -> 0 <= range ->
  (forall n x, (x < total)%nat -> Rabs (wanted n x) <= W) ->
  (forall n x, (x < total)%nat -> Rabs (wanted (S n) x - wanted n x) <= v) ->
  (forall x, (x < total)%nat -> Rabs (wanted 0%nat x) <= first) ->
  (forall n f, nth_error responds n = Some f -> fl_accurate ms range delta eta (wanted n) f) ->
  exists s outs, fl_run ms (Z.of_nat loop_delay) (fl_init ms) responds = Ok (s, outs) /\ length outs = length responds /\
    forall n c, nth_error outs n = Some c ->
      fl_within total (wanted n) c ((1 - rate) ^ ((n - loop_delay) / (2 * loop_delay + 1)) * first + left + dl * v).
Proof.
  intros ms g G range delta eta v first W loop_delay wanted responds total dl noise rate left HG G0 GG G1 HD HN HV HF HW Hr HR Hb Hp HWn Hv H0 HA.
  exact (delayed ms g G range delta eta v first W loop_delay wanted responds HG G0 GG G1 HD HN HV HF HW Hr HR Hb HWn Hv H0 HA Hp).
Qed.
Print Assumptions C190_delay.

(** Two actuators with gain 1/4, wanting 3, commands one frame late; the answer 3 - c is computed in binary64 too. *)
Definition fy_ms : list fmirror := [ mkFm 2 true (lit64 1 (-2)) ].
Definition fy_respond (c : list b64) : list b64 := map (fun x => sub64 (ofZ64 3) x) c.
Lemma fy_gain : is_finite (lit64 1 (-2)) = true /\ B2R (lit64 1 (-2)) = / 4.
Proof.
  destruct (lit_correct 1 (-2)) as [F E].
  - rewrite Rmult_1_l, Rabs_pos_eq by apply bpow_ge_0. apply bpow_le. lia.
  - split; [exact F|]. rewrite E, rnd_rep; [cbn; lra|]. apply rep_F2R; cbn; lia.
Qed.
Lemma fy_accurate : fl_accurate fy_ms 10 unit_roundoff smallest (fun _ => 3) fy_respond.
Proof.
  intros c E [LC HW] HE. change (fl_total fy_ms) with 2%nat in *. destruct c as [|c0 [|c1 [|]]]; try discriminate LC. split; [reflexivity|].
  destruct (ofZ_correct 3) as [F3 E3]; [cbn; lia|]. pose proof u_pos as U0. pose proof s_pos as S0.
  assert (BG : 10 <= bpow radix2 1000) by (apply Rle_trans with (bpow radix2 4); [cbn; lra|apply bpow_le; lia]).
  assert (SB : forall y, is_finite y = true -> Rabs (3 - B2R y) <= E -> is_finite (sub64 (ofZ64 3) y) = true /\ Rabs (B2R (sub64 (ofZ64 3) y) - (3 - B2R y)) <= unit_roundoff * E + smallest).
  { intros y FY EY. destruct (sub_correct (ofZ64 3) y F3 FY) as [F ES]; [rewrite E3; lra|]. split; [exact F|]. rewrite ES, E3.
    eapply Rle_trans; [apply rnd_any|]. assert (unit_roundoff * Rabs (3 - B2R y) <= unit_roundoff * E) by (apply Rmult_le_compat_l; lra). lra. }
  intros x m O. destruct x as [|[|x]]; cbn [fl_owner fy_ms fm_acts Nat.ltb Nat.leb Nat.sub] in O.
  - injection O as <-. destruct (HW 0%nat ltac:(lia)) as [Fc Ec]. exact (SB c0 Fc Ec).
  - injection O as <-. destruct (HW 1%nat ltac:(lia)) as [Fc Ec]. exact (SB c1 Fc Ec).
  - discriminate O.
Qed.
Example C190_delay_instance : exists s outs, fl_run fy_ms 1 (fl_init fy_ms) (repeat fy_respond 40) = Ok (s, outs) /\ length outs = 40%nat /\
  forall n c, nth_error outs n = Some c -> fl_within 2 (fun _ => 3) c (3 * (83 / 100) ^ ((n - 1) / 3) + 1000 * unit_roundoff).
Proof.
  destruct fy_gain as [FG EG]. pose proof u_pos as U0. pose proof u_small as U1. pose proof s_pos as S0.
  assert (SU : 100 * smallest <= unit_roundoff).
  { apply Rle_trans with (bpow radix2 7 * smallest); [apply Rmult_le_compat_r; [lra|cbn; lra]|]. unfold smallest, unit_roundoff. rewrite <- bpow_plus. apply bpow_le. lia. }
  set (noise := smallest + (unit_roundoff * (3 + 7 * 10 + 3 * smallest) + 3 * smallest) / / 4).
  assert (US : 0 <= unit_roundoff * smallest <= / 1024 * smallest) by (split; [apply Rmult_le_pos; lra|apply Rmult_le_compat_r; lra]).
  assert (Hn : 0 <= noise <= 300 * unit_roundoff) by (unfold noise, Rdiv; rewrite Rinv_inv; lra).
  set (rate := / 4 * (1 - unit_roundoff) - INR 1 * (/ 4 * / 4) * (1 + unit_roundoff)). assert (Hk : 17 / 100 <= rate <= 1) by (unfold rate; cbn [INR]; lra).
  set (left := (0 + / 4 * (noise + unit_roundoff * (INR 1 * 0) + INR 1 * (/ 4 * (noise + (1 + unit_roundoff) * (INR 1 * 0))))) / rate).
  assert (Hleft : 0 <= left <= 1000 * unit_roundoff).
  { assert (A : 0 <= 0 + / 4 * (noise + unit_roundoff * (INR 1 * 0) + INR 1 * (/ 4 * (noise + (1 + unit_roundoff) * (INR 1 * 0)))) <= 100 * unit_roundoff) by (cbn [INR]; lra).
    assert (I : 0 < / rate <= 100 / 17). { split; [apply Rinv_0_lt_compat; lra|]. replace (100 / 17) with (/ (17 / 100)) by lra. apply Rinv_le; lra. }
    unfold left. change (0 <= (0 + / 4 * (noise + unit_roundoff * (INR 1 * 0) + INR 1 * (/ 4 * (noise + (1 + unit_roundoff) * (INR 1 * 0))))) * / rate <= 1000 * unit_roundoff). split; [apply Rmult_le_pos; lra|]. apply Rle_trans with (100 * unit_roundoff * (100 / 17)); [apply Rmult_le_compat; lra|lra]. }
  assert (BG : 1024 <= bpow radix2 1000) by (apply Rle_trans with (bpow radix2 10); [cbn; lra|apply bpow_le; lia]).
  destruct (C190_delay fy_ms (/ 4) (/ 4) 10 unit_roundoff smallest 0 3 3 1 (fun _ _ => 3) (repeat fy_respond 40)) as (s & outs & R1 & R2 & R3); try lra.
  - repeat constructor; cbn [fm_gain]; rewrite ?EG; auto; lra.
  - fold rate. lra.
  - fold noise rate. fold left. cbn [INR]. lra.
  - intros n x _. rewrite Rabs_pos_eq; lra.
  - intros n x _. rewrite Rminus_diag_eq, Rabs_R0; [lra|reflexivity].
  - intros x _. rewrite Rabs_pos_eq; lra.
  - intros n f Hf. apply nth_error_In in Hf. apply repeat_spec in Hf. rewrite Hf. exact fy_accurate.
  - exists s, outs. split; [exact R1|]. split; [rewrite R2; apply repeat_length|]. intros n c Hc. destruct (R3 n c Hc) as [L H]. split; [exact L|]. intros x Hx.
    destruct (H x Hx) as [F E]. split; [exact F|]. fold noise rate in E. fold left in E. eapply Rle_trans; [exact E|]. change (2 * 1 + 1)%nat with 3%nat.
    assert (P : (1 - rate) ^ ((n - 1) / 3) <= (83 / 100) ^ ((n - 1) / 3)) by (apply pow_incr; lra). cbn [INR]. lra.
Qed.
(** ... and the first frames, computed: the first correction, of the slopes of frame 0, is on the mirrors in frame 2. *)
Example C190_delay_frames : match fl_run fy_ms 1 (fl_init fy_ms) (repeat fy_respond 5) with
  | Ok (_, outs) => map (map B2SF) outs = map (map B2SF) [[fzero; fzero]; [fzero; fzero]; [lit64 3 (-2); lit64 3 (-2)]; [lit64 3 (-1); lit64 3 (-1)]; [lit64 33 (-4); lit64 33 (-4)]]
  | Err _ => False
  end.
Proof. vm_compute. reflexivity. Qed.

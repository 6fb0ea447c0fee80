(** Property theorem C190: the loop in floating-point arithmetic. *)
From Coq Require Import ZArith List.
From Flocq Require Import Core BinarySingleNaN.
From Verif.Base Require Import Float64 Py.
From Verif.Model Require Import Delay.
From Verif.Model Require Import FloatLoop.
From Verif.Spec Require Import FloatLoopSpec.
From Verif.Proofs Require Import FloatLoopProofs.
From Coq Require Import Reals Lra Lia.
Import ListNotations.
Local Open Scope R_scope.

(** C190: the commands are computed in IEEE binary64.  With mirrors in closed or open loop, gains from g to 1 and no delay, for any turbulence that moves the wanted commands by at most v
    per frame within W of zero, and any mirrors and sensors whose answer misses what is left by at most the fraction delta and eta (their own rounding, and that of
    the product with the control matrix, included), no command ever becomes infinite or NaN, and the rounding errors of all frames together never move a command by more than
    about (11 * unit roundoff * W) / (g (1 - delta)): the errors fall at the rate of the exact loop, less 11 unit roundoffs, to a bound that does not depend on the number
    of frames. *)
Theorem C190_float :
  forall (ms : list fmirror) (g range delta eta v first W : R) (wanted : nat -> nat -> R) (responds : list (list b64 -> list b64)),
  let total := fl_total ms in
  let k := g * (1 - delta) - 11 * unit_roundoff in
  let rest := (eta + v + unit_roundoff * (11 * W + 3 * eta) + 4 * smallest) / k in
  Forall (fun m => is_finite (fm_gain m) = true /\ g <= B2R (fm_gain m) <= 1) ms ->
  0 < g -> 0 <= delta < 1 -> 0 <= eta -> 0 <= v -> 0 <= first -> 0 <= W -> 0 < k ->
  first + rest <= range -> 8 * (W + range + eta + 1) <= bpow radix2 1000 ->
  (forall n x, (x < total)%nat -> Rabs (wanted n x) <= W) ->
  (forall n x, (x < total)%nat -> Rabs (wanted (S n) x - wanted n x) <= v) ->
  (forall x, (x < total)%nat -> Rabs (wanted 0%nat x) <= first) ->
  (forall n f, nth_error responds n = Some f -> fl_accurate ms range delta eta (wanted n) f) ->
  exists s outs, fl_run ms 0 (fl_init ms) responds = Ok (s, outs) /\ length outs = length responds /\
    forall n c, nth_error outs n = Some c -> fl_within total (wanted n) c ((1 - k) ^ n * first + rest).
Proof.
  intros ms g range delta eta v first W wanted responds total k rest HG G0 HD HN HV HF HW Hk Hr Hb HWn Hv H0 HA.
  apply (run_ok ms g range delta eta v first W wanted HG G0 HD HN HV HF HW Hk Hr Hb HWn Hv responds 0%nat (fl_init ms)); [|exact HA].
  exact (init_ok ms g delta eta v first W wanted HG G0 HN HV HW Hk H0).
Qed.
Print Assumptions C190_float.

(** Two actuators on a mirror in closed loop and one on a mirror in open loop, gains 1/2, wanting 3; the answer is computed in binary64 too: 3 - c for the first two, 3 for the third. *)
Definition fx_ms : list fmirror := [ mkFm 2 true (lit64 1 (-1)); mkFm 1 false (lit64 1 (-1)) ].
Definition fx_respond (c : list b64) : list b64 := map (fun x => sub64 (ofZ64 3) x) (firstn 2 c) ++ [ofZ64 3].
Lemma fx_gain : is_finite (lit64 1 (-1)) = true /\ B2R (lit64 1 (-1)) = / 2.
Proof.
  destruct (lit_correct 1 (-1)) as [F E].
  - rewrite Rmult_1_l, Rabs_pos_eq by apply bpow_ge_0. apply bpow_le. lia.
  - split; [exact F|]. rewrite E, rnd_rep; [cbn; lra|]. apply rep_F2R; cbn; lia.
Qed.
Lemma fx_accurate : fl_accurate fx_ms 10 unit_roundoff smallest (fun _ => 3) fx_respond.
Proof.
  intros c E [LC HW] HE. change (fl_total fx_ms) with 3%nat in *. destruct c as [|c0 [|c1 [|c2 [|]]]]; try discriminate LC. split; [reflexivity|].
  destruct (ofZ_correct 3) as [F3 E3]; [cbn; lia|]. pose proof u_pos as U0. pose proof s_pos as S0.
  assert (BG : 10 <= bpow radix2 1000) by (apply Rle_trans with (bpow radix2 4); [cbn; lra|apply bpow_le; lia]).
  assert (SB : forall y, is_finite y = true -> Rabs (3 - B2R y) <= E -> is_finite (sub64 (ofZ64 3) y) = true /\ Rabs (B2R (sub64 (ofZ64 3) y) - (3 - B2R y)) <= unit_roundoff * E + smallest).
  { intros y FY EY. destruct (sub_correct (ofZ64 3) y F3 FY) as [F ES]; [rewrite E3; lra|]. split; [exact F|]. rewrite ES, E3.
    eapply Rle_trans; [apply rnd_any|]. assert (unit_roundoff * Rabs (3 - B2R y) <= unit_roundoff * E) by (apply Rmult_le_compat_l; lra). lra. }
  intros x m O. destruct x as [|[|[|x]]]; cbn [fl_owner fx_ms fm_acts Nat.ltb Nat.leb Nat.sub] in O.
  - injection O as <-. destruct (HW 0%nat ltac:(lia)) as [Fc Ec]. exact (SB c0 Fc Ec).
  - injection O as <-. destruct (HW 1%nat ltac:(lia)) as [Fc Ec]. exact (SB c1 Fc Ec).
  - injection O as <-. split; [exact F3|]. cbn [nth fx_respond firstn map app fm_closed]. rewrite E3. replace (3 - 3) with 0 by ring. rewrite Rabs_R0.
    destruct (HW 2%nat ltac:(lia)) as [_ Ec]. pose proof (Rabs_pos (3 - B2R c2)). cbn [nth] in Ec. assert (0 <= unit_roundoff * E) by (apply Rmult_le_pos; lra). lra.
  - discriminate O.
Qed.
Example C190_instance : exists s outs, fl_run fx_ms 0 (fl_init fx_ms) (repeat fx_respond 40) = Ok (s, outs) /\ length outs = 40%nat /\
  forall n c, nth_error outs n = Some c -> fl_within 3 (fun _ => 3) c (3 * (6 / 10) ^ n + 100 * unit_roundoff).
Proof.
  destruct fx_gain as [FG EG]. pose proof u_pos as U0. pose proof u_small as U1. pose proof s_pos as S0.
  assert (SU : smallest <= unit_roundoff) by (apply bpow_le; lia).
  set (k := / 2 * (1 - unit_roundoff) - 11 * unit_roundoff). assert (Hk : 4 / 10 <= k) by (unfold k; lra).
  set (rest := (smallest + 0 + unit_roundoff * (11 * 3 + 3 * smallest) + 4 * smallest) / k).
  assert (Hrest : 0 <= rest <= 100 * unit_roundoff).
  { assert (A : 0 <= smallest + 0 + unit_roundoff * (11 * 3 + 3 * smallest) + 4 * smallest <= 39 * unit_roundoff) by nra.
    assert (I : 0 < / k <= 5 / 2). { split; [apply Rinv_0_lt_compat; lra|]. replace (5 / 2) with (/ (4 / 10)) by lra. apply Rinv_le; lra. }
    unfold rest, Rdiv. split; [apply Rmult_le_pos; lra|]. apply Rle_trans with (39 * unit_roundoff * (5 / 2)); [apply Rmult_le_compat; lra|lra]. }
  assert (BG : 1024 <= bpow radix2 1000) by (apply Rle_trans with (bpow radix2 10); [cbn; lra|apply bpow_le; lia]).
  destruct (C190_float fx_ms (/ 2) 10 unit_roundoff smallest 0 3 3 (fun _ _ => 3) (repeat fx_respond 40)) as (s & outs & R1 & R2 & R3).
  - repeat constructor; cbn [fm_gain]; rewrite ?EG; auto; lra.
  - lra.
  - lra.
  - lra.
  - lra.
  - lra.
  - lra.
  - fold k. lra.
  - fold k. fold rest. lra.
  - lra.
  - intros n x _. rewrite Rabs_pos_eq; lra.
  - intros n x _. rewrite Rminus_diag_eq, Rabs_R0; [lra|reflexivity].
  - intros x _. rewrite Rabs_pos_eq; lra.
  - intros n f Hf. apply nth_error_In in Hf. apply repeat_spec in Hf. rewrite Hf. exact fx_accurate.
  - exists s, outs. split; [exact R1|]. split; [rewrite R2; apply repeat_length|]. intros n c Hc. destruct (R3 n c Hc) as [L H]. split; [exact L|]. intros x Hx.
    destruct (H x Hx) as [F E]. split; [exact F|]. fold k in E. fold rest in E. eapply Rle_trans; [exact E|].
    assert (P : (1 - k) ^ n <= (6 / 10) ^ n) by (apply pow_incr; unfold k; lra). lra.
Qed.
(** ... and the first frames, computed. *)
Example C190_frames : match fl_run fx_ms 0 (fl_init fx_ms) (repeat fx_respond 4) with
  | Ok (_, outs) => map (map B2SF) outs = map (map B2SF) [[fzero; fzero; fzero]; [lit64 3 (-1); lit64 3 (-1); lit64 3 (-1)]; [lit64 9 (-2); lit64 9 (-2); lit64 9 (-2)]; [lit64 21 (-3); lit64 21 (-3); lit64 21 (-3)]]
  | Err _ => False
  end.
Proof. vm_compute. reflexivity. Qed.

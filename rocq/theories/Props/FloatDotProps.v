(** Property theorem C191: the product with the control matrix in floating-point arithmetic, and the loop around it. *)
From Coq Require Import ZArith List Permutation.
From Flocq Require Import Core BinarySingleNaN.
From Verif.Base Require Import Float64 Py.
From Verif.Model Require Import FloatLoop.
From Verif.Spec Require Import FloatLoopSpec.
From Verif.Proofs Require Import FloatLoopProofs.
From Verif.Props Require Import FloatLoopProps.
From Verif.Model Require Import FloatDot.
From Verif.Spec Require Import FloatDotSpec.
From Verif.Proofs Require Import FloatDotProofs.
From Coq Require Import Reals Lra Lia.
Import ListNotations.
Local Open Scope R_scope.

(** C191, part 1: an element of the product of the control matrix with n measurements, all of them numbers, is a number, and misses the exact one by at most 2 n u times the sum of the
    absolute values of the terms (and 4 n of the smallest floats), in whatever order it is added up. *)
Theorem C191_product :
  forall (row sl : list b64) (r : b64), all_finite row -> all_finite sl -> summed (combine row sl) r ->
    let n := INR (length sl) in n * unit_roundoff <= / 2 -> 2 * (abs_sum row sl + 1) <= bpow radix2 1000 ->
    is_finite r = true /\ Rabs (B2R r - exact_sum row sl) <= 2 * n * unit_roundoff * abs_sum row sl + 4 * n * smallest.
Proof. exact product_ok. Qed.
Print Assumptions C191_product.

(** C191, part 2: so two computations of the same product, on another machine or with another number of threads, differ by no more than twice that. *)
Theorem C191_orders :
  forall (row sl : list b64) (r r' : b64), all_finite row -> all_finite sl -> summed (combine row sl) r -> summed (combine row sl) r' ->
    let n := INR (length sl) in n * unit_roundoff <= / 2 -> 2 * (abs_sum row sl + 1) <= bpow radix2 1000 ->
    Rabs (B2R r - B2R r') <= 4 * n * unit_roundoff * abs_sum row sl + 8 * n * smallest.
Proof.
  intros row sl r r' HR HS H H' n HN HB. destruct (C191_product row sl r HR HS H HN HB) as [_ E]. destruct (C191_product row sl r' HR HS H' HN HB) as [_ E'].
  replace (B2R r - B2R r') with ((B2R r - exact_sum row sl) - (B2R r' - exact_sum row sl)) by ring. unfold Rminus at 1. eapply Rle_trans; [apply Rabs_triang|].
  rewrite Rabs_Ropp. fold n in E, E'. lra.
Qed.
Print Assumptions C191_orders.

(** C191, part 3: the loop of C190 with this product, which may be added up differently in every frame.  Its rounding adds 2 n u M + 4 n s to the noise eta of the measurements, M being
    what the absolute values of the terms of an element can add up to. *)
Theorem C191_loop :
  forall (ms : list fmirror) (nmeas : nat) (ctrl : list (list b64)) (g range delta eta v first W M : R) (wanted : nat -> nat -> R)
    (slopes responds : list (list b64 -> list b64)),
  let total := fl_total ms in
  let eta' := eta + 2 * INR nmeas * unit_roundoff * M + 4 * INR nmeas * smallest in
  let k := g * (1 - delta) - 11 * unit_roundoff in
  let rest := (eta' + v + unit_roundoff * (11 * W + 3 * eta') + 4 * smallest) / k in
  Forall (fun m => is_finite (fm_gain m) = true /\ g <= B2R (fm_gain m) <= 1) ms -> length ctrl = total -> Forall all_finite ctrl ->
  0 < g -> 0 <= delta < 1 -> 0 <= eta -> 0 <= v -> 0 <= first -> 0 <= W -> 0 <= M -> 0 < k ->
  INR nmeas * unit_roundoff <= / 2 -> 2 * (M + 1) <= bpow radix2 1000 ->
  first + rest <= range -> 8 * (W + range + eta' + 1) <= bpow radix2 1000 ->
  (forall n x, (x < total)%nat -> Rabs (wanted n x) <= W) ->
  (forall n x, (x < total)%nat -> Rabs (wanted (S n) x - wanted n x) <= v) ->
  (forall x, (x < total)%nat -> Rabs (wanted 0%nat x) <= first) ->
  (forall n f, nth_error slopes n = Some f -> slopes_accurate ms nmeas ctrl range delta eta M (wanted n) f) ->
  Forall2 (fun sl f => forall c, control_product ctrl (sl c) (f c)) slopes responds ->
  exists s outs, fl_run ms 0 (fl_init ms) responds = Ok (s, outs) /\ length outs = length responds /\
    forall n c, nth_error outs n = Some c -> fl_within total (wanted n) c ((1 - k) ^ n * first + rest).
Proof.
  intros ms nmeas ctrl g range delta eta v first W M wanted slopes responds total eta' k rest HG HC HCF G0 HD HN HV HF HW HM Hk Hu HB Hr Hb HWn Hv H0 HS HR.
  assert (E0 : 0 <= eta').
  { unfold eta'. pose proof u_pos. pose proof s_pos. pose proof (pos_INR nmeas).
    assert (0 <= 2 * INR nmeas * unit_roundoff * M) by (apply Rmult_le_pos; [apply Rmult_le_pos; lra|lra]). assert (0 <= 4 * INR nmeas * smallest) by (apply Rmult_le_pos; lra). lra. }
  apply (C190_float ms g range delta eta' v first W wanted responds HG G0 HD E0 HV HF HW Hk Hr Hb HWn Hv H0).
  intros n f Hf. destruct (forall2_nth _ _ _ HR n f Hf) as (sl & Hsl & P). exact (product_accurate ms nmeas ctrl range delta eta M (wanted n) sl f HC HCF HM Hu HB (HS n sl Hsl) P).
Qed.
Print Assumptions C191_loop.

(** The mirrors of C190 with three sensors measuring 3 - c, 3 - c and 3, a control matrix of ones on the diagonal, and products added up from the right. *)
Definition fx_row (i : nat) : list b64 := map (fun j => ofZ64 (if (i =? j)%nat then 1 else 0)) (seq 0 3).
Definition fx_ctrl : list (list b64) := map fx_row (seq 0 3).
Definition fx_dot (l : list (b64 * b64)) : b64 := fold_right (fun p r => add64 (mul64 (fst p) (snd p)) r) fzero l.
Definition fx_product (s : list b64) : list b64 := map (fun row => fx_dot (combine row s)) fx_ctrl.
Lemma fx_dot_ok l : summed l (fx_dot l).
Proof.
  induction l as [|[a b] l IH]; [constructor|]. cbn [fx_dot fold_right fst snd]. apply (sum_two _ [(a, b)] l); [constructor|exact IH|reflexivity].
Qed.
Lemma fx_product_ok s : control_product fx_ctrl s (fx_product s).
Proof. unfold control_product, fx_product. induction fx_ctrl as [|r l IH]; constructor; [apply fx_dot_ok|exact IH]. Qed.
Lemma fx_01 : (is_finite (ofZ64 1) = true /\ B2R (ofZ64 1) = 1) /\ (is_finite (ofZ64 0) = true /\ B2R (ofZ64 0) = 0).
Proof. split; apply ofZ_correct; cbn; lia. Qed.
Lemma fx_ctrl_fin : Forall all_finite fx_ctrl.
Proof. destruct fx_01 as [[F1 _] [F0 _]]. unfold fx_ctrl, fx_row. cbn [seq map Nat.eqb]. repeat constructor; assumption. Qed.
Lemma fx_slopes_ok : slopes_accurate fx_ms 3 fx_ctrl 10 unit_roundoff smallest 12 (fun _ => 3) fx_respond.
Proof.
  intros c E HW HE. pose proof (fx_accurate c E HW HE) as [L A]. change (fl_total fx_ms) with 3%nat in *. pose proof HW as [LC WC].
  assert (FA : all_finite (fx_respond c)).
  { destruct c as [|c0 [|c1 [|c2 [|]]]]; try discriminate LC. pose proof (A 0%nat (mkFm 2 true (lit64 1 (-1))) eq_refl) as [A0 _]. pose proof (A 1%nat (mkFm 2 true (lit64 1 (-1))) eq_refl) as [A1 _].
    pose proof (A 2%nat (mkFm 1 false (lit64 1 (-1))) eq_refl) as [A2 _]. repeat constructor; assumption. }
  split; [exact L|]. split; [exact FA|]. intros x m row O R.
  assert (X3 : (x < 3)%nat). { assert (x < length fx_ctrl)%nat by (apply nth_error_Some; congruence). exact H. }
  destruct (A x m O) as [Fx Ex]. destruct (WC x X3) as [_ Wx].
  assert (V : exact_sum row (fx_respond c) = B2R (nth x (fx_respond c) fzero) /\ abs_sum row (fx_respond c) = Rabs (B2R (nth x (fx_respond c) fzero))).
  { destruct (fx_respond c) as [|y0 [|y1 [|y2 [|]]]]; try discriminate L. destruct fx_01 as [[_ V1] [_ V0]].
    destruct x as [|[|[|x]]]; [| | |lia]; cbn [nth_error fx_ctrl seq map] in R; injection R as <-; unfold exact_sum, abs_sum, fx_row;
    cbn [seq map Nat.eqb combine fold_right fst snd nth]; rewrite ?V1, ?V0, ?Rmult_0_l, ?Rmult_1_l, ?Rabs_R0; split; ring. }
  destruct V as [V1 V2]. rewrite V1, V2. split; [exact Ex|].
  pose proof u_pos. pose proof u_small. pose proof s_pos. pose proof s_small.
  assert (UE : unit_roundoff * E <= / 1024 * 10). { assert (0 <= E) by (pose proof (Rabs_pos (3 - B2R (nth x c fzero))); lra). apply Rmult_le_compat; lra. }
  set (t := if fm_closed m then 3 - B2R (nth x c fzero) else 3) in *. assert (T : Rabs t <= 10).
  { unfold t. destruct (fm_closed m); [lra|]. rewrite Rabs_pos_eq; lra. }
  replace (B2R (nth x (fx_respond c) fzero)) with (t + (B2R (nth x (fx_respond c) fzero) - t)) by ring. eapply Rle_trans; [apply Rabs_triang|]. lra.
Qed.
Example C191_instance : exists s outs, fl_run fx_ms 0 (fl_init fx_ms) (repeat (fun c => fx_product (fx_respond c)) 40) = Ok (s, outs) /\ length outs = 40%nat /\
  forall n c, nth_error outs n = Some c -> fl_within 3 (fun _ => 3) c (3 * (6 / 10) ^ n + 300 * unit_roundoff).
Proof.
  destruct fx_gain as [FG EG]. pose proof u_pos as U0. pose proof u_small as U1. pose proof s_pos as S0. pose proof s_small as S1.
  assert (SU : smallest <= unit_roundoff) by (apply bpow_le; lia).
  assert (SU2 : 100 * smallest <= unit_roundoff).
  { apply Rle_trans with (bpow radix2 7 * smallest); [apply Rmult_le_compat_r; [lra|cbn; lra]|]. unfold smallest, unit_roundoff. rewrite <- bpow_plus. apply bpow_le. lia. }
  assert (I3 : INR 3 = 3) by (cbn; lra).
  set (eta' := smallest + 2 * INR 3 * unit_roundoff * 12 + 4 * INR 3 * smallest). assert (He : 0 <= eta' <= 73 * unit_roundoff) by (unfold eta'; rewrite I3; lra).
  set (k := / 2 * (1 - unit_roundoff) - 11 * unit_roundoff). assert (Hk : 4 / 10 <= k) by (unfold k; lra).
  set (rest := (eta' + 0 + unit_roundoff * (11 * 3 + 3 * eta') + 4 * smallest) / k).
  assert (Hrest : 0 <= rest <= 300 * unit_roundoff).
  { assert (Q : 0 <= unit_roundoff * (3 * eta') <= unit_roundoff) by (split; [apply Rmult_le_pos; lra|rewrite <- (Rmult_1_r unit_roundoff) at 2; apply Rmult_le_compat_l; lra]).
    assert (A : 0 <= eta' + 0 + unit_roundoff * (11 * 3 + 3 * eta') + 4 * smallest <= 108 * unit_roundoff) by lra.
    assert (I : 0 < / k <= 5 / 2). { split; [apply Rinv_0_lt_compat; lra|]. replace (5 / 2) with (/ (4 / 10)) by lra. apply Rinv_le; lra. }
    unfold rest, Rdiv. split; [apply Rmult_le_pos; lra|]. apply Rle_trans with (108 * unit_roundoff * (5 / 2)); [apply Rmult_le_compat; lra|lra]. }
  assert (BG : 1024 <= bpow radix2 1000) by (apply Rle_trans with (bpow radix2 10); [cbn; lra|apply bpow_le; lia]).
  destruct (C191_loop fx_ms 3 fx_ctrl (/ 2) 10 unit_roundoff smallest 0 3 3 12 (fun _ _ => 3) (repeat fx_respond 40) (repeat (fun c => fx_product (fx_respond c)) 40)) as (s & outs & R1 & R2 & R3);
    try lra.
  - repeat constructor; cbn [fm_gain]; rewrite ?EG; auto; lra.
  - reflexivity.
  - exact fx_ctrl_fin.
  - rewrite I3. lra.
  - fold eta' k. fold rest. lra.
  - fold eta'. lra.
  - intros n x _. rewrite Rabs_pos_eq; lra.
  - intros n x _. rewrite Rminus_diag_eq, Rabs_R0; [lra|reflexivity].
  - intros x _. rewrite Rabs_pos_eq; lra.
  - intros n f Hf. apply nth_error_In in Hf. apply repeat_spec in Hf. rewrite Hf. exact fx_slopes_ok.
  - clear. generalize 40%nat. intro N. induction N as [|n IH]; constructor; [intro c; apply fx_product_ok|exact IH].
  - exists s, outs. split; [exact R1|]. split; [rewrite R2; apply repeat_length|]. intros n c Hc. destruct (R3 n c Hc) as [L H]. split; [exact L|]. intros x Hx.
    destruct (H x Hx) as [F E]. split; [exact F|]. fold eta' k in E. fold rest in E. eapply Rle_trans; [exact E|].
    assert (P : (1 - k) ^ n <= (6 / 10) ^ n) by (apply pow_incr; unfold k; lra). lra.
Qed.
(** ... and orders do matter: 2^53 + 1 - 2^53 is 0 or 1. *)
Example C191_orders_differ : exists l r r', summed l r /\ summed l r' /\ B2SF r <> B2SF r'.
Proof.
  set (o := ofZ64 1). set (b := lit64 1 53). set (m := lit64 (-1) 53).
  exists [(o, b); (o, o); (o, m)], (add64 (add64 (mul64 o b) (mul64 o o)) (mul64 o m)), (add64 (add64 (mul64 o b) (mul64 o m)) (mul64 o o)). split; [|split].
  - apply (sum_two _ [(o, b); (o, o)] [(o, m)]); [|constructor|reflexivity]. apply (sum_two _ [(o, b)] [(o, o)]); [constructor|constructor|reflexivity].
  - apply (sum_two _ [(o, b); (o, m)] [(o, o)]); [|constructor|cbn; apply perm_skip, perm_swap]. apply (sum_two _ [(o, b)] [(o, m)]); [constructor|constructor|reflexivity].
  - vm_compute. discriminate.
Qed.

(** Proofs about the loop in floating point. *)
From Coq Require Import ZArith List.
From Flocq Require Import Core Relative BinarySingleNaN.
From Verif.Base Require Import Float64 Py.
From Verif.Model Require Import Delay.
From Verif.Model Require Import FloatLoop.
From Verif.Spec Require Import FloatLoopSpec.
From Coq Require Import Reals Lra Lia.
Import ListNotations.
Local Open Scope R_scope.

Lemma u_pos : 0 < unit_roundoff. Proof. apply bpow_gt_0. Qed.
Lemma s_pos : 0 < smallest. Proof. apply bpow_gt_0. Qed.
Lemma u_small : unit_roundoff <= / 1024.
Proof. unfold unit_roundoff. replace (/ 1024) with (bpow radix2 (-10)) by (cbn; lra). apply bpow_le. lia. Qed.
Lemma s_small : smallest <= / 1024.
Proof. unfold smallest. replace (/ 1024) with (bpow radix2 (-10)) by (cbn; lra). apply bpow_le. lia. Qed.
(** the error of rounding, for all reals *)
Lemma rnd_any x : Rabs (rnd64 x - x) <= unit_roundoff * Rabs x + smallest.
Proof.
  pose proof u_pos. pose proof s_pos. pose proof (Rabs_pos x).
  destruct (Rle_lt_dec (bpow radix2 (-1022)) (Rabs x)) as [Hx|Hx].
  - pose proof (rnd_error x Hx) as E. fold unit_roundoff in E. lra.
  - assert (HU : Rabs (rnd64 x - x) <= / 2 * ulp radix2 (SpecFloat.fexp 53 1024) x) by (apply error_le_half_ulp; apply valid64).
    assert (UL : ulp radix2 (SpecFloat.fexp 53 1024) x = bpow radix2 (-1074)).
    { rewrite fexp_FLT. apply ulp_FLT_small; [reflexivity|]. eapply Rlt_trans; [exact Hx|]. apply bpow_lt. lia. }
    rewrite UL in HU. fold smallest in HU. nra.
Qed.
Lemma zero_finite : is_finite fzero = true /\ B2R fzero = 0.
Proof. apply (ofZ_correct 0). cbn. lia. Qed.

(** one step of the integrator *)
Lemma law_closed (m : fmirror) (a y : b64) t t' E g delta eta v W B :
  fm_closed m = true -> is_finite (fm_gain m) = true -> g <= B2R (fm_gain m) <= 1 -> 0 < g -> 0 <= delta < 1 -> 0 <= eta -> 0 <= W ->
  is_finite a = true -> is_finite y = true -> Rabs (t - B2R a) <= E -> Rabs (B2R y - (t - B2R a)) <= delta * E + eta -> Rabs t <= W -> Rabs (t' - t) <= v ->
  E <= B -> 8 * (W + B + eta + 1) <= bpow radix2 1000 ->
  is_finite (fl_law m a y) = true /\
  Rabs (t' - B2R (fl_law m a y)) <= (1 - (g * (1 - delta) - 11 * unit_roundoff)) * E + (eta + v + unit_roundoff * (11 * W + 3 * eta) + 4 * smallest).
Proof.
  intros HC FG HG G0 D N HW FA FY HE HM HT HV HB Hbig. unfold fl_law. rewrite HC.
  pose proof u_pos as U0. pose proof u_small as U1. pose proof s_pos as S0. pose proof s_small as S1.
  pose proof rnd_any as RA. set (u := unit_roundoff) in *. set (s := smallest) in *. clearbody u s.
  set (gx := B2R (fm_gain m)) in *. set (A := B2R a) in *. set (Y := B2R y) in *.
  assert (E0 : 0 <= E) by (pose proof (Rabs_pos (t - A)); lra).
  assert (YB : Rabs Y <= 2 * E + eta).
  { replace Y with ((Y - (t - A)) + (t - A)) by ring. eapply Rle_trans; [apply Rabs_triang|]. assert (delta * E <= 1 * E) by (apply Rmult_le_compat_r; lra). lra. }
  assert (AB : Rabs A <= W + E). { replace A with (t - (t - A)) by ring. unfold Rminus at 1. eapply Rle_trans; [apply Rabs_triang|]. rewrite Rabs_Ropp. lra. }
  assert (GY : Rabs (gx * Y) <= 2 * E + eta).
  { rewrite Rabs_mult, (Rabs_pos_eq gx) by lra. assert (gx * Rabs Y <= 1 * Rabs Y) by (apply Rmult_le_compat_r; [apply Rabs_pos|lra]). lra. }
  destruct (mul_correct (fm_gain m) y FG FY) as [F1 R1]; [fold gx Y; lra|]. fold gx Y in R1.
  pose proof (RA (gx * Y)) as Q1. rewrite <- R1 in Q1. set (p := B2R (mul64 (fm_gain m) y)) in *.
  assert (Q1' : Rabs (p - gx * Y) <= u * (2 * E + eta) + s) by (assert (u * Rabs (gx * Y) <= u * (2 * E + eta)) by (apply Rmult_le_compat_l; lra); lra).
  assert (UE : u * E <= / 1024 * E) by (apply Rmult_le_compat_r; lra). assert (UN : u * eta <= / 1024 * eta) by (apply Rmult_le_compat_r; lra).
  assert (PB : Rabs p <= 4 * E + 2 * eta + s).
  { replace p with ((p - gx * Y) + gx * Y) by ring. eapply Rle_trans; [apply Rabs_triang|]. lra. }
  assert (SB : Rabs (A + p) <= W + 5 * E + 2 * eta + s) by (eapply Rle_trans; [apply Rabs_triang|]; lra).
  destruct (add_correct a (mul64 (fm_gain m) y) FA F1) as [F2 R2]; [fold A p; lra|]. fold A p in R2.
  split; [exact F2|]. pose proof (RA (A + p)) as Q2. rewrite <- R2 in Q2. set (z := B2R (add64 a (mul64 (fm_gain m) y))) in *.
  assert (Q2' : Rabs (z - (A + p)) <= u * (W + 5 * E + 2 * eta + s) + s) by (assert (u * Rabs (A + p) <= u * (W + 5 * E + 2 * eta + s)) by (apply Rmult_le_compat_l; lra); lra).
  assert (US : u * s <= 1 * s) by (apply Rmult_le_compat_r; lra).
  (* exact step *)
  assert (EX : Rabs ((t - A) - gx * Y) <= (1 - g * (1 - delta)) * E + eta).
  { replace ((t - A) - gx * Y) with ((1 - gx) * (t - A) + - (gx * (Y - (t - A)))) by ring. eapply Rle_trans; [apply Rabs_triang|]. rewrite Rabs_Ropp, !Rabs_mult.
    rewrite (Rabs_pos_eq (1 - gx)), (Rabs_pos_eq gx) by lra.
    assert ((1 - gx) * Rabs (t - A) <= (1 - gx) * E) by (apply Rmult_le_compat_l; lra).
    assert (gx * Rabs (Y - (t - A)) <= gx * (delta * E + eta)) by (apply Rmult_le_compat_l; lra).
    assert (gx * eta <= 1 * eta) by (apply Rmult_le_compat_r; lra).
    assert (g * ((1 - delta) * E) <= gx * ((1 - delta) * E)) by (apply Rmult_le_compat_r; [apply Rmult_le_pos; lra|lra]). nra. }
  replace (t' - z) with ((t' - t) + ((t - A) - gx * Y) + - (p - gx * Y) + - (z - (A + p))) by ring.
  eapply Rle_trans; [apply Rabs_triang|]. rewrite Rabs_Ropp. eapply Rle_trans; [apply Rplus_le_compat_r; apply Rabs_triang|]. rewrite Rabs_Ropp.
  eapply Rle_trans; [apply Rplus_le_compat_r; apply Rplus_le_compat_r; apply Rabs_triang|].
  assert (0 <= u * W) by (apply Rmult_le_pos; lra). assert (0 <= u * E) by (apply Rmult_le_pos; lra). lra.
Qed.

Lemma abs6 a b c d e f : Rabs (a + b + - c + - d + - e + - f) <= Rabs a + Rabs b + Rabs c + Rabs d + Rabs e + Rabs f.
Proof. unfold Rabs. repeat destruct Rcase_abs; lra. Qed.
Lemma law_open (m : fmirror) (a y : b64) t t' E g delta eta v W B :
  fm_closed m = false -> is_finite (fm_gain m) = true -> g <= B2R (fm_gain m) <= 1 -> 0 < g -> 0 <= delta < 1 -> 0 <= eta -> 0 <= W ->
  is_finite a = true -> is_finite y = true -> Rabs (t - B2R a) <= E -> Rabs (B2R y - t) <= delta * E + eta -> Rabs t <= W -> Rabs (t' - t) <= v ->
  E <= B -> 8 * (W + B + eta + 1) <= bpow radix2 1000 ->
  is_finite (fl_law m a y) = true /\
  Rabs (t' - B2R (fl_law m a y)) <= (1 - (g * (1 - delta) - 11 * unit_roundoff)) * E + (eta + v + unit_roundoff * (11 * W + 3 * eta) + 4 * smallest).
Proof.
  intros HC FG HG G0 D N HW FA FY HE HM HT HV HB Hbig. unfold fl_law. rewrite HC.
  pose proof u_pos as U0. pose proof u_small as U1. pose proof s_pos as S0. pose proof s_small as S1. pose proof rnd_any as RA.
  assert (SU : smallest <= unit_roundoff) by (apply bpow_le; lia).
  set (u := unit_roundoff) in *. set (s := smallest) in *. clearbody u s.
  set (gx := B2R (fm_gain m)) in *. set (A := B2R a) in *. set (Y := B2R y) in *.
  assert (E0 : 0 <= E) by (pose proof (Rabs_pos (t - A)); lra).
  assert (DE : delta * E <= 1 * E) by (apply Rmult_le_compat_r; lra).
  assert (YB : Rabs Y <= W + E + eta).
  { replace Y with ((Y - t) + t) by ring. eapply Rle_trans; [apply Rabs_triang|]. lra. }
  assert (AB : Rabs A <= W + E). { replace A with (t - (t - A)) by ring. unfold Rminus at 1. eapply Rle_trans; [apply Rabs_triang|]. rewrite Rabs_Ropp. lra. }
  assert (GY : Rabs (gx * Y) <= W + E + eta).
  { rewrite Rabs_mult, (Rabs_pos_eq gx) by lra. assert (gx * Rabs Y <= 1 * Rabs Y) by (apply Rmult_le_compat_r; [apply Rabs_pos|lra]). lra. }
  assert (BG : 8 <= bpow radix2 1000) by (apply Rle_trans with (bpow radix2 3); [cbn; lra|apply bpow_le; lia]).
  assert (X0 : 0 <= W + E + eta) by lra. assert (XB : 8 * (W + E + eta + 1) <= bpow radix2 1000) by lra.
  assert (UX : 0 <= u * (W + E + eta) <= / 1024 * (W + E + eta)) by (split; [apply Rmult_le_pos; lra|apply Rmult_le_compat_r; lra]).
  destruct (mul_correct (fm_gain m) y FG FY) as [F1 R1]; [fold gx Y; lra|]. fold gx Y in R1.
  pose proof (RA (gx * Y)) as Q1. rewrite <- R1 in Q1. set (p := B2R (mul64 (fm_gain m) y)) in *.
  assert (Q1' : Rabs (p - gx * Y) <= u * (W + E + eta) + s) by (assert (u * Rabs (gx * Y) <= u * (W + E + eta)) by (apply Rmult_le_compat_l; lra); lra).
  assert (PB : Rabs p <= (W + E + eta) + u * (W + E + eta) + s).
  { replace p with ((p - gx * Y) + gx * Y) by ring. eapply Rle_trans; [apply Rabs_triang|]. lra. }
  destruct (ofZ_correct 1) as [FO EO]; [cbn; lia|].
  assert (OB : Rabs (1 - gx) <= 1) by (rewrite Rabs_pos_eq; lra).
  destruct (sub_correct (ofZ64 1) (fm_gain m) FO FG) as [F3 R3]; [rewrite EO; fold gx; lra|]. rewrite EO in R3. fold gx in R3.
  pose proof (RA (1 - gx)) as Q3. rewrite <- R3 in Q3. set (d := B2R (sub64 (ofZ64 1) (fm_gain m))) in *.
  assert (Q3' : Rabs (d - (1 - gx)) <= u + s) by (assert (u * Rabs (1 - gx) <= u * 1) by (apply Rmult_le_compat_l; lra); lra).
  assert (Q3'' : Rabs (d - (1 - gx)) <= 2 * u) by lra.
  assert (DA : Rabs (d * A - (1 - gx) * A) <= 2 * u * (W + E)).
  { replace (d * A - (1 - gx) * A) with ((d - (1 - gx)) * A) by ring. rewrite Rabs_mult. apply Rmult_le_compat; try apply Rabs_pos; lra. }
  assert (OA : Rabs ((1 - gx) * A) <= W + E).
  { rewrite Rabs_mult. assert (Rabs (1 - gx) * Rabs A <= 1 * Rabs A) by (apply Rmult_le_compat_r; [apply Rabs_pos|lra]). lra. }
  assert (UWE : 0 <= u * (W + E) <= / 1024 * (W + E)) by (split; [apply Rmult_le_pos; lra|apply Rmult_le_compat_r; lra]).
  assert (DAB : Rabs (d * A) <= 2 * (W + E)).
  { replace (d * A) with ((d * A - (1 - gx) * A) + (1 - gx) * A) by ring. eapply Rle_trans; [apply Rabs_triang|]. lra. }
  destruct (mul_correct (sub64 (ofZ64 1) (fm_gain m)) a F3 FA) as [F4 R4]; [fold d A; lra|]. fold d A in R4.
  pose proof (RA (d * A)) as Q4. rewrite <- R4 in Q4. set (q := B2R (mul64 (sub64 (ofZ64 1) (fm_gain m)) a)) in *.
  assert (Q4' : Rabs (q - d * A) <= 2 * (u * (W + E)) + s) by (assert (u * Rabs (d * A) <= u * (2 * (W + E))) by (apply Rmult_le_compat_l; lra); lra).
  assert (QB : Rabs q <= 3 * (W + E) + s).
  { replace q with ((q - d * A) + d * A) by ring. eapply Rle_trans; [apply Rabs_triang|]. lra. }
  assert (SB : Rabs (p + q) <= 5 * (W + E) + 2 * eta + 2 * s) by (eapply Rle_trans; [apply Rabs_triang|]; lra).
  destruct (add_correct (mul64 (fm_gain m) y) (mul64 (sub64 (ofZ64 1) (fm_gain m)) a) F1 F4) as [F2 R2]; [fold p q; lra|]. fold p q in R2.
  split; [exact F2|]. pose proof (RA (p + q)) as Q2. rewrite <- R2 in Q2.
  set (z := B2R (add64 (mul64 (fm_gain m) y) (mul64 (sub64 (ofZ64 1) (fm_gain m)) a))) in *.
  assert (Q2' : Rabs (z - (p + q)) <= u * (5 * (W + E) + 2 * eta + 2 * s) + s) by (assert (u * Rabs (p + q) <= u * (5 * (W + E) + 2 * eta + 2 * s)) by (apply Rmult_le_compat_l; lra); lra).
  assert (US : u * s <= / 1024 * s) by (apply Rmult_le_compat_r; lra).
  assert (EX : Rabs ((1 - gx) * (t - A) - gx * (Y - t)) <= (1 - g * (1 - delta)) * E + eta).
  { unfold Rminus at 1. eapply Rle_trans; [apply Rabs_triang|]. rewrite Rabs_Ropp, !Rabs_mult.
    rewrite (Rabs_pos_eq (1 - gx)), (Rabs_pos_eq gx) by lra.
    assert ((1 - gx) * Rabs (t - A) <= (1 - gx) * E) by (apply Rmult_le_compat_l; lra).
    assert (gx * Rabs (Y - t) <= gx * (delta * E + eta)) by (apply Rmult_le_compat_l; lra).
    assert (gx * eta <= 1 * eta) by (apply Rmult_le_compat_r; lra).
    assert (g * ((1 - delta) * E) <= gx * ((1 - delta) * E)) by (apply Rmult_le_compat_r; [apply Rmult_le_pos; lra|lra]). nra. }
  replace (t' - z) with ((t' - t) + ((1 - gx) * (t - A) - gx * (Y - t)) + - (p - gx * Y) + - (d * A - (1 - gx) * A) + - (q - d * A) + - (z - (p + q))) by ring.
  eapply Rle_trans; [apply abs6|].
  assert (0 <= u * W) by (apply Rmult_le_pos; lra). assert (0 <= u * E) by (apply Rmult_le_pos; lra). assert (0 <= u * eta) by (apply Rmult_le_pos; lra). lra.
Qed.
(** both kinds of mirror *)
Lemma law_step (m : fmirror) (a y : b64) t t' E g delta eta v W B :
  is_finite (fm_gain m) = true -> g <= B2R (fm_gain m) <= 1 -> 0 < g -> 0 <= delta < 1 -> 0 <= eta -> 0 <= W ->
  is_finite a = true -> is_finite y = true -> Rabs (t - B2R a) <= E -> Rabs (B2R y - (if fm_closed m then t - B2R a else t)) <= delta * E + eta -> Rabs t <= W -> Rabs (t' - t) <= v ->
  E <= B -> 8 * (W + B + eta + 1) <= bpow radix2 1000 ->
  is_finite (fl_law m a y) = true /\
  Rabs (t' - B2R (fl_law m a y)) <= (1 - (g * (1 - delta) - 11 * unit_roundoff)) * E + (eta + v + unit_roundoff * (11 * W + 3 * eta) + 4 * smallest).
Proof.
  intros FG HG G0 D N HW FA FY HE HM HT HV HB Hbig. destruct (fm_closed m) eqn:HC; [eapply law_closed; eauto|eapply law_open; eauto].
Qed.
Lemma apply_length ms : forall a new, length a = length new -> length (fl_apply_gain ms a new) = length a.
Proof.
  induction ms as [|m r IH]; intros a new E; [reflexivity|]. cbn [fl_apply_gain]. rewrite app_length, map_length, combine_length, !firstn_length, IH, skipn_length; [lia|].
  rewrite !skipn_length. lia.
Qed.
Lemma apply_nth ms : forall a new x, length a = fl_total ms -> length new = length a -> (x < fl_total ms)%nat ->
  exists m, fl_owner ms x = Some m /\ In m ms /\ nth x (fl_apply_gain ms a new) fzero = fl_law m (nth x a fzero) (nth x new fzero).
Proof.
  induction ms as [|m r IH]; intros a new x La Ln Hx; [cbn in Hx; lia|]. cbn [fl_apply_gain fl_total fold_right] in *. fold (fl_total r) in *.
  assert (LC : length (map (fun p => fl_law m (fst p) (snd p)) (combine (firstn (fm_acts m) a) (firstn (fm_acts m) new))) = fm_acts m)
    by (rewrite map_length, combine_length, !firstn_length; lia).
  assert (FN : forall (l : list b64) n i, (i < n)%nat -> nth i (firstn n l) fzero = nth i l fzero).
  { clear. induction l as [|h l IH]; intros n i Hi; [rewrite firstn_nil; reflexivity|]. destruct n; [lia|]. destruct i; [reflexivity|]. cbn. apply IH. lia. }
  assert (SN : forall (l : list b64) n i, nth i (skipn n l) fzero = nth (n + i) l fzero).
  { clear. induction l as [|h l IH]; intros n i; [rewrite skipn_nil; destruct i, n; reflexivity|]. destruct n; [reflexivity|]. cbn. apply IH. }
  destruct (lt_dec x (fm_acts m)) as [H|H].
  - exists m. split; [cbn [fl_owner]; destruct (Nat.ltb_spec x (fm_acts m)); [reflexivity|lia]|]. split; [left; reflexivity|]. rewrite app_nth1 by lia.
    set (h := fun p : b64 * b64 => fl_law m (fst p) (snd p)) in *. rewrite (nth_indep _ fzero (h (fzero, fzero))) by lia. rewrite map_nth, combine_nth by (rewrite !firstn_length; lia). unfold h. cbn [fst snd].
    rewrite !FN by lia. reflexivity.
  - rewrite app_nth2 by lia. rewrite LC. destruct (IH (skipn (fm_acts m) a) (skipn (fm_acts m) new) (x - fm_acts m)%nat) as (m' & O & I & E).
    + rewrite skipn_length. lia.
    + rewrite !skipn_length. lia.
    + lia.
    + exists m'. split; [cbn [fl_owner]; destruct (Nat.ltb_spec x (fm_acts m)); [lia|exact O]|]. split; [right; exact I|]. rewrite E, !SN. replace (fm_acts m + (x - fm_acts m))%nat with x by lia. reflexivity.
Qed.
Lemma delay_none (a : list b64) : delay fl_zero_like [] a 0 = ([], Ok a).
Proof. reflexivity. Qed.

Section Run.
  Variable ms : list fmirror.
  Variables g range delta eta v first W : R.
  Variable wanted : nat -> nat -> R.
  Let total := fl_total ms.
  Hypothesis HG : Forall (fun m => is_finite (fm_gain m) = true /\ g <= B2R (fm_gain m) <= 1) ms.
  Hypothesis G0 : 0 < g.
  Hypothesis HD : 0 <= delta < 1.
  Hypothesis HN : 0 <= eta.
  Hypothesis HV : 0 <= v.
  Hypothesis HF : 0 <= first.
  Hypothesis HW : 0 <= W.
  Let k := g * (1 - delta) - 11 * unit_roundoff.
  Let R := (eta + v + unit_roundoff * (11 * W + 3 * eta) + 4 * smallest) / k.
  Hypothesis Hk : 0 < k.
  Hypothesis Hr : first + R <= range.
  Hypothesis Hbig : 8 * (W + range + eta + 1) <= bpow radix2 1000.
  Hypothesis HWn : forall n x, (x < total)%nat -> Rabs (wanted n x) <= W.
  Hypothesis Hv : forall n x, (x < total)%nat -> Rabs (wanted (S n) x - wanted n x) <= v.

  Lemma R_eq : R * k = eta + v + unit_roundoff * (11 * W + 3 * eta) + 4 * smallest.
  Proof. unfold R. field. lra. Qed.
  Lemma R_pos : 0 <= R.
  Proof. pose proof u_pos. pose proof s_pos. unfold R. apply Rmult_le_pos; [|left; apply Rinv_0_lt_compat; exact Hk]. assert (0 <= unit_roundoff * (11 * W + 3 * eta)) by (apply Rmult_le_pos; lra). lra. Qed.
  Lemma pow_bound n : (fl_total ms > 0)%nat -> 0 <= (1 - k) ^ n <= 1.
  Proof.
    intros Ht. assert (K1 : k <= 1).
    { destruct ms as [|m r]; [cbn in Ht; lia|]. inversion HG as [|? ? (_ & H) _]; subst. pose proof u_pos.
      assert (g * (1 - delta) <= 1 * (1 - delta)) by (apply Rmult_le_compat_r; lra). unfold k. lra. }
    induction n as [|n IH]; [cbn; lra|]. cbn [pow]. nra.
  Qed.
  Definition state_ok (n : nat) (s : fstate) : Prop :=
    fs_buf s = [] /\ length (fs_cmds s) = total /\ length (fs_new s) = total /\
    fl_within total (wanted n) (fl_apply_gain ms (fs_cmds s) (fs_new s)) ((1 - k) ^ n * first + R).

  Lemma run_ok responds : forall n s, state_ok n s ->
    (forall i f, nth_error responds i = Some f -> fl_accurate ms range delta eta (wanted (n + i)%nat) f) ->
    exists s' outs, fl_run ms 0 s responds = Ok (s', outs) /\ length outs = length responds /\
      forall i c, nth_error outs i = Some c -> fl_within total (wanted (n + i)%nat) c ((1 - k) ^ (n + i) * first + R).
  Proof.
    induction responds as [|f responds IH]; intros n s HS HA.
    - exists s, []. split; [reflexivity|]. split; [reflexivity|]. intros [|i] c Hc; discriminate.
    - destruct HS as (S1 & S2 & S3 & S4). set (a := fl_apply_gain ms (fs_cmds s) (fs_new s)) in *.
      assert (La : length a = total) by apply S4.
      assert (HA0 : fl_accurate ms range delta eta (wanted n) f) by (pose proof (HA 0%nat f eq_refl) as X; rewrite Nat.add_0_r in X; exact X).
      assert (EB : (fl_total ms > 0)%nat -> (1 - k) ^ n * first + R <= range) by (intros Ht; pose proof (pow_bound n Ht); pose proof R_pos; nra).
      assert (NX : length (f a) = total /\ fl_within total (wanted (S n)) (fl_apply_gain ms a (f a)) ((1 - k) ^ S n * first + R)).
      { destruct (Nat.eq_dec total 0) as [Z|Z].
        - assert (EE : fl_within total (wanted n) a 0) by (split; [exact La|intros x Hx; lia]).
          destruct (HA0 a 0 EE) as [L1 _]; [pose proof R_pos; lra|]. change (fl_total ms) with total in L1. split; [exact L1|]. split; [rewrite apply_length; congruence|]. intros x Hx. lia.
        - assert (Ht : (fl_total ms > 0)%nat) by (unfold total in Z; lia). specialize (EB Ht). destruct (HA0 a _ S4 EB) as [L1 AC]. change (fl_total ms) with total in L1. split; [exact L1|].
          split; [rewrite apply_length; congruence|]. intros x Hx. destruct (apply_nth ms a (f a) x La ltac:(congruence) Hx) as (m & O & I & E). rewrite E.
          rewrite Forall_forall in HG. destruct (HG m I) as (C2 & C3). destruct S4 as [_ S4]. destruct (S4 x Hx) as [Fa Ea]. destruct (AC x m O) as [Fy Ey].
          destruct (law_step m _ _ (wanted n x) (wanted (S n) x) _ g delta eta v W range C2 C3 G0 HD HN HW Fa Fy Ea Ey (HWn n x Hx) (Hv n x Hx) EB Hbig) as [Q1 Q2].
          split; [exact Q1|]. fold k in Q2. rewrite <- R_eq in Q2. eapply Rle_trans; [exact Q2|]. cbn [pow]. right. ring. }
      destruct NX as [L1 NX].
      destruct (IH (S n) (mkFs a [] (f a))) as (s' & outs & R1 & R2 & R3).
      { split; [reflexivity|]. split; [exact La|]. split; [exact L1|exact NX]. }
      { intros i f' Hf. replace (S n + i)%nat with (n + S i)%nat by lia. apply HA. exact Hf. }
      exists s', (a :: outs). split; [|split; [cbn; congruence|]].
      + cbn [fl_run]. unfold fl_frame. fold a. rewrite S1, delay_none. cbn [bind fst snd]. rewrite R1. reflexivity.
      + intros [|i] c Hc; cbn [nth_error] in Hc; [injection Hc as <-; rewrite Nat.add_0_r; exact S4|]. replace (n + S i)%nat with (S n + i)%nat by lia. apply R3. exact Hc.
  Qed.
  Hypothesis H0 : forall x, (x < total)%nat -> Rabs (wanted 0%nat x) <= first.
  Lemma init_ok : state_ok 0 (fl_init ms).
  Proof.
    unfold state_ok, fl_init. cbn [fs_buf fs_cmds fs_new]. rewrite !repeat_length. split; [reflexivity|]. split; [reflexivity|]. split; [reflexivity|].
    split; [rewrite apply_length; rewrite !repeat_length; reflexivity|]. intros x Hx.
    destruct (apply_nth ms (repeat fzero (fl_total ms)) (repeat fzero (fl_total ms)) x) as (m & O & I & E); [apply repeat_length|reflexivity|exact Hx|]. rewrite E.
    assert (N0 : nth x (repeat fzero (fl_total ms)) fzero = fzero) by apply nth_repeat. rewrite N0.
    rewrite Forall_forall in HG. destruct (HG m I) as (C2 & C3). destruct zero_finite as [Z1 Z2].
    assert (RZ : rnd64 0 = 0) by apply round_0, valid_rnd_N.
    assert (MZ : forall w, is_finite w = true -> is_finite (mul64 w fzero) = true /\ B2R (mul64 w fzero) = 0).
    { intros w Fw. destruct (mul_correct w fzero Fw Z1) as [F1 E1]; [rewrite Z2, Rmult_0_r, Rabs_R0; apply bpow_ge_0|]. rewrite Z2, Rmult_0_r, RZ in E1. auto. }
    assert (AZ : forall p q, is_finite p = true -> is_finite q = true -> B2R p = 0 -> B2R q = 0 -> is_finite (add64 p q) = true /\ B2R (add64 p q) = 0).
    { intros p q Fp Fq Ep Eq. destruct (add_correct p q Fp Fq) as [F2 E2]; [rewrite Ep, Eq, Rplus_0_r, Rabs_R0; apply bpow_ge_0|]. rewrite Ep, Eq, Rplus_0_r, RZ in E2. auto. }
    destruct (MZ _ C2) as [F1 E1].
    assert (LW : is_finite (fl_law m fzero fzero) = true /\ B2R (fl_law m fzero fzero) = 0).
    { unfold fl_law. destruct (fm_closed m); [apply AZ; auto|]. destruct (ofZ_correct 1) as [FO EO]; [cbn; lia|].
      destruct (sub_correct (ofZ64 1) (fm_gain m) FO C2) as [F3 _].
      { rewrite EO. rewrite Rabs_pos_eq by lra. apply Rle_trans with (bpow radix2 0); [cbn; lra|apply bpow_le; lia]. }
      destruct (MZ _ F3) as [F4 E4]. apply AZ; auto. }
    destruct LW as [F2 E2]. split; [exact F2|]. rewrite E2. cbn [pow]. replace (wanted 0%nat x - 0) with (wanted 0%nat x) by ring. pose proof R_pos. specialize (H0 x Hx). lra.
  Qed.
End Run.

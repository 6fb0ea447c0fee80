(** Proofs about the loop in floating point with a loop delay. *)
From Coq Require Import ZArith List.
From Flocq Require Import Core Relative BinarySingleNaN.
From Verif.Base Require Import Float64 Py PyFacts.
From Verif.Model Require Import Delay FloatLoop.
From Verif.Spec Require Import FloatLoopSpec.
From Verif.Proofs Require Import DelayProofs FloatLoopProofs.
From Coq Require Import Reals Lra Lia.
Import ListNotations.
Local Open Scope R_scope.

(** The recurrence over the reals (compare Proofs/RobustDelay.v) *)
Section Steps.
  Variables (Y N d : nat) (t u : nat -> nat -> R) (g G range delta eta v M L : R).
  Let dl := INR d.
  Let rate := g * (1 - delta) - dl * (G * G) * (1 + delta).
  Hypothesis Hg : 0 < g.
  Hypothesis HG : g <= G.
  Hypothesis HG1 : G <= 1.
  Hypothesis Hd0 : 0 <= delta.
  Hypothesis Hd1 : delta < 1.
  Hypothesis He : 0 <= eta.
  Hypothesis Hv : 0 <= v.
  Hypothesis HM : 0 <= M.
  Hypothesis Hr : 0 < rate.
  Hypothesis HL : L * rate = v + G * (eta + delta * (dl * v) + dl * (G * (eta + (1 + delta) * (dl * v)))).
  Hypothesis HR : M + L + dl * v <= range.
  Hypothesis Ht : forall n y, (y < Y)%nat -> Rabs (t (S n) y - t n y) <= v.
  Hypothesis H0 : forall y, (y < Y)%nat -> Rabs (t 0%nat y - u 0%nat y) <= M.
  Hypothesis Hu : forall n E, (n < N)%nat -> (forall y, (y < Y)%nat -> Rabs (t n y - u (n - d)%nat y) <= E) -> E <= range ->
    (forall y, (y < Y)%nat -> Rabs (t n y - u n y) <= M + L) ->
    forall y, (y < Y)%nat -> exists gx m, g <= gx <= G /\ u (S n) y = u n y + gx * m /\ Rabs (m - (t n y - u (n - d)%nat y)) <= delta * E + eta.

  Lemma dl0 : 0 <= dl. Proof. apply pos_INR. Qed.
  Lemma steps_of (f : nat -> R) st i : forall n, (forall k, (n <= k < n + i)%nat -> Rabs (f (S k) - f k) <= st) -> Rabs (f (n + i)%nat - f n) <= INR i * st.
  Proof.
    induction i as [|i IH]; intros n Hk.
    - rewrite Nat.add_0_r, Rminus_diag_eq, Rabs_R0 by reflexivity. cbn [INR]. lra.
    - rewrite Nat.add_succ_r, S_INR. specialize (IH n (fun k Hk' => Hk k ltac:(lia))). specialize (Hk (n + i)%nat ltac:(lia)).
      replace (f (S (n + i)) - f n) with ((f (S (n + i)) - f (n + i)%nat) + (f (n + i)%nat - f n)) by ring. eapply Rle_trans; [apply Rabs_triang|]. lra.
  Qed.
  Lemma back_of (f : nat -> R) st n : 0 <= st -> (forall k, (n - d <= k < n)%nat -> Rabs (f (S k) - f k) <= st) -> Rabs (f n - f (n - d)%nat) <= dl * st.
  Proof.
    intros Hst H. pose proof (steps_of f st (n - (n - d)) (n - d)) as A. replace (n - d + (n - (n - d)))%nat with n in A by lia.
    eapply Rle_trans; [apply A; exact H|]. apply Rmult_le_compat_r; [exact Hst|]. apply le_INR. lia.
  Qed.
  Lemma t_back n y : (y < Y)%nat -> Rabs (t n y - t (n - d)%nat y) <= dl * v.
  Proof. intro Hy. apply (back_of (fun k => t k y)); auto. Qed.
  Lemma seen X k : (forall y, (y < Y)%nat -> Rabs (t (k - d)%nat y - u (k - d)%nat y) <= X + L) ->
    forall y, (y < Y)%nat -> Rabs (t k y - u (k - d)%nat y) <= X + L + dl * v.
  Proof.
    intros H y Hy. specialize (H y Hy). pose proof (t_back k y Hy) as B.
    replace (t k y - u (k - d)%nat y) with ((t k y - t (k - d)%nat y) + (t (k - d)%nat y - u (k - d)%nat y)) by ring. eapply Rle_trans; [apply Rabs_triang|]. lra.
  Qed.
  Lemma L0 : 0 <= L.
  Proof.
    pose proof dl0 as D0. assert (A : 0 <= dl * v) by (apply Rmult_le_pos; auto).
    assert (B : 0 <= delta * (dl * v)) by (apply Rmult_le_pos; auto).
    assert (C : 0 <= dl * (G * (eta + (1 + delta) * (dl * v)))) by (apply Rmult_le_pos; [auto|apply Rmult_le_pos; [lra|]]; assert (0 <= (1 + delta) * (dl * v)) by (apply Rmult_le_pos; lra); lra).
    assert (F : 0 <= G * (eta + delta * (dl * v) + dl * (G * (eta + (1 + delta) * (dl * v))))) by (apply Rmult_le_pos; lra).
    assert (K : 0 <= L * rate) by (rewrite HL; lra). destruct (Rlt_le_dec L 0) as [Z|Z]; [|exact Z]. exfalso.
    assert (L * rate < 0 * rate) by (apply Rmult_lt_compat_r; auto). lra.
  Qed.
  Lemma step X n : 0 <= X -> X <= M -> (n < N)%nat ->
    (forall k y, (n - 2 * d <= k <= n)%nat -> (y < Y)%nat -> Rabs (t k y - u k y) <= X + L) ->
    forall y, (y < Y)%nat -> Rabs (t (S n) y - u (S n) y) <= (1 - rate) * X + L.
  Proof.
    intros X0 XM HN H y Hy. pose proof dl0 as D0. pose proof L0 as L0'. set (E := X + L + dl * v).
    assert (dv : 0 <= dl * v) by (apply Rmult_le_pos; auto).
    assert (E0 : 0 <= E) by (unfold E; lra). assert (ER : E <= range) by (unfold E; lra).
    set (mm := E + (delta * E + eta)). assert (dE : 0 <= delta * E) by (apply Rmult_le_pos; auto).
    assert (mm0 : 0 <= mm) by (unfold mm; lra). assert (Gm : 0 <= G * mm) by (apply Rmult_le_pos; lra).
    assert (HX : forall k y', (n - 2 * d <= k <= n)%nat -> (y' < Y)%nat -> Rabs (t k y' - u k y') <= M + L) by (intros k y' Hk Hy'; specialize (H k y' Hk Hy'); lra).
    assert (St : forall k, (n - d <= k < n)%nat -> Rabs (u (S k) y - u k y) <= G * mm).
    { intros k Hk. pose proof (seen X k (fun y' Hy' => H (k - d)%nat y' ltac:(lia) Hy')) as S. fold E in S.
      destruct (Hu k E ltac:(lia) S ER (fun y' Hy' => HX k y' ltac:(lia) Hy') y Hy) as (gx & m & A1 & A3 & A4). specialize (S y Hy). rewrite A3. replace (u k y + gx * m - u k y) with (gx * m) by ring.
      rewrite Rabs_mult, (Rabs_pos_eq gx) by lra. apply Rmult_le_compat; [lra|apply Rabs_pos|lra|]. unfold mm.
      replace m with ((t k y - u (k - d)%nat y) + (m - (t k y - u (k - d)%nat y))) by ring. eapply Rle_trans; [apply Rabs_triang|]. lra. }
    assert (Dn : Rabs (u n y - u (n - d)%nat y) <= dl * (G * mm)) by (apply (back_of (fun k => u k y)); auto).
    pose proof (seen X n (fun y' Hy' => H (n - d)%nat y' ltac:(lia) Hy')) as S. fold E in S.
    destruct (Hu n E HN S ER (fun y' Hy' => HX n y' ltac:(lia) Hy') y Hy) as (gx & m & A1 & A3 & A4). rewrite A3.
    specialize (H n y ltac:(lia) Hy). specialize (Ht n y Hy). clear St S Hu H0 HX.
    set (r := t n y - u n y) in *. set (w := t (Datatypes.S n) y - t n y) in *. set (un := u n y) in *. set (ud := u (n - d)%nat y) in *.
    replace (t (Datatypes.S n) y - (un + gx * m)) with (w + (1 - gx) * r + gx * (r - m)) by (unfold w, r; ring).
    replace (t n y - ud) with (r + (un - ud)) in A4 by (unfold r; ring).
    set (q := un - ud) in *. clearbody r w q. clear un ud A3.
    set (D := dl * (G * mm)) in *. assert (DD : 0 <= D) by (unfold D; apply Rmult_le_pos; auto).
    assert (RM : Rabs (r - m) <= D + (delta * E + eta)).
    { replace (r - m) with (- q + - (m - (r + q))) by ring. eapply Rle_trans; [apply Rabs_triang|]. rewrite !Rabs_Ropp. lra. }
    set (W := D + (delta * E + eta)) in *. assert (WW : 0 <= W) by (unfold W; lra).
    eapply Rle_trans; [apply Rabs_triang|]. eapply Rle_trans; [apply Rplus_le_compat_r, Rabs_triang|]. rewrite !Rabs_mult, (Rabs_pos_eq (1 - gx)), (Rabs_pos_eq gx) by lra.
    assert (Q1 : (1 - gx) * Rabs r <= (1 - gx) * (X + L)) by (apply Rmult_le_compat_l; lra).
    assert (Q3 : gx * Rabs (r - m) <= gx * W) by (apply Rmult_le_compat_l; lra).
    assert (F : v + (1 - gx) * (X + L) + gx * W <= (1 - rate) * X + L).
    { set (W' := D + delta * (dl * v) + eta). assert (V : W = delta * (X + L) + W') by (unfold W', W, E; ring).
      assert (W0 : 0 <= W') by (unfold W'; assert (0 <= delta * (dl * v)) by (apply Rmult_le_pos; auto); lra).
      assert (P1 : gx * W' <= G * W') by (apply Rmult_le_compat_r; lra).
      assert (P2 : g * ((1 - delta) * (X + L)) <= gx * ((1 - delta) * (X + L))) by (apply Rmult_le_compat_r; [apply Rmult_le_pos; lra|lra]).
      assert (P3 : (1 - rate) * X + L = (1 - g * (1 - delta)) * (X + L) + v + G * W').
      { transitivity ((1 - rate) * (X + L) + L * rate); [ring|]. rewrite HL. unfold W', D, mm, E, rate. ring. }
      rewrite P3, V. nra. }
    lra.
  Qed.
  Lemma rate_le1 : rate <= 1.
  Proof.
    unfold rate. pose proof dl0. assert (A : g * (1 - delta) <= 1 * 1) by (apply Rmult_le_compat; lra).
    assert (B : 0 <= dl * (G * G) * (1 + delta)) by (apply Rmult_le_pos; [apply Rmult_le_pos; [auto|apply Rmult_le_pos; lra]|lra]). lra.
  Qed.
  Lemma pow_range j : 0 <= (1 - rate) ^ j <= 1.
  Proof.
    pose proof rate_le1. split; [apply pow_le; lra|]. apply Rle_trans with (1 ^ j); [apply pow_incr; lra|rewrite pow1; lra].
  Qed.
  Lemma run_bound n : (n <= N)%nat -> forall j, (j * (2 * d + 1) <= n)%nat -> forall y, (y < Y)%nat -> Rabs (t n y - u n y) <= (1 - rate) ^ j * M + L.
  Proof.
    pose proof L0 as L0'. induction n as [n IH] using (well_founded_induction lt_wf). intros HN j Hj y Hy.
    destruct n as [|n].
    - assert (j = 0%nat) by lia. subst j. specialize (H0 y Hy). cbn [pow]. lra.
    - assert (PM : forall i, 0 <= (1 - rate) ^ i * M <= M).
      { intros i. destruct (pow_range i) as [A B]. split; [apply Rmult_le_pos; auto|]. rewrite <- (Rmult_1_l M) at 2. apply Rmult_le_compat_r; auto. }
      assert (Z : forall i, (i * (2 * d + 1) <= n - 2 * d)%nat \/ i = 0%nat -> Rabs (t (S n) y - u (S n) y) <= (1 - rate) * ((1 - rate) ^ i * M) + L).
      { intros i Hi. destruct (PM i) as [P1 P2]. apply (step _ n P1 P2 ltac:(lia)); [|exact Hy]. intros k y' Hk Hy'. apply IH; auto; try lia. }
      destruct j as [|j].
      + specialize (Z 0%nat (or_intror eq_refl)). cbn [pow] in *. assert (0 <= rate * M) by (apply Rmult_le_pos; lra). lra.
      + specialize (Z j ltac:(left; lia)). cbn [pow]. rewrite Rmult_assoc. exact Z.
  Qed.
End Steps.

(** The commands and what the delay makes of them *)
Lemma delay_ok (d : nat) (b : list (list b64)) (a : list b64) : (length b <= d)%nat ->
  exists b' c, delay fl_zero_like b a (Z.of_nat d) = (b', Ok c) /\ (length b' <= d)%nat.
Proof.
  intros Hb. unfold delay. rewrite app_length. cbn [length]. destruct (Z.leb_spec (Z.of_nat (length b + 1)) (Z.of_nat d)) as [H|H].
  - exists (b ++ [a]), (fl_zero_like a). split; [reflexivity|]. rewrite app_length. cbn [length]. lia.
  - replace (Z.to_nat (Z.of_nat (length b + 1) - Z.of_nat d)) with 1%nat by lia. destruct b as [|x b]; cbn [app pops pop0].
    + exists [], a. split; [reflexivity|cbn; lia].
    + exists (b ++ [a]), x. split; [reflexivity|]. rewrite app_length. cbn [length] in *. lia.
Qed.
Lemma run_struct ms d responds : forall s, (length (fs_buf s) <= d)%nat ->
  exists s' outs As, fl_run ms (Z.of_nat d) s responds = Ok (s', outs) /\ length outs = length responds /\ length As = S (length responds) /\
    run_delay fl_zero_like (fs_buf s) (map (fun v => (v, Z.of_nat d)) (firstn (length responds) As)) = map Ok outs /\
    nth 0 As [] = fl_apply_gain ms (fs_cmds s) (fs_new s) /\
    forall n f c, nth_error responds n = Some f -> nth_error outs n = Some c -> nth (S n) As [] = fl_apply_gain ms (nth n As []) (f c).
Proof.
  induction responds as [|f r IH]; intros s Hb.
  - exists s, [], [fl_apply_gain ms (fs_cmds s) (fs_new s)]. repeat split; auto. intros n f c H. destruct n; discriminate.
  - set (a := fl_apply_gain ms (fs_cmds s) (fs_new s)). destruct (delay_ok d (fs_buf s) a Hb) as (b' & c & ED & Lb').
    destruct (IH (mkFs a b' (f c)) Lb') as (s' & outs & As & R1 & R2 & R3 & R4 & R5 & R6).
    exists s', (c :: outs), (a :: As). cbn [fl_run]. unfold fl_frame. fold a. rewrite ED. cbn [bind fst snd]. rewrite R1. cbn [bind fst snd length firstn map nth].
    repeat split; auto; try lia.
    + cbn [run_delay]. rewrite ED. cbn [fs_buf] in R4. rewrite R4. reflexivity.
    + intros n f' c' Hf Hc. destruct n as [|n]; cbn [nth_error] in *.
      * injection Hf as <-. injection Hc as <-. rewrite R5. reflexivity.
      * apply R6; auto.
Qed.
Lemma zero_times (x : b64) : is_finite x = true -> is_finite (mul64 x fzero) = true /\ B2R (mul64 x fzero) = 0.
Proof.
  intro F. destruct (ofZ_correct 0) as [FZ EZ]; [cbn; lia|]. destruct (mul_correct x fzero F FZ) as [F1 E1].
  - unfold fzero. rewrite EZ, Rmult_0_r, Rabs_R0. apply bpow_ge_0.
  - split; [exact F1|]. rewrite E1. unfold fzero. rewrite EZ, Rmult_0_r. apply rnd_rep. apply generic_format_0.
Qed.
Lemma law_round (m : fmirror) (a y : b64) (g G WA WY : R) : fm_closed m = true -> is_finite (fm_gain m) = true -> 0 < g -> g <= B2R (fm_gain m) <= G -> G <= 1 ->
  is_finite a = true -> is_finite y = true -> Rabs (B2R a) <= WA -> Rabs (B2R y) <= WY -> 4 * (WA + WY + 1) <= bpow radix2 1000 ->
  is_finite (fl_law m a y) = true /\ exists k, B2R (fl_law m a y) = B2R a + B2R (fm_gain m) * k /\ Rabs (k - B2R y) <= (unit_roundoff * (WA + 3 * WY) + 3 * smallest) / g.
Proof.
  intros HC FG G0 HG HG1 FA FY HA HY HB. unfold fl_law. rewrite HC. pose proof u_pos as U0. pose proof u_small as U1. pose proof s_pos as S0. pose proof s_small as S1. pose proof rnd_any as RA.
  set (u := unit_roundoff) in *. set (s := smallest) in *. clearbody u s. set (gx := B2R (fm_gain m)) in *. set (A := B2R a) in *. set (Y := B2R y) in *.
  assert (A0 : 0 <= WA) by (pose proof (Rabs_pos A); lra). assert (Y0 : 0 <= WY) by (pose proof (Rabs_pos Y); lra).
  assert (GY : Rabs (gx * Y) <= WY). { rewrite Rabs_mult, (Rabs_pos_eq gx) by lra. assert (gx * Rabs Y <= 1 * Rabs Y) by (apply Rmult_le_compat_r; [apply Rabs_pos|lra]). lra. }
  destruct (mul_correct (fm_gain m) y FG FY) as [F1 R1]; [fold gx Y; lra|]. fold gx Y in R1.
  pose proof (RA (gx * Y)) as Q1. rewrite <- R1 in Q1. set (p := B2R (mul64 (fm_gain m) y)) in *.
  assert (UY : 0 <= u * WY <= / 1024 * WY) by (split; [apply Rmult_le_pos; lra|apply Rmult_le_compat_r; lra]).
  assert (Q1' : Rabs (p - gx * Y) <= u * WY + s) by (assert (u * Rabs (gx * Y) <= u * WY) by (apply Rmult_le_compat_l; lra); lra).
  assert (PB : Rabs p <= WY + (u * WY + s)). { replace p with (gx * Y + (p - gx * Y)) by ring. eapply Rle_trans; [apply Rabs_triang|]. lra. }
  assert (SB : Rabs (A + p) <= WA + (WY + (u * WY + s))) by (eapply Rle_trans; [apply Rabs_triang|]; lra).
  destruct (add_correct a (mul64 (fm_gain m) y) FA F1) as [F2 R2]; [fold A p; lra|]. fold A p in R2. split; [exact F2|].
  pose proof (RA (A + p)) as Q2. rewrite <- R2 in Q2. set (z := B2R (add64 a (mul64 (fm_gain m) y))) in *.
  assert (Q2' : Rabs (z - (A + p)) <= u * (WA + (WY + (u * WY + s))) + s) by (assert (u * Rabs (A + p) <= u * (WA + (WY + (u * WY + s)))) by (apply Rmult_le_compat_l; lra); lra).
  assert (UU : u * (u * WY) <= / 1024 * (u * WY)) by (apply Rmult_le_compat_r; lra). assert (US : u * s <= / 1024 * s) by (apply Rmult_le_compat_r; lra).
  assert (T : Rabs (z - A - gx * Y) <= u * (WA + 3 * WY) + 3 * s).
  { replace (z - A - gx * Y) with ((z - (A + p)) + (p - gx * Y)) by ring. eapply Rle_trans; [apply Rabs_triang|]. lra. }
  exists ((z - A) / gx). split; [field; lra|]. replace ((z - A) / gx - Y) with ((z - A - gx * Y) * / gx) by (field; lra).
  rewrite Rabs_mult, (Rabs_pos_eq (/ gx)) by (left; apply Rinv_0_lt_compat; lra). unfold Rdiv. apply Rmult_le_compat; [apply Rabs_pos|left; apply Rinv_0_lt_compat; lra|exact T|].
  apply Rinv_le; lra.
Qed.

Section Run.
  Variable ms : list fmirror.
  Variables g G range delta eta v first W : R.
  Variable d : nat.
  Variable wanted : nat -> nat -> R.
  Variable responds : list (list b64 -> list b64).
  Let total := fl_total ms.
  Let dl := INR d.
  Let noise := eta + (unit_roundoff * (W + 7 * range + 3 * eta) + 3 * smallest) / g.
  Let rate := g * (1 - delta) - dl * (G * G) * (1 + delta).
  Let left := (v + G * (noise + delta * (dl * v) + dl * (G * (noise + (1 + delta) * (dl * v))))) / rate.
  Hypothesis HG : Forall (fun m => fm_closed m = true /\ is_finite (fm_gain m) = true /\ g <= B2R (fm_gain m) <= G) ms.
  Hypothesis G0 : 0 < g.
  Hypothesis GG : g <= G.
  Hypothesis G1 : G <= 1.
  Hypothesis HD : 0 <= delta < 1.
  Hypothesis HN : 0 <= eta.
  Hypothesis HV : 0 <= v.
  Hypothesis HF : 0 <= first.
  Hypothesis HW : 0 <= W.
  Hypothesis Hr : 0 < rate.
  Hypothesis HR : first + left + dl * v <= range.
  Hypothesis Hbig : 32 * (W + range + eta + 1) <= bpow radix2 1000.
  Hypothesis HWn : forall n x, (x < total)%nat -> Rabs (wanted n x) <= W.
  Hypothesis Hv : forall n x, (x < total)%nat -> Rabs (wanted (S n) x - wanted n x) <= v.
  Hypothesis H0 : forall x, (x < total)%nat -> Rabs (wanted 0%nat x) <= first.
  Hypothesis HA : forall n f, nth_error responds n = Some f -> fl_accurate ms range delta eta (wanted n) f.

  Lemma left_eq : left * rate = v + G * (noise + delta * (dl * v) + dl * (G * (noise + (1 + delta) * (dl * v)))).
  Proof. unfold left. field. lra. Qed.
  Hypothesis Hrange : 0 <= range.
  Lemma noise_pos : 0 <= noise.
  Proof.
    unfold noise. pose proof u_pos. pose proof s_pos. assert (0 <= unit_roundoff * (W + 7 * range + 3 * eta)) by (apply Rmult_le_pos; lra).
    assert (0 <= (unit_roundoff * (W + 7 * range + 3 * eta) + 3 * smallest) / g) by (apply Rmult_le_pos; [lra|left; apply Rinv_0_lt_compat; exact G0]). lra.
  Qed.

  Theorem delayed : exists s outs, fl_run ms (Z.of_nat d) (fl_init ms) responds = Ok (s, outs) /\ length outs = length responds /\
    forall n c, nth_error outs n = Some c -> fl_within total (wanted n) c ((1 - rate) ^ ((n - d) / (2 * d + 1)) * first + left + dl * v).
  Proof.
    destruct (run_struct ms d responds (fl_init ms) ltac:(cbn; lia)) as (s & outs & As & R1 & R2 & R3 & R4 & R5 & R6).
    exists s, outs. split; [exact R1|]. split; [exact R2|]. set (U := fun n => nth n As []). set (val := fun n y => B2R (nth y (U n) fzero)).
    set (N := length responds) in *.
    assert (D0 : 0 <= dl) by apply pos_INR. assert (dv : 0 <= dl * v) by (apply Rmult_le_pos; auto).
    destruct (ofZ_correct 0) as [FZ EZ]; [cbn; lia|]. fold fzero in FZ, EZ.
    assert (U0 : length (U 0%nat) = total /\ forall y, (y < total)%nat -> is_finite (nth y (U 0%nat) fzero) = true /\ val 0%nat y = 0).
    { unfold val, U. rewrite R5. cbn [fl_init fs_cmds fs_new]. split; [rewrite apply_length; rewrite !repeat_length; reflexivity|]. intros y Hy.
      destruct (apply_nth ms (repeat fzero (fl_total ms)) (repeat fzero (fl_total ms)) y) as (m & O & I & E); rewrite ?repeat_length; auto. rewrite E.
      rewrite !nth_repeat. rewrite Forall_forall in HG. destruct (HG m I) as (C & F & B). unfold fl_law. rewrite C.
      destruct (mul_correct (fm_gain m) fzero F FZ) as [F1 E1]; [rewrite EZ, Rmult_0_r, Rabs_R0; apply bpow_ge_0|]. rewrite EZ, Rmult_0_r, rnd_rep in E1 by apply generic_format_0.
      destruct (add_correct fzero (mul64 (fm_gain m) fzero) FZ F1) as [F2 E2]; [rewrite EZ, E1, Rplus_0_r, Rabs_R0; apply bpow_ge_0|]. rewrite EZ, E1, Rplus_0_r, rnd_rep in E2 by apply generic_format_0. auto. }
    destruct U0 as [LU0 U0].
    assert (OUT : forall n, (n < N)%nat -> nth_error outs n = Some (if (n <? d)%nat then fl_zero_like (U n) else U (n - d)%nat)).
    { intros n Hn. pose proof (@run_delay_const (list b64) fl_zero_like d (firstn N As)) as [_ DL]. cbn [fs_buf fl_init] in R4. unfold new_buffer in DL. rewrite R4 in DL.
      assert (EU : forall k, (k < N)%nat -> nth_error (firstn N As) k = Some (U k)).
      { intros k Hk. rewrite nth_error_firstn_lt by auto. apply nth_error_nth'. lia. }
      specialize (DL n (U n) (EU n Hn)). rewrite nth_error_map in DL. destruct (nth_error outs n) as [c|] eqn:Ec; [|apply nth_error_None in Ec; lia].
      cbn [option_map] in DL. destruct (Nat.ltb_spec n d) as [H|H]; [congruence|]. rewrite (EU (n - d)%nat ltac:(lia)) in DL. cbn [option_map] in DL. congruence. }
    (* all commands of a frame are numbers *)
    set (fin := fun n => length (U n) = total /\ forall y, (y < total)%nat -> is_finite (nth y (U n) fzero) = true).
    assert (OV : forall n, (n < N)%nat -> fin n -> fin (n - d)%nat -> forall c, nth_error outs n = Some c ->
      length c = total /\ forall y, (y < total)%nat -> is_finite (nth y c fzero) = true /\ B2R (nth y c fzero) = val (n - d)%nat y).
    { intros n Hn [L1 F1] [L2 F2] c Hc. rewrite (OUT n Hn) in Hc. destruct (Nat.ltb_spec n d) as [H|H]; injection Hc as <-.
      - unfold fl_zero_like. rewrite map_length. split; [exact L1|]. intros y Hy. replace (n - d)%nat with 0%nat by lia. rewrite (proj2 (U0 y Hy)).
        assert (Z0 : nth y (map (fun x => mul64 x fzero) (U n)) fzero = mul64 (nth y (U n) fzero) fzero).
        { rewrite (nth_indep _ fzero ((fun x => mul64 x fzero) fzero)) by (rewrite map_length; lia). apply (map_nth (fun x => mul64 x fzero)). }
        rewrite Z0. apply zero_times. apply F1, Hy.
      - split; [exact L2|]. intros y Hy. split; [apply F2, Hy|reflexivity]. }
    pose proof noise_pos as NP. pose proof left_eq as LE.
    assert (L0' : 0 <= left) by (apply (L0 d g G delta noise v left); auto; apply HD).
    assert (ST : forall n, (n < N)%nat -> fin n -> fin (n - d)%nat -> forall E, (forall y, (y < total)%nat -> Rabs (wanted n y - val (n - d)%nat y) <= E) -> E <= range ->
      (forall y, (y < total)%nat -> Rabs (wanted n y - val n y) <= first + left) ->
      fin (S n) /\ forall y, (y < total)%nat -> exists gx m, g <= gx <= G /\ val (S n) y = val n y + gx * m /\ Rabs (m - (wanted n y - val (n - d)%nat y)) <= delta * E + noise).
    { intros n Hn FN FD E HE ER HB.
      destruct (nth_error responds n) as [f|] eqn:Ef; [|apply nth_error_None in Ef; unfold N in Hn; lia].
      destruct (nth_error outs n) as [c|] eqn:Ec; [|apply nth_error_None in Ec; lia].
      destruct (OV n Hn FN FD c Ec) as [LC VC].
      assert (WC : fl_within (fl_total ms) (wanted n) c E) by (split; [exact LC|]; intros y Hy; destruct (VC y Hy) as [F1 V1]; split; [exact F1|]; rewrite V1; apply HE, Hy).
      destruct (HA n f Ef c E WC ER) as [LR RR]. pose proof (R6 n f c Ef Ec) as Q. fold (U (S n)) (U n) in Q. destruct FN as [LN FN].
      assert (PW : forall y, (y < total)%nat -> is_finite (nth y (U (S n)) fzero) = true /\
        exists gx m, g <= gx <= G /\ val (S n) y = val n y + gx * m /\ Rabs (m - (wanted n y - val (n - d)%nat y)) <= delta * E + noise).
      { intros y Hy. unfold val at 1. rewrite Q. destruct (apply_nth ms (U n) (f c) y) as (m & O & I & EQ); [exact LN|rewrite LR, LN; reflexivity|exact Hy|]. rewrite EQ.
        rewrite Forall_forall in HG. destruct (HG m I) as (C & F & B). destruct (RR y m O) as [FY EY]. rewrite C in EY. destruct (VC y Hy) as [FC VCy]. rewrite VCy in EY.
        specialize (HE y Hy). specialize (HB y Hy). pose proof (HWn n y Hy) as WB.
        assert (E0 : 0 <= E) by (pose proof (Rabs_pos (wanted n y - val (n - d)%nat y)); lra).
        assert (DE : delta * E <= 1 * E) by (apply Rmult_le_compat_r; lra).
        set (e := wanted n y - val (n - d)%nat y) in *.
        destruct (law_round m (nth y (U n) fzero) (nth y (f c) fzero) g G (W + range) (2 * range + eta) C F G0 B G1 (FN y Hy) FY) as [FL (k & K1 & K2)].
        - fold (val n y). replace (val n y) with (wanted n y - (wanted n y - val n y)) by ring. unfold Rminus at 1. eapply Rle_trans; [apply Rabs_triang|]. rewrite Rabs_Ropp. lra.
        - replace (B2R (nth y (f c) fzero)) with (e + (B2R (nth y (f c) fzero) - e)) by ring. eapply Rle_trans; [apply Rabs_triang|]. lra.
        - lra.
        - split; [exact FL|]. exists (B2R (fm_gain m)), k. split; [exact B|]. split; [exact K1|].
          replace (k - e) with ((k - B2R (nth y (f c) fzero)) + (B2R (nth y (f c) fzero) - e)) by ring. eapply Rle_trans; [apply Rabs_triang|]. unfold noise.
          replace (W + 7 * range + 3 * eta) with (W + range + 3 * (2 * range + eta)) by ring. lra. }
      split; [|intros y Hy; apply PW, Hy]. split; [|intros y Hy; apply PW, Hy]. rewrite Q, apply_length; [exact LN|]. rewrite LR. exact LN. }
    assert (MAIN : forall K, (K <= N)%nat -> (forall n, (n <= K)%nat -> fin n) /\
      forall n, (n <= K)%nat -> forall j, (j * (2 * d + 1) <= n)%nat -> forall y, (y < total)%nat -> Rabs (wanted n y - val n y) <= (1 - rate) ^ j * first + left).
    { induction K as [|K IH]; intros HK.
      - split.
        + intros n Hn. assert (n = 0%nat) by lia. subst n. split; [exact LU0|]. intros y Hy. apply U0, Hy.
        + intros n Hn j Hj y Hy. assert (n = 0%nat) by lia. subst n. assert (j = 0%nat) by lia. subst j. rewrite (proj2 (U0 y Hy)), Rminus_0_r. cbn [pow]. specialize (H0 y Hy). lra.
      - destruct (IH ltac:(lia)) as [FK BK].
        assert (B0 : forall n, (n <= K)%nat -> forall y, (y < total)%nat -> Rabs (wanted n y - val n y) <= first + left).
        { intros n Hn y Hy. specialize (BK n Hn 0%nat ltac:(lia) y Hy). cbn [pow] in BK. lra. }
        split.
        + intros n Hn. destruct (Nat.eq_dec n (S K)) as [->|Q]; [|apply FK; lia].
          apply (ST K ltac:(lia) (FK K ltac:(lia)) (FK (K - d)%nat ltac:(lia)) (first + left + dl * v)); [|exact HR|apply B0; lia].
          apply (seen total d wanted val v left HV Hv first K). apply B0. lia.
        + apply (run_bound total (S K) d wanted val g G range delta noise v first left); auto; try apply HD.
          * intros y Hy. rewrite (proj2 (U0 y Hy)), Rminus_0_r. apply H0, Hy.
          * intros n E Hn HE ER HB y Hy. apply (ST n ltac:(lia) (FK n ltac:(lia)) (FK (n - d)%nat ltac:(lia)) E HE ER HB). exact Hy. }
    intros n c Hc. assert (Hn : (n < N)%nat) by (rewrite <- R2; apply nth_error_Some; congruence).
    destruct (MAIN n ltac:(lia)) as [FK BK]. destruct (OV n Hn (FK n ltac:(lia)) (FK (n - d)%nat ltac:(lia)) c Hc) as [LC VC].
    split; [exact LC|]. intros y Hy. destruct (VC y Hy) as [F V]. split; [exact F|]. rewrite V.
    pose proof (BK (n - d)%nat ltac:(lia) ((n - d) / (2 * d + 1))%nat ltac:(rewrite Nat.mul_comm; apply Nat.mul_div_le; lia) y Hy) as A.
    pose proof (t_back total d wanted v HV Hv n y Hy) as B. fold dl in B.
    replace (wanted n y - val (n - d)%nat y) with ((wanted n y - wanted (n - d)%nat y) + (wanted (n - d)%nat y - val (n - d)%nat y)) by ring. eapply Rle_trans; [apply Rabs_triang|]. lra.
  Qed.
End Run.

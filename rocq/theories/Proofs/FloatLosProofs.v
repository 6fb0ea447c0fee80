(** Rounding on a geometric line of sight. *)
From Coq Require Import ZArith List.
From Flocq Require Import Core BinarySingleNaN Relative.
From Verif.Base Require Import Float64.
From Verif.Model Require Import Rounding64 FloatInterp.
From Verif.Spec Require Import FloatLoopSpec FloatInterpSpec.
From Verif.Proofs Require Import FloatLoopProofs RoundingProofs FloatInterpProofs FloatInterpCoords.
From Verif.Model Require Import FloatLos.
From Verif.Spec Require Import FloatLosSpec.
From Coq Require Import Reals Bool Lia Lra.
Import ListNotations.
Local Open Scope R_scope.

Lemma single_ok x : is_finite x = true -> Rabs (B2R x) <= bpow radix2 120 ->
  is_finite (single x) = true /\ Rabs (B2R (single x) - B2R x) <= bpow radix2 (-24) * Rabs (B2R x) + bpow radix2 (-150).
Proof.
  intros F B. pose proof (bpow_gt_0 radix2 (-24)). pose proof (bpow_gt_0 radix2 (-150)).
  pose proof prec32 as P32. destruct x as [s|s| |s m e Bd]; try discriminate F.
  - cbn [single]. split; [reflexivity|]. cbn [B2R]. rewrite Rminus_0_r, Rabs_R0. lra.
  - unfold single. set (x := B754_finite s m e Bd) in *.
    assert (X : F2R (Float radix2 (SpecFloat.cond_Zopp s (Z.pos m)) e) = B2R x) by reflexivity.
    pose proof (@binary_normalize_correct 24 128 eq_refl eq_refl mode_NE (SpecFloat.cond_Zopp s (Z.pos m)) e s) as C. cbn zeta in C. rewrite X in C.
    assert (V : Valid_exp (SpecFloat.fexp 24 128)) by (change (SpecFloat.fexp 24 128) with (FLT_exp (-149) 24); apply FLT_exp_valid; reflexivity).
    set (rd := round radix2 (SpecFloat.fexp 24 128) (round_mode mode_NE) (B2R x)) in *.
    assert (RE : Rabs (rd - B2R x) <= bpow radix2 (-24) * Rabs (B2R x) + bpow radix2 (-150)).
    { unfold rd. change (SpecFloat.fexp 24 128) with (FLT_exp (-149) 24). destruct (Rle_lt_dec (bpow radix2 (-126)) (Rabs (B2R x))) as [Hx|Hx].
      - apply Rle_trans with (bpow radix2 (-24) * Rabs (B2R x)); [|lra].
        eapply Rle_trans; [apply (relative_error_N_FLT radix2 (-149) 24 eq_refl); exact Hx|]. apply Rmult_le_compat_r; [apply Rabs_pos|].
        replace (- (24) + 1)%Z with (-23)%Z by lia. replace (-23)%Z with (1 + -24)%Z by lia. rewrite bpow_plus. change (bpow radix2 1) with 2. lra.
      - apply Rle_trans with (bpow radix2 (-150)); [|assert (0 <= bpow radix2 (-24) * Rabs (B2R x)) by (apply Rmult_le_pos; [lra|apply Rabs_pos]); lra].
        eapply Rle_trans; [apply error_le_half_ulp; apply FLT_exp_valid; exact P32|]. replace (-150)%Z with (-1 + -149)%Z by lia. rewrite bpow_plus.
        change (bpow radix2 (-1)) with (/ 2). apply Rmult_le_compat_l; [lra|].
        destruct (Req_dec (B2R x) 0) as [Z0|NZ]; [rewrite Z0, (ulp_FLT_0 radix2 (-149) 24); apply Rle_refl|].
        rewrite ulp_neq_0 by exact NZ. apply bpow_le. unfold cexp, FLT_exp. assert (mag radix2 (B2R x) <= -126)%Z by (apply mag_le_bpow; auto). lia. }
    assert (GB : bpow radix2 (-24) <= / 4 /\ bpow radix2 (-150) <= 1).
    { split; [change (/ 4) with (bpow radix2 (-2))|change 1 with (bpow radix2 0)]; apply bpow_le; lia. }
    assert (G1 : 1 <= bpow radix2 120) by (change 1 with (bpow radix2 0); apply bpow_le; lia).
    assert (RB : Rabs rd <= bpow radix2 122).
    { replace rd with ((rd - B2R x) + B2R x) by ring. eapply Rle_trans; [apply Rabs_triang|]. replace 122%Z with (2 + 120)%Z by lia. rewrite bpow_plus. change (bpow radix2 2) with 4.
      assert (bpow radix2 (-24) * Rabs (B2R x) <= / 4 * bpow radix2 120) by (apply Rmult_le_compat; [lra|apply Rabs_pos|lra|lra]). lra. }
    rewrite Rlt_bool_true in C by (apply Rle_lt_trans with (bpow radix2 122); [exact RB|apply bpow_lt; lia]).
    destruct C as (C1 & C2 & _). assert (GR : generic_format radix2 (SpecFloat.fexp 24 128) rd) by (apply generic_format_round; [exact V|apply valid_rnd_N]).
    assert (R64 : rep64 rd).
    { unfold rep64. revert GR. change (SpecFloat.fexp 24 128) with (FLT_exp (-149) 24). intro GR. apply FLT_format_generic in GR; [|reflexivity].
      destruct GR as [[mm ee] E1 E2 E3]. cbn in E2, E3. rewrite E1. apply rep_F2R; cbn; lia. }
    destruct (binary_normalize 24 128 eq_refl eq_refl mode_NE (SpecFloat.cond_Zopp s (Z.pos m)) e s) as [s'|s'| |s' m' e' B']; cbn in C2; try discriminate C2.
    + cbn in C1. split; [reflexivity|]. cbn [B2R]. rewrite C1. exact RE.
    + assert (X' : IZR (SpecFloat.cond_Zopp s' (Z.pos m')) * bpow radix2 e' = rd) by (rewrite <- C1; reflexivity).
      destruct (lit_correct (SpecFloat.cond_Zopp s' (Z.pos m')) e') as [F' E'].
      * rewrite X'. apply Rle_trans with (bpow radix2 122); [exact RB|apply bpow_le; lia].
      * split; [exact F'|]. rewrite E', X', rnd_rep by exact R64. exact RE.
Qed.

Lemma stored_ok d x : is_finite x = true -> Rabs (B2R x) <= bpow radix2 120 ->
  is_finite (stored d x) = true /\ Rabs (B2R (stored d x) - B2R x) <= bpow radix2 (-24) * Rabs (B2R x) + bpow radix2 (-150).
Proof.
  intros F B. destruct d; [apply single_ok; assumption|]. split; [exact F|]. cbn [stored]. rewrite Rminus_diag_eq, Rabs_R0 by reflexivity.
  pose proof (bpow_gt_0 radix2 (-24)). pose proof (bpow_gt_0 radix2 (-150)). assert (0 <= bpow radix2 (-24) * Rabs (B2R x)) by (apply Rmult_le_pos; [lra|apply Rabs_pos]). lra.
Qed.

(** ** Adding up the screens *)
Definition near (v : b64) (p : R * R) : Prop := is_finite v = true /\ Rabs (fst p) <= snd p /\ Rabs (B2R v - fst p) <= snd p / 10 ^ 8 + 9 * smallest.
Definition sumf (l : list R) : R := fold_right Rplus 0 l.
Lemma u53 : unit_roundoff * bpow radix2 20 <= bpow radix2 (-33). Proof. unfold unit_roundoff. rewrite <- bpow_plus. apply bpow_le. lia. Qed.
Lemma fold_ok : forall vs ps acc E W k, Forall2 near vs ps -> is_finite acc = true -> (Z.of_nat (k + length vs) <= 2 ^ 20)%Z -> 0 <= W -> Rabs E <= W ->
  Rabs (B2R acc - E) <= (/ 10 ^ 8 + 2 * unit_roundoff * INR k) * W + 20 * INR k * smallest -> 4 * (W + sumf (map snd ps) + 1) <= bpow radix2 1000 ->
  let N := INR (k + length vs) in let T := W + sumf (map snd ps) in
  is_finite (fold_left add64 vs acc) = true /\ Rabs (E + sumf (map fst ps)) <= T /\
  Rabs (B2R (fold_left add64 vs acc) - (E + sumf (map fst ps))) <= (/ 10 ^ 8 + 2 * unit_roundoff * N) * T + 20 * N * smallest.
Proof.
  intros vs. pose proof u_pos as U0. pose proof u_small as U1. pose proof s_pos as S0. pose proof s_small as S1. pose proof u53 as U53. pose proof rnd_any as RA.
  assert (P33 : bpow radix2 (-33) <= / 1024) by (change (/ 1024) with (bpow radix2 (-10)); apply bpow_le; lia).
  assert (B20 : bpow radix2 20 = 1048576) by (cbn; lra). rewrite B20 in U53.
  assert (HS : 1048576 * smallest <= / 1024). { rewrite <- B20. unfold smallest. rewrite <- bpow_plus. change (/ 1024) with (bpow radix2 (-10)). apply bpow_le. lia. }
  set (u := unit_roundoff) in *. set (s := smallest) in *.
  induction vs as [|v vs IH]; intros ps acc E W k HN HF HK HW HE HA HB; inversion HN as [|v' p vs' ps' NV NS]; subst; intros N T; unfold N, T; clear N T; cbn [map fold_right sumf fold_left length] in *.
  - rewrite Nat.add_0_r, !Rplus_0_r in *. auto.
  - destruct p as [e a]. destruct NV as (Fv & Ea & Ev). cbn [fst snd] in *. fold sumf in *.
    assert (PS : 0 <= fold_right Rplus 0 (map snd ps')).
    { clear -NS. induction NS as [|v p vs ps (_ & Q & _) _ IH]; cbn; [lra|]. pose proof (Rabs_pos (fst p)). lra. }
    assert (A0 : 0 <= a) by (pose proof (Rabs_pos e); lra). unfold sumf in *.
    assert (KB : 0 <= INR k <= 1048576). { split; [apply pos_INR|]. rewrite INR_IZR_INZ. apply IZR_le. lia. }
    assert (UK : 0 <= u * INR k <= / 1024). { split; [apply Rmult_le_pos; lra|]. apply Rle_trans with (u * 1048576); [apply Rmult_le_compat_l; lra|lra]. }
    assert (SK : 0 <= INR k * s). { apply Rmult_le_pos; lra. }
    unfold Rdiv in Ev. fold s in Ev. clearbody u s. set (q := / 10 ^ 8) in *. assert (Q8 : 0 < q <= / 1024) by (unfold q; replace (10 ^ 8) with 100000000 by ring; lra). clearbody q.
    assert (AQ : 0 <= a * q <= a) by (split; [apply Rmult_le_pos; lra|rewrite <- (Rmult_1_r a) at 2; apply Rmult_le_compat_l; lra]).
    assert (WU : (q + 2 * u * INR k) * W <= / 256 * W). { apply Rmult_le_compat_r; [exact HW|]. lra. }
    assert (SS : INR k * s <= 1048576 * s) by (apply Rmult_le_compat_r; lra).
    assert (SUM : Rabs (B2R acc + B2R v) <= 2 * (W + a) + 20 * INR k * s + 9 * s).
    { apply Rabs_le_inv in HE. apply Rabs_le_inv in HA. apply Rabs_le_inv in Ea. apply Rabs_le_inv in Ev. apply Rabs_le. lra. }
    destruct (add_correct acc v HF Fv) as [Fs Es]; [lra|].
    specialize (RA (B2R acc + B2R v)). rewrite <- Es in RA.
    assert (US : u * Rabs (B2R acc + B2R v) <= 2 * u * (W + a) + s).
    { apply Rle_trans with (u * (2 * (W + a) + 20 * INR k * s + 9 * s)); [apply Rmult_le_compat_l; lra|].
      assert (QQ : u * (20 * INR k * s + 9 * s) <= s). { replace (u * (20 * INR k * s + 9 * s)) with ((20 * (u * INR k) + 9 * u) * s) by ring. rewrite <- (Rmult_1_l s) at 2. apply Rmult_le_compat_r; lra. }
      lra. }
    destruct (IH ps' (add64 acc v) (E + e) (W + a) (S k) NS Fs) as (H1 & H2 & H3).
    + lia.
    + lra.
    + apply Rabs_le_inv in HE. apply Rabs_le_inv in Ea. apply Rabs_le. lra.
    + rewrite S_INR. replace (B2R (add64 acc v) - (E + e)) with ((B2R (add64 acc v) - (B2R acc + B2R v)) + ((B2R acc - E) + (B2R v - e))) by ring.
      eapply Rle_trans; [apply Rabs_triang|]. assert (Rabs (B2R acc - E + (B2R v - e)) <= Rabs (B2R acc - E) + Rabs (B2R v - e)) by apply Rabs_triang.
      assert (0 <= u * INR k * a) by (apply Rmult_le_pos; lra).
      replace ((q + 2 * u * (INR k + 1)) * (W + a)) with ((q + 2 * u * INR k) * W + q * a + 2 * (u * INR k * a) + 2 * u * (W + a)) by ring. lra.
    + lra.
    + replace (k + S (length vs))%nat with (S k + length vs)%nat by lia. split; [exact H1|]. split.
      * replace (E + (e + fold_right Rplus 0 (map fst ps'))) with (E + e + fold_right Rplus 0 (map fst ps')) by ring. lra.
      * replace (E + (e + fold_right Rplus 0 (map fst ps'))) with (E + e + fold_right Rplus 0 (map fst ps')) by ring.
        replace (W + (a + fold_right Rplus 0 (map snd ps'))) with (W + a + fold_right Rplus 0 (map snd ps')) by ring. exact H3.
Qed.

Lemma crossings_ok l As : moderate l As -> (forall A, In A As -> A <= bpow radix2 50) -> exists vs, crossings64 l = Some vs /\ length vs = length l /\ Forall2 near vs (combine (map seen l) As).
Proof.
  intros H. induction H as [|c A l As (HF & HA & FX & FY) H IH]; intro HB.
  - exists []. repeat split. constructor.
  - destruct IH as (vs & E & LV & N); [intros; apply HB; right; assumption|].
    assert (AB : A <= bpow radix2 800) by (apply Rle_trans with (bpow radix2 50); [apply HB; left; reflexivity|apply bpow_le; lia]).
    destruct (los_value (cr_screen c) A HF HA AB (cr_x c) (cr_y c) FX FY) as (v & Ev & Fv & Bv).
    exists (v :: vs). cbn [crossings64]. rewrite Ev, E. split; [reflexivity|]. split; [cbn; rewrite LV; reflexivity|]. cbn [map combine]. constructor; [|exact N].
    split; [exact Fv|]. cbn [fst snd]. split; [|exact Bv]. apply Rabs_le. unfold seen.
    apply (bilinear_range (fa_rows (cr_screen c)) (fa_cols (cr_screen c))); [|apply on_range; destruct HF; lia|apply on_range; destruct HF; lia].
    intros i j I J. destruct (HA i j I J) as [_ X]. apply Rabs_le_inv in X. exact X.
Qed.
Lemma sum_ok l As : moderate l As -> (Z.of_nat (length l) <= 2 ^ 20)%Z -> total As <= bpow radix2 50 -> exists vs, crossings64 l = Some vs /\
  is_finite (sum64 vs) = true /\ 0 <= total As /\ Rabs (total_seen l) <= total As /\ Rabs (B2R (sum64 vs) - total_seen l) <= total As * (11 / 10 ^ 9) + bpow radix2 (-1000).
Proof.
  intros H HL HT.
  assert (P : forall A, In A As -> 0 <= A <= total As).
  { clear -H. induction H as [|c A l As (HF & HA & _) H IH]; cbn [In total fold_right]; [contradiction|]. fold (total As).
    assert (0 <= total As). { clear -H. induction H as [|c A l As (HF & HA & _) H IH]; cbn [total fold_right]; [lra|]. fold (total As). destruct HF. destruct (HA 0%Z 0%Z) as [_ X]; [lia|lia|]. pose proof (Rabs_pos (numbers (cr_screen c) 0 0)). lra. }
    assert (0 <= A). { destruct HF. destruct (HA 0%Z 0%Z) as [_ X]; [lia|lia|]. pose proof (Rabs_pos (numbers (cr_screen c) 0 0)). lra. }
    intros x [<-|I]; [lra|]. specialize (IH x I). lra. }
  destruct (crossings_ok l As H) as (vs & E & LV & N); [intros A I; specialize (P A I); lra|]. exists vs. split; [exact E|].
  assert (LA : length (map seen l) = length As) by (rewrite map_length; clear -H; induction H; cbn; congruence).
  assert (M1 : forall (xs ys : list R), length xs = length ys -> map fst (combine xs ys) = xs /\ map snd (combine xs ys) = ys).
  { induction xs as [|x xs IH]; intros [|y ys] L; try discriminate L; [split; reflexivity|]. injection L as L. destruct (IH ys L) as [A B]. cbn. rewrite A, B. split; reflexivity. }
  destruct (M1 _ _ LA) as [MF MS]. pose proof u_pos as U0. pose proof s_pos as S0.
  destruct vs as [|v vs].
  - destruct l; [|discriminate LV]. destruct As; [|discriminate LA]. cbn [sum64 total total_seen map fold_right]. destruct (ofZ_correct 0) as [F0 E0]; [lia|]. rewrite E0.
    split; [exact F0|]. pose proof (bpow_gt_0 radix2 (-1000)). rewrite Rminus_0_r, Rabs_R0. lra.
  - inversion N as [|v' p vs' ps' NV NS EQ1 EQ2]; subst. destruct NV as (Fv & Ea & Ev). cbn [sum64].
    assert (TS : total_seen l = fst p + sumf (map fst ps')) by (unfold total_seen; rewrite <- MF, <- EQ2; reflexivity).
    assert (TT : total As = snd p + sumf (map snd ps')) by (unfold total; rewrite <- MS, <- EQ2; reflexivity).
    pose proof (Rabs_pos (fst p)) as RP. assert (LL : (Z.of_nat (1 + length vs) <= 2 ^ 20)%Z) by (cbn [length] in LV; lia).
    assert (BG : 8 * bpow radix2 50 <= bpow radix2 1000). { change 8 with (bpow radix2 3). rewrite <- bpow_plus. apply bpow_le. lia. }
    assert (B1 : 1 <= bpow radix2 50). { change 1 with (bpow radix2 0). apply bpow_le. lia. }
    destruct (fold_ok vs ps' v (fst p) (snd p) 1 NS Fv LL) as (H1 & H2 & H3).
    + lra.
    + exact Ea.
    + eapply Rle_trans; [exact Ev|]. cbn [INR]. unfold Rdiv. assert (0 <= unit_roundoff * snd p) by (apply Rmult_le_pos; lra). lra.
    + rewrite <- TT. lra.
    + split; [exact H1|]. rewrite TS, TT in *. set (T := snd p + sumf (map snd ps')) in *. split; [pose proof (Rabs_pos (fst p + sumf (map fst ps'))); lra|].
      split; [exact H2|]. eapply Rle_trans; [exact H3|]. set (N1 := INR (1 + length vs)).
      assert (NB : 0 <= N1 <= bpow radix2 20). { unfold N1. split; [apply pos_INR|]. rewrite INR_IZR_INZ. apply Rle_trans with (IZR (2 ^ 20)); [apply IZR_le; exact LL|cbn; lra]. }
      assert (T0 : 0 <= T) by (pose proof (Rabs_pos (fst p + sumf (map fst ps'))); lra).
      assert (Q1 : unit_roundoff * N1 <= bpow radix2 (-33)). { eapply Rle_trans; [apply Rmult_le_compat_l; [lra|apply NB]|exact u53]. }
      assert (Q2 : bpow radix2 (-33) <= / 2000000000). { change (bpow radix2 (-33)) with (/ 8589934592). lra. }
      assert (Q3 : 20 * N1 * smallest <= bpow radix2 (-1000)).
      { apply Rle_trans with (bpow radix2 5 * bpow radix2 20 * smallest).
        - apply Rmult_le_compat_r; [lra|]. apply Rmult_le_compat; [lra|lra|change (bpow radix2 5) with 32; lra|lra].
        - unfold smallest. rewrite <- !bpow_plus. apply bpow_le. lia. }
      assert (Q4 : (/ 10 ^ 8 + 2 * unit_roundoff * N1) * T <= T * (11 / 10 ^ 9)).
      { rewrite Rmult_comm. apply Rmult_le_compat_l; [exact T0|]. replace (10 ^ 8) with 100000000 by ring. replace (10 ^ 9) with 1000000000 by ring. lra. }
      lra.
Qed.

(** The float infinite screen shows the turbulence where the wind has taken it. *)
From Coq Require Import ZArith List.
From Flocq Require Import Core BinarySingleNaN.
From Verif.Base Require Import Float64.
From Verif.Model Require Import Rounding64 FloatInterp.
From Verif.Spec Require Import FloatLoopSpec FloatInterpSpec.
From Verif.Proofs Require Import FloatLoopProofs RoundingProofs FloatInterpProofs FloatInterpCoords.
From Verif.Model Require Import FloatFlow.
From Verif.Spec Require Import FloatFlowSpec.
From Coq Require Import Reals Bool Lia Lra.
Import ListNotations.
Local Open Scope R_scope.

Lemma straight_shift d c x : straight (fun k => d (k + c)%Z) x = straight d (x + IZR c).
Proof.
  pose proof (Zfloor_lb x). pose proof (Zfloor_ub x). rewrite (straight_seg d (Zfloor x + c)); [|rewrite plus_IZR; lra]. unfold straight.
  replace (Zfloor x + 1 + c)%Z with (Zfloor x + c + 1)%Z by lia. rewrite plus_IZR. ring.
Qed.
Lemma straight_reflect d m x : straight (fun k => d (m - k)%Z) x = straight d (IZR m - x).
Proof.
  pose proof (Zfloor_lb x). pose proof (Zfloor_ub x). rewrite (straight_seg d (m - Zfloor x - 1)); [|rewrite !minus_IZR; lra]. unfold straight.
  replace (m - (Zfloor x + 1))%Z with (m - Zfloor x - 1)%Z by lia. replace (m - Zfloor x - 1 + 1)%Z with (m - Zfloor x)%Z by lia. rewrite !minus_IZR. ring.
Qed.
(** Lipschitz on a half line *)
Lemma straight_half d c D x y : (forall k, (c <= k)%Z -> Rabs (d (k + 1)%Z - d k) <= D) -> IZR c <= x -> IZR c <= y -> Rabs (straight d x - straight d y) <= D * Rabs (x - y).
Proof.
  intros H X Y. set (n := (2 + up (Rmax x y) - c)%Z).
  assert (B : Rmax x y - IZR c <= IZR (n - 1)). { unfold n. rewrite !minus_IZR, plus_IZR. destruct (archimed (Rmax x y)). lra. }
  pose proof (Rmax_l x y). pose proof (Rmax_r x y).
  replace x with (x - IZR c + IZR c) by ring. replace y with (y - IZR c + IZR c) by ring. rewrite <- !straight_shift.
  replace (x - IZR c + IZR c - (y - IZR c + IZR c)) with ((x - IZR c) - (y - IZR c)) by ring.
  apply (straight_lip n); [|lra|lra]. intros k K. replace (k + 1 + c)%Z with (k + c + 1)%Z by lia. apply H. lia.
Qed.
Lemma add_rows64_eq row n : forall made sc, add_rows64 row n made sc = map row (rev (seq made n)) ++ sc.
Proof.
  induction n as [|n IH]; intros made sc; [reflexivity|]. cbn [add_rows64 seq rev]. rewrite IH, map_app, <- app_assoc. reflexivity.
Qed.
Lemma firstn_app_firstn {X} L (a b : list X) : firstn L (a ++ firstn L b) = firstn L (a ++ b).
Proof. rewrite !firstn_app, firstn_firstn. replace (Nat.min (L - length a) L) with (L - length a)%nat by lia. reflexivity. Qed.

Section Flow.
  Variables (row : nat -> frow) (v : b64) (init : list frow).
  Let L := length init.
  Lemma run_state n : is_finite v = true -> 0 <= B2R v <= bpow radix2 52 -> exists t, inf_run64 row v L init n = Some t /\
    is_finite (fn_frac t) = true /\ 0 <= B2R (fn_frac t) < 1 /\ Rabs (INR (fn_made t) + B2R (fn_frac t) - INR n * B2R v) <= INR n * unit_roundoff /\
    fn_scr t = firstn L (map row (rev (seq 0 (fn_made t))) ++ init).
  Proof.
    intros Fv Bv.
    assert (P : exists t s, inf_run64 row v L init n = Some t /\ roll64_after v n = Some s /\ rl_rows s = Z.of_nat (fn_made t) /\ fn_frac t = rl_frac s /\
                fn_scr t = firstn L (map row (rev (seq 0 (fn_made t))) ++ init)).
    { destruct (int_correct v Fv (proj1 Bv)) as (k & Ek & _ & K0). induction n as [|n (t & s & Et & Es & R & F & S)].
      - exists (mkFinf init (ofZ64 0) 0), (mkRoll 0 (ofZ64 0)). cbn [inf_run64 roll64_after rl_rows rl_frac fn_made fn_frac fn_scr seq rev map app]. unfold L. rewrite firstn_all. repeat split.
      - cbn [inf_run64 roll64_after]. rewrite Et, Es. unfold inf_move64, roll_step64. rewrite Ek, F. set (f := add64 (rl_frac s) _). rewrite S.
        assert (Q : forall m, firstn L (add_rows64 row m (fn_made t) (firstn L (map row (rev (seq 0 (fn_made t))) ++ init))) = firstn L (map row (rev (seq 0 (fn_made t + m))) ++ init)).
        { intro m. rewrite add_rows64_eq, firstn_app_firstn. rewrite seq_app, rev_app_distr, map_app, app_assoc. reflexivity. }
        destruct (ge64 f (ofZ64 1)).
        + do 2 eexists. split; [reflexivity|]. split; [reflexivity|]. cbn [rl_rows fn_made fn_frac rl_frac fn_scr]. split; [|split; [reflexivity|apply Q]].
          rewrite R, Nat2Z.inj_add, Z2Nat.id by lia. lia.
        + do 2 eexists. split; [reflexivity|]. split; [reflexivity|]. cbn [rl_rows fn_made fn_frac rl_frac fn_scr]. split; [|split; [reflexivity|apply Q]].
          rewrite R, Nat2Z.inj_add, Z2Nat.id by lia. lia. }
    destruct P as (t & s & Et & Es & R & F & S). destruct (roll_bounds v n Fv Bv) as (s' & Es' & Ff & Bf & D). rewrite Es in Es'. injection Es' as <-.
    exists t. split; [exact Et|]. rewrite F. split; [exact Ff|]. split; [exact Bf|]. split; [|exact S]. rewrite INR_IZR_INZ. rewrite <- R. exact D.
  Qed.
  Lemma stored t i : fn_scr t = firstn L (map row (rev (seq 0 (fn_made t))) ++ init) -> (0 <= i < Z.of_nat L)%Z ->
    exists r, nth_error (fn_scr t) (Z.to_nat i) = Some r /\ (forall j, B2R (r j) = turbulence row init j (Z.of_nat (fn_made t) - 1 - i)) /\ ((exists k, r = row k) \/ In r init).
  Proof.
    intros E I. set (m := fn_made t) in *.
    assert (LM : length (map row (rev (seq 0 m))) = m) by (rewrite map_length, rev_length, seq_length; reflexivity).
    assert (N : nth_error (fn_scr t) (Z.to_nat i) = nth_error (map row (rev (seq 0 m)) ++ init) (Z.to_nat i)).
    { rewrite E. rewrite <- (firstn_skipn L (map row (rev (seq 0 m)) ++ init)) at 2. rewrite nth_error_app1; [reflexivity|]. rewrite firstn_length, app_length, LM. fold L. lia. }
    rewrite N. unfold turbulence. destruct (Z_lt_ge_dec i (Z.of_nat m)) as [B|B].
    - exists (row (m - 1 - Z.to_nat i)%nat). rewrite nth_error_app1 by (rewrite LM; lia). split; [|split; [|left; eauto]].
      + apply map_nth_error. rewrite (nth_error_nth' _ 0%nat) by (rewrite rev_length, seq_length; lia). f_equal. rewrite rev_nth by (rewrite seq_length; lia). rewrite seq_length.
        rewrite seq_nth by lia. lia.
      + intro j. replace (Z.of_nat m - 1 - i <? 0)%Z with false by lia. do 2 f_equal. f_equal. lia.
    - rewrite nth_error_app2 by (rewrite LM; lia). rewrite LM. assert (Q : (Z.to_nat i - m < length init)%nat) by (fold L; lia).
      exists (nth (Z.to_nat i - m) init (fun _ => ofZ64 0)). split; [apply nth_error_nth'; exact Q|]. split; [|right; apply nth_In; exact Q].
      intro j. replace (Z.of_nat m - 1 - i <? 0)%Z with true by lia. do 3 f_equal. lia.
  Qed.
  Lemma flow nx A D n i j : is_finite v = true -> 0 <= B2R v <= bpow radix2 52 -> calm row init nx A D -> A <= bpow radix2 800 ->
    (Z.of_nat L <= 2 ^ 20)%Z -> (nx <= 2 ^ 20)%Z -> (0 <= i)%Z -> (i + 2 < Z.of_nat L)%Z -> (0 <= j < nx - 2)%Z ->
    exists t r, inf_run64 row v L init n = Some t /\ inf_output64 nx t i j = Some r /\ is_finite r = true /\
      Rabs (B2R r - straight (turbulence row init (j + 1)) (INR n * B2R v - IZR (i + 2))) <= D * (INR n + IZR (i + 1)) * unit_roundoff + 20 * unit_roundoff * A + 9 * smallest.
  Proof.
    intros Fv Bv (C1 & C2 & C3) HA HL HX I0 I1 J. destruct (run_state n Fv Bv) as (t & Et & Ff & Bf & Dr & S). exists t.
    assert (LS : Z.of_nat (length (fn_scr t)) = Z.of_nat L). { rewrite S, firstn_length, app_length. fold L. lia. }
    set (a := inf_arr64 nx t).
    assert (FI : fits a) by (unfold fits, a, inf_arr64; cbn [fa_rows fa_cols]; rewrite LS; lia).
    assert (VA : forall p q, (0 <= p < Z.of_nat L)%Z -> numbers a p q = turbulence row init q (Z.of_nat (fn_made t) - 1 - p)).
    { intros p q P. destruct (stored t p S P) as (r & E & V & _). unfold numbers, a, inf_arr64. cbn [fa_at]. rewrite E. apply V. }
    assert (BA : bounded_by a A).
    { intros p q P Q. unfold a, inf_arr64 in *. cbn [fa_rows fa_cols] in P, Q. rewrite LS in P. destruct (stored t p S P) as (r & E & V & O). unfold numbers. cbn [fa_at]. rewrite E.
      destruct O as [[k ->]|O]; [apply C1; lia|apply C2; auto]. }
    destruct (ofZ_correct (i + 1)) as [Fi Ei]; [lia|]. destruct (ofZ_correct (j + 1)) as [Fj Ej]; [lia|].
    assert (I1R : 1 <= IZR (i + 1)) by (apply IZR_le; lia).
    assert (ILR : IZR (i + 1) < IZR (fa_rows a - 1)). { apply IZR_lt. unfold a, inf_arr64. cbn [fa_rows]. lia. }
    assert (IBR : IZR (i + 1) <= bpow radix2 20). { apply Rle_trans with (IZR (2 ^ 20)); [apply IZR_le; lia|cbn; lra]. }
    destruct (sub_correct (ofZ64 (i + 1)) (fn_frac t) Fi Ff) as [Fx Ex].
    { rewrite Ei, Rabs_pos_eq by lra. apply Rle_trans with (bpow radix2 20); [lra|apply bpow_le; lia]. }
    rewrite Ei in Ex. set (x := sub64 (ofZ64 (i + 1)) (fn_frac t)) in *. set (y := ofZ64 (j + 1)) in *.
    assert (L53 : B2R (fn_frac t) <= 1 - bpow radix2 (-53)).
    { replace (1 - bpow radix2 (-53)) with (pred radix2 (SpecFloat.fexp 53 1024) 1); [apply pred_ge_gt; [apply fexp_correct; reflexivity|apply (generic_format_B2R 53 1024)|apply (rep_Z 1); lia|lra]|].
      change 1 with (bpow radix2 0) at 1. rewrite pred_bpow. cbn. lra. }
    pose proof u_pos as U0. fold unit_roundoff in L53.
    assert (EX : Rabs (B2R x - (IZR (i + 1) - B2R (fn_frac t))) <= unit_roundoff * IZR (i + 1)).
    { rewrite Ex. eapply Rle_trans; [apply rnd_error|].
      - rewrite Rabs_pos_eq by lra. apply Rle_trans with (bpow radix2 (-53)); [apply bpow_le; lia|]. fold unit_roundoff. lra.
      - fold unit_roundoff. rewrite Rabs_pos_eq by lra. apply Rmult_le_compat_l; lra. }
    assert (BX : 0 <= B2R x <= IZR (i + 1)).
    { rewrite Ex. split; [rewrite <- (rnd_rep 0) by (apply (rep_Z 0); lia); apply rnd_le; lra|]. rewrite <- (rnd_rep (IZR (i + 1))) at 2 by (apply rep_Z; lia). apply rnd_le. lra. }
    assert (BY : 0 <= IZR (j + 1) < IZR (nx - 1)) by (split; [apply IZR_le; lia|apply IZR_lt; lia]).
    assert (KX : clamp64 (fa_rows a) x = x).
    { unfold clamp64. destruct (ge64 x _) eqn:G; [|reflexivity]. destruct (ofZ_correct (fa_rows a - 1)) as [F1 E1]; [destruct FI; lia|]. apply ge_correct in G; auto. rewrite E1 in G. lra. }
    assert (KY : clamp64 (fa_cols a) y = y).
    { unfold clamp64. destruct (ge64 y _) eqn:G; [|reflexivity]. destruct (ofZ_correct (fa_cols a - 1)) as [F1 E1]; [destruct FI; lia|]. apply ge_correct in G; auto. rewrite E1, Ej in G.
      unfold a, inf_arr64 in G. cbn [fa_cols] in G. lra. }
    destruct (kernel_inside a A FI BA HA x y Fx Fj) as (r & K & Fr & Er); [lra|rewrite Ej; exact BY|].
    exists r. split; [exact Et|]. split; [unfold inf_output64, interp64; fold a x y; rewrite KX, KY; exact K|]. split; [exact Fr|].
    rewrite Ej in Er. unfold bilinear in Er. unfold straight at 1 in Er. rewrite Zfloor_IZR, (Rminus_diag_eq (IZR (j + 1)) (IZR (j + 1)) eq_refl), Rmult_0_r, Rplus_0_r in Er.
    set (G := turbulence row init (j + 1)) in *. set (M := (Z.of_nat (fn_made t) - 1)%Z).
    assert (RF : straight (fun p => numbers a p (j + 1)) (B2R x) = straight G (IZR M - B2R x)).
    { rewrite <- straight_reflect. apply (straight_ext (Z.of_nat L)); [intros k K'; unfold M, G; apply VA; exact K'|]. split; [apply BX|].
      apply Rle_trans with (IZR (i + 1)); [apply BX|apply IZR_le; lia]. }
    rewrite RF in Er.
    assert (NV : 0 <= INR n * B2R v) by (apply Rmult_le_pos; [apply pos_INR|apply Bv]).
    assert (LIP : Rabs (straight G (IZR M - B2R x) - straight G (INR n * B2R v - IZR (i + 2))) <= D * (INR n + IZR (i + 1)) * unit_roundoff).
    { assert (M0 : 0 <= INR (fn_made t)) by apply pos_INR.
      assert (MI : IZR M = INR (fn_made t) - 1) by (unfold M; rewrite minus_IZR, <- INR_IZR_INZ; reflexivity).
      assert (C : IZR (- Z.of_nat L) <= - IZR (i + 2)) by (rewrite <- opp_IZR; apply IZR_le; lia).
      assert (I2 : IZR (i + 2) = IZR (i + 1) + 1) by (rewrite <- plus_IZR; f_equal; lia).
      eapply Rle_trans; [apply (straight_half G (- Z.of_nat L) D)|].
      - intros k K'. apply C3; [lia|exact K'].
      - lra.
      - lra.
      - rewrite Rmult_assoc. apply Rmult_le_compat_l.
        + eapply Rle_trans; [apply Rabs_pos|]. apply (C3 0%Z (j + 1)%Z); lia.
        + rewrite MI, I2. apply Rabs_le_inv in Dr. apply Rabs_le_inv in EX. apply Rabs_le. lra. }
    replace (B2R r - straight G (INR n * B2R v - IZR (i + 2))) with ((B2R r - straight G (IZR M - B2R x)) + (straight G (IZR M - B2R x) - straight G (INR n * B2R v - IZR (i + 2)))) by ring.
    eapply Rle_trans; [apply Rabs_triang|]. lra.
  Qed.
End Flow.

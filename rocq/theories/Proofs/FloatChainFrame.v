(** All layers and all frames. *)
From Coq Require Import ZArith List.
From Flocq Require Import Core BinarySingleNaN.
From Verif.Base Require Import Float64.
From Verif.Model Require Import Rounding64 FloatInterp FloatFlow FloatLos FloatFootprint.
From Verif.Spec Require Import FloatLoopSpec FloatInterpSpec FloatFlowSpec FloatLosSpec FloatFootprintSpec.
From Verif.Proofs Require Import FloatLoopProofs RoundingProofs FloatInterpProofs FloatInterpCoords FloatFlowProofs FloatLosFrame FloatFootprintFrame.
From Verif.Model Require Import FloatChain.
From Verif.Spec Require Import FloatChainSpec.
From Verif.Proofs Require Import FloatChainProofs.
From Coq Require Import Reals Bool Lia Lra.
Import ListNotations.
Local Open Scope R_scope.

Section Chain.
  Context (g : geometry64) (theta h G : R) (posx posy : b64) (p q : Z) (HS : sensible g theta h G) (HP : (0 <= p < g_nout g)%Z) (HQ : (0 <= q < g_nout g)%Z) (N5 : (5 <= g_scrn g)%Z).
  Local Notation nx := (g_scrn g).
  Lemma on_axis x : 2 <= x <= IZR (nx - 3) -> nearest_on nx x = x.
  Proof. intro X. assert (IZR (nx - 3) <= IZR (nx - 1)) by (apply IZR_le; lia). unfold nearest_on, Rmax, Rmin. repeat destruct (Rle_dec _ _); lra. Qed.
  Lemma nonneg ls ADs : Forall2 (blown g theta h posx posy p q) ls ADs -> 0 <= total (map fst ADs).
  Proof.
    intro H. induction H as [|l [A D] ls ADs (_ & _ & _ & A0 & _) H IH]; cbn [map total fold_right fst] in *; [lra|]. fold (total (map fst ADs)). pose proof (bpow_ge_0 radix2 (-900)). lra.
  Qed.
  Lemma screens_ok n ls ADs : Forall2 (blown g theta h posx posy p q) ls ADs -> total (map fst ADs) <= bpow radix2 100 ->
    exists s, screens64 nx ls n = Some s /\ fine g theta h posx posy s (map (fun AD => 80 * fst AD) ADs) /\ length s = length ls /\
      Rabs (exact_seen g posx posy p q s - sky g posx posy p q ls n) <= 80 * slack n ls ADs * unit_roundoff.
  Proof.
    intros H. induction H as [|l [A D] ls ADs (Fv & Bv & C & A0 & LL & SZ & DI & WX & WY & X & Y) H IH]; cbn [map total fold_right fst snd] in *; intro T.
    - exists []. cbn. repeat split; [constructor|]. rewrite Rminus_diag_eq, Rabs_R0 by reflexivity. lra.
    - fold (total (map fst ADs)) in T. pose proof (nonneg _ _ H) as NN. pose proof (bpow_ge_0 radix2 (-900)). destruct IH as (s & Es & FS & LN & B); [lra|].
      destruct (moved nx l A D Fv Bv C A0 ltac:(lra) LL ltac:(destruct HS as (_ & _ & _ & _ & _ & HSc & _); lia) SZ DI n) as (a & Ea & FI & BA & ER & Co & V). exists ((a, ly_alt l) :: s). cbn [screens64]. rewrite Ea, Es. split; [reflexivity|].
      split; [constructor; [cbn [fst snd]; auto|exact FS]|]. split; [cbn; rewrite LN; reflexivity|].
      unfold exact_seen, sky, slack in *. cbn [combine map total fold_right fst snd]. cbn [map fold_right fst snd]. rewrite ER, Co, !on_axis by assumption.
      set (x := footprint g (B2R posx) _ p) in *. set (y := footprint g (B2R posy) _ q) in *.
      match type of B with Rabs (?u - ?v) <= _ => set (S1 := u) in *; set (S2 := v) in * end.
      assert (Z : Rabs (bilinear (numbers a) x y - B2R nm64 * bilinear (air nx l n) x y) <= 80 * (D * (INR n + IZR (ly_nx l)) + (45 + 100 * IZR (ly_nx l)) * A) * unit_roundoff).
      { rewrite <- bilinear_times. apply (bilinear_near 2 (nx - 3)); auto. }
      replace (bilinear (numbers a) x y + S1 - (B2R nm64 * bilinear (air nx l n) x y + S2)) with ((bilinear (numbers a) x y - B2R nm64 * bilinear (air nx l n) x y) + (S1 - S2)) by ring.
      eapply Rle_trans; [apply Rabs_triang|]. unfold total in B. lra.
  Qed.
  Lemma total_80 ADs : total (map (fun AD : R * R => 80 * fst AD) ADs) = 80 * total (map fst ADs).
  Proof. induction ADs as [|AD ADs IH]; cbn; [ring|]. unfold total in IH. rewrite IH. ring. Qed.
  Lemma chain_frames c ls ADs (corr : list (list (farr * b64))) (Bs : list (list R)) : is_finite c = true -> bpow radix2 (-60) <= B2R c <= bpow radix2 60 ->
    Forall2 (blown g theta h posx posy p q) ls ADs -> (Z.of_nat (length ls) <= 2 ^ 20)%Z -> 80 * total (map fst ADs) <= bpow radix2 50 ->
    Forall2 (fun k B => fine g theta h posx posy k B /\ (Z.of_nat (length k) <= 2 ^ 20)%Z /\ total B <= bpow radix2 50) corr Bs ->
    forall d n0, exists fs rs, skies64 nx ls n0 corr = Some fs /\ los_run64 d c (map (fun f => (cross64 g posx posy p q (fst f), cross64 g posx posy p q (snd f))) fs) = Some rs /\
      length rs = length corr /\ forall m r k B, nth_error rs m = Some r -> nth_error corr m = Some k -> nth_error Bs m = Some B -> is_finite r = true /\
        Rabs (B2R r - (sky g posx posy p q ls (n0 + m) - exact_seen g posx posy p q k)) <=
          (/ 10 ^ 7 + 400 * unit_roundoff * G) * (80 * total (map fst ADs) + total B) + bpow radix2 (-80) + 80 * slack (n0 + m) ls ADs * unit_roundoff.
  Proof.
    intros FC BC HL LL TA H. induction H as [|k B ks Bs (M2 & L2 & T2) H IH]; intros d n0.
    - exists [], []. split; [reflexivity|]. split; [reflexivity|]. split; [reflexivity|]. intros [|m] r k B E; discriminate E.
    - assert (TA1 : total (map fst ADs) <= bpow radix2 100). { pose proof (nonneg _ _ HL). assert (bpow radix2 50 <= bpow radix2 100) by (apply bpow_le; lia). lra. }
      destruct (screens_ok n0 ls ADs HL TA1) as (s & Es & M1 & L1 & SK). destruct (cross_ok g theta h G posx posy p q s _ HS HP HQ M1) as [K1 X1].
      destruct (cross_ok g theta h G posx posy p q k B HS HP HQ M2) as [K2 X2].
      destruct (frame_ok d c (cross64 g posx posy p q s) (cross64 g posx posy p q k) _ _ K1 K2) as (r & ph & E & FR & _ & BB & _); auto; [unfold cross64; rewrite map_length; lia..|rewrite total_80; exact TA|].
      rewrite total_80 in *. destruct (IH Double (S n0)) as (fs & rs & EF & ER & LR & HR). exists ((s, k) :: fs), (r :: rs). cbn [skies64 map los_run64 fst snd]. rewrite Es, EF, E, ER. split; [reflexivity|]. split; [reflexivity|]. split; [cbn; rewrite LR; reflexivity|].
      intros [|m] r' k' B' Er Ek Eb; cbn [nth_error] in *; [|replace (n0 + S m)%nat with (S n0 + m)%nat by lia; exact (HR m r' k' B' Er Ek Eb)].
      injection Er as <-. injection Ek as <-. injection Eb as <-. rewrite Nat.add_0_r. split; [exact FR|].
      set (S := total_seen (cross64 g posx posy p q s)) in *. set (K := total_seen (cross64 g posx posy p q k)) in *. set (S' := exact_seen g posx posy p q s) in *. set (K' := exact_seen g posx posy p q k) in *. set (Y := sky _ _ _ _ _ _ _) in *.
      replace (B2R r - (Y - K')) with ((B2R r - (S - K)) + ((S - S') - (K - K')) + (S' - Y)) by ring. eapply Rle_trans; [apply Rabs_triang|]. apply Rplus_le_compat; [|exact SK].
      eapply Rle_trans; [apply Rabs_triang|].
      assert (YY : Rabs ((S - S') - (K - K')) <= 400 * unit_roundoff * G * (80 * total (map fst ADs) + total B)). { unfold Rminus at 1. eapply Rle_trans; [apply Rabs_triang|]. rewrite Rabs_Ropp. lra. }
      lra.
  Qed.
End Chain.

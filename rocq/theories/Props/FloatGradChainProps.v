(** Property theorem C207: from screens and mirrors to the slopes of a gradient sensor. *)
From Coq Require Import ZArith List Permutation.
From Flocq Require Import Core BinarySingleNaN.
From Verif.Base Require Import Float64.
From Verif.Model Require Import Rounding64 FloatInterp FloatLos FloatFootprint FloatDot FloatGrad.
From Verif.Spec Require Import FloatLoopSpec FloatInterpSpec FloatLosSpec FloatFootprintSpec FloatGradSpec.
From Verif.Proofs Require Import FloatFootprintFrame FloatLosFrame.
From Verif.Props Require Import FloatFootprintProps FloatGradProps.
From Coq Require Import Reals Bool Lia Lra.
From Verif.Model Require Import FloatGradChain.
From Verif.Spec Require Import FloatGradChainSpec.
From Verif.Proofs Require Import FloatGradChainProofs.
Import ListNotations.
Local Open Scope R_scope.

(** C207: on every frame of a run, both slopes of a sub-aperture are numbers, and differ from the tilts (arcsec) of the plane that fits best what exact arithmetic sees of the screens less
    the mirrors by no more than 5e-5 + 3200 * 2^-53 * G of the sum of the largest values (and 2^-40), over the phase of a tilt of one arcsec across the sub-aperture. *)
Theorem C207_slopes :
  forall (g : grad_sensor) (theta h G step : R) (frames : list (list (farr * b64) * list (farr * b64))) (bounds : list (list R * list R)) (ss : list (b64 * b64)),
    usable g theta h G step -> Forall2 (frame_within g theta h) frames bounds -> grad_run64 g Single frames ss ->
    length ss = length frames /\
    forall n s f b, nth_error ss n = Some s -> nth_error frames n = Some f -> nth_error bounds n = Some b ->
      let bound := ((5 / 10 ^ 5 + 3200 * unit_roundoff * G) * (total (fst b) + total (snd b)) + bpow radix2 (-40)) * B2R (gs_c g) / (step * INR (gs_w g)) in
      is_finite (fst s) = true /\ is_finite (snd s) = true /\
      Rabs (B2R (fst s) - best_x step (gs_w g) (exact_phase g f)) <= bound /\ Rabs (B2R (snd s) - best_y step (gs_w g) (exact_phase g f)) <= bound.
Proof.
  intros g theta h G step frames bounds ss HU HF. generalize Single. revert ss. induction HF as [|f b fs bs HB HF IH]; intros [|s ss] d HR; cbn [grad_run64] in HR; try contradiction HR.
  - split; [reflexivity|]. intros [|n] s f b E; discriminate E.
  - destruct HR as [H1 H2]. destruct (IH ss Double H2) as [IL IN]. split; [cbn; rewrite IL; reflexivity|]. intros [|n] s' f' b' Es Ef Eb; cbn [nth_error] in *; [|exact (IN n s' f' b' Es Ef Eb)].
    injection Es as <-. injection Ef as <-. injection Eb as <-. exact (grad_frame_ok g theta h G step d f b s HU HB H1).
Qed.
Print Assumptions C207_slopes.

(** The telescope and beacon of C196 with the sub-aperture of C205, at 600 nm: every two screens and a mirror with values up to 1000 nm give slopes. *)
Definition wavefront_sensor : grad_sensor :=
  mkSensor beacon (ofZ64 40) (ofZ64 (-30)) (div64 (ofZ64 1) (ofZ64 64)) (ofZ64 406) 128 16 32 16 (fun i j => if Nat.eqb i 0 then ofZ64 0 else ofZ64 1).
Example C207_instance : usable wavefront_sensor (/ 1000) 20000 256 (406 / 127) /\
  forall a b m, bounded_by a 1000 -> bounded_by b 1000 -> bounded_by m 1000 -> fits a -> fits b -> fits m ->
    let f := ([(a, ofZ64 0); (b, ofZ64 10000)], [(m, ofZ64 0)]) in
    frame_within wavefront_sensor (/ 1000) 20000 f ([1000; 1000], [1000]) /\ exists ss, grad_run64 wavefront_sensor Single [f; f] ss.
Proof.
  destruct C196_instance as (S & _ & _ & W). destruct C205_instance as (TL & EX & _).
  assert (V : forall z, (Z.abs z <= 2 ^ 53)%Z -> is_finite (ofZ64 z) = true /\ B2R (ofZ64 z) = IZR z) by (intros; apply ofZ_correct; assumption).
  assert (C64 : is_finite (div64 (ofZ64 1) (ofZ64 64)) = true /\ B2R (div64 (ofZ64 1) (ofZ64 64)) = bpow radix2 (-6)).
  { destruct (V 1%Z) as [F1 E1]; [lia|]. destruct (V 64%Z) as [F8 E8]; [lia|]. assert (B : 1 <= bpow radix2 1000) by (change 1 with (bpow radix2 0); apply bpow_le; lia).
    destruct (div_correct (ofZ64 1) (ofZ64 64) F1) as [F E]; [rewrite E8; lra|rewrite E1, E8, Rabs_pos_eq; lra|]. split; [exact F|]. rewrite E, E1, E8. replace (1 / 64) with (bpow radix2 (-6)) by (cbn; lra).
    apply rnd_rep. replace (bpow radix2 (-6)) with (1 * bpow radix2 (-6)) by ring. apply (rep_F2R 1); lia. }
  destruct C64 as [FC EC].
  assert (U : usable wavefront_sensor (/ 1000) 20000 256 (406 / 127)).
  { unfold usable, wavefront_sensor. cbn [gs_geo gs_c gs_amp gs_pupil gs_w gs_row gs_col gs_mask]. split; [exact S|]. split; [exact FC|]. split; [rewrite EC; split; apply bpow_le; lia|]. split; [exact TL|].
    do 4 (split; [cbn; lia|]). intros i j. destruct (Nat.eqb i 0); [destruct (V 0%Z) as [F E]; [lia|]|destruct (V 1%Z) as [F E]; [lia|]]; (split; [exact F|]); rewrite E; auto. }
  split; [exact U|]. intros a b m BA BB BM FA FB FM f.
  assert (K5 : 2000 <= bpow radix2 50) by (apply Rle_trans with (bpow radix2 11); [cbn; lra|apply bpow_le; lia]).
  assert (FW : frame_within wavefront_sensor (/ 1000) 20000 f ([1000; 1000], [1000])).
  { unfold frame_within, f, wavefront_sensor. cbn [fst snd gs_geo gs_posx gs_posy length total fold_right]. pose proof (W a b BA BB FA FB) as F1. pose proof (W m b BM BB FM FB) as F2.
    split; [exact F1|]. split; [inversion F2 as [|? ? ? ? G1 G2]; subst; constructor; [exact G1|constructor]|]. do 2 (split; [lia|]). split; lra. }
  assert (RI : forall i, (i < 16)%nat -> (0 <= gs_row wavefront_sensor + Z.of_nat i < g_nout (gs_geo wavefront_sensor))%Z) by (intros i Hi; change (0 <= 16 + Z.of_nat i < 64)%Z; lia).
  assert (CJ : forall i, (i < 16)%nat -> (0 <= gs_col wavefront_sensor + Z.of_nat i < g_nout (gs_geo wavefront_sensor))%Z) by (intros i Hi; change (0 <= 32 + Z.of_nat i < 64)%Z; lia).
  split; [exact FW|]. assert (ST : forall d, exists s, grad_frame64 wavefront_sensor d f s).
  { intro d.
    assert (PH : forall i j, exists ph, (i < 16)%nat -> (j < 16)%nat -> sees wavefront_sensor d f i j ph).
    { intros i j. destruct (Nat.ltb_spec i 16) as [Hi|Hi]; [|exists (ofZ64 0); intro; lia]. destruct (Nat.ltb_spec j 16) as [Hj|Hj]; [|exists (ofZ64 0); intros; lia].
      destruct FW as (M1 & M2 & L1 & L2 & T1 & T2). unfold sees.
      destruct (cross_ok (gs_geo wavefront_sensor) (/ 1000) 20000 256 (gs_posx wavefront_sensor) (gs_posy wavefront_sensor) (gs_row wavefront_sensor + Z.of_nat i) (gs_col wavefront_sensor + Z.of_nat j) _ _ S (RI i Hi) (CJ j Hj) M1) as [K1 _].
      destruct (cross_ok (gs_geo wavefront_sensor) (/ 1000) 20000 256 (gs_posx wavefront_sensor) (gs_posy wavefront_sensor) (gs_row wavefront_sensor + Z.of_nat i) (gs_col wavefront_sensor + Z.of_nat j) _ _ S (RI i Hi) (CJ j Hj) M2) as [K2 _].
      destruct (frame_ok d (gs_c wavefront_sensor) _ _ _ _ K1 K2) as (r & ph & E & _); [cbn; lia|cbn; lia|exact T1|exact T2|exact FC|cbn [gs_c wavefront_sensor]; rewrite EC; split; apply bpow_le; lia|].
      exists ph. intros _ _. exists r, Double. exact E. }
    assert (CH : exists F : nat -> nat -> b64, forall i j, (i < 16)%nat -> (j < 16)%nat -> sees wavefront_sensor d f i j (F i j)).
    { assert (CR : forall n (Q : nat -> b64 -> Prop), (forall k, exists x, (k < n)%nat -> Q k x) -> exists F, forall k, (k < n)%nat -> Q k (F k)).
      { induction n as [|n IH]; intros Q HQ; [exists (fun _ => ofZ64 0); intros; lia|]. destruct (IH Q) as [F HF0]. { intro k. destruct (HQ k) as [x Hx]. exists x. intro. apply Hx. lia. }
        destruct (HQ n) as [x Hx]. exists (fun k => if Nat.eqb k n then x else F k). intros k Hk. destruct (Nat.eqb_spec k n) as [->|]; [apply Hx; lia|apply HF0; lia]. }
      destruct (CR 256%nat (fun k x => sees wavefront_sensor d f (k / 16) (k mod 16) x)) as [F HF0].
      { intro k. destruct (PH (k / 16)%nat (k mod 16)%nat) as [x Hx]. exists x. intro Hk. apply Hx; [apply Nat.div_lt_upper_bound; lia|apply Nat.mod_upper_bound; lia]. }
      exists (fun i j => F (i * 16 + j)%nat). intros i j Hi Hj. pose proof (HF0 (i * 16 + j)%nat ltac:(lia)) as Q. replace ((i * 16 + j) / 16)%nat with i in Q by (apply (Nat.div_unique _ _ _ j); lia).
      replace ((i * 16 + j) mod 16)%nat with j in Q by (apply (Nat.mod_unique _ _ i); lia). exact Q. }
    destruct CH as [F HF0]. destruct (EX (fun i j => mul64 (F i j) (gs_mask wavefront_sensor i j))) as (rx & ry & GR). exists (rx, ry), F. split; [exact HF0|exact GR]. }
  destruct (ST Single) as [s1 H1]. destruct (ST Double) as [s2 H2]. exists [s1; s2]. split; [exact H1|]. split; [exact H2|exact I].
Qed.

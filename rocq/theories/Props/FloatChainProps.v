(** Property theorem C199: from the turbulence to the residual in floating-point arithmetic. *)
From Coq Require Import ZArith List.
From Flocq Require Import Core BinarySingleNaN.
From Verif.Base Require Import Float64.
From Verif.Model Require Import Rounding64 FloatInterp FloatFlow FloatLos FloatFootprint.
From Verif.Spec Require Import FloatLoopSpec FloatInterpSpec FloatFlowSpec FloatLosSpec FloatFootprintSpec.
From Verif.Proofs Require Import FloatLoopProofs.
From Verif.Model Require Import FloatChain.
From Verif.Spec Require Import FloatChainSpec.
From Verif.Proofs Require Import FloatChainProofs.
From Verif.Proofs Require Import FloatChainFrame.
From Coq Require Import Reals Bool Lia Lra.
Import ListNotations.
Local Open Scope R_scope.

(** C199: on frame m + 1 of a run, pixel (p, q) of the residual is, in nanometres, the sum over the layers of the turbulence the wind has brought there in m + 1 steps, where exact arithmetic puts the
    crossings, less the sum of the corrections there.  The error: a fraction 1e-7 + 400 u G of the largest values (G: the extent of the footprints), 2^-80, and 80 u times D (m + 1 + N) + (45 + 100 N) A
    for each layer (D: how much neighbouring rows differ, A: the largest phase, in radians; N: the layer's grid in pixels); u = 2^-53.  [B2R nm64] is the program's 500/(2 pi). *)
Theorem C199_chain :
  forall (g : geometry64) (theta h G : R) (posx posy : b64) (p q : Z) (c : b64) (ls : list flayer) (ADs : list (R * R)) (corr : list (list (farr * b64))) (Bs : list (list R)),
    sensible g theta h G -> (0 <= p < g_nout g)%Z -> (0 <= q < g_nout g)%Z -> (5 <= g_scrn g)%Z -> is_finite c = true -> bpow radix2 (-60) <= B2R c <= bpow radix2 60 ->
    Forall2 (blown g theta h posx posy p q) ls ADs -> (Z.of_nat (length ls) <= 2 ^ 20)%Z -> 80 * total (map fst ADs) <= bpow radix2 50 ->
    Forall2 (fun k B => fine g theta h posx posy k B /\ (Z.of_nat (length k) <= 2 ^ 20)%Z /\ total B <= bpow radix2 50) corr Bs ->
    exists rs, chain64 g posx posy p q c ls corr = Some rs /\ length rs = length corr /\
      forall m r k B, nth_error rs m = Some r -> nth_error corr m = Some k -> nth_error Bs m = Some B -> is_finite r = true /\
        Rabs (B2R r - (sky g posx posy p q ls (m + 1) - exact_seen g posx posy p q k)) <=
          (/ 10 ^ 7 + 400 * unit_roundoff * G) * (80 * total (map fst ADs) + total B) + bpow radix2 (-80) + 80 * slack (m + 1) ls ADs * unit_roundoff.
Proof.
  intros g theta h G posx posy p q c ls ADs corr Bs HS HP HQ N5 FC BC HL LL TA H.
  destruct (chain_frames g theta h G posx posy p q HS HP HQ N5 c ls ADs corr Bs FC BC HL LL TA H Single 1%nat) as (fs & rs & EF & ER & LR & HR).
  exists rs. unfold chain64. rewrite EF. split; [exact ER|]. split; [exact LR|]. intros m r k B Er Ek Eb. rewrite Nat.add_comm. exact (HR m r k B Er Ek Eb).
Qed.
Print Assumptions C199_chain.

(** A telescope of 1 m and 8 pixels, screens of 16 pixels, a star 10 arcsec off axis; a layer at the ground with a wind of 1.25 pixels per frame along the columns and one at 10 km with a wind of
    2 pixels in the direction of (0.6, 0.8), on a grid of 46 pixels; rows of 0, 1, ..., 45 and rows of 7 in turn, after rows of 0, -1, ..., -45.  The theorem applies to pixel (0, 7) and any number
    of frames corrected by one mirror. *)
Definition star : geometry64 := mkGeo (lit64 5723664318800627 (-70)) (ofZ64 0) (div64 (ofZ64 1) (ofZ64 8)) (div64 (ofZ64 1) (ofZ64 8)) 8 16.
Definition st_row (k : nat) : frow := fun j => ofZ64 (if Nat.even k then j else 7).
Definition st_init (n : nat) : list frow := repeat (fun j => ofZ64 (- j)) n.
Definition ground : flayer := mkFlayer st_row (lit64 5 (-2)) (st_init 16) 16 H270 (ofZ64 0).
Definition aloft : flayer := mkFlayer st_row (ofZ64 2) (st_init 46) 46 (Oblique (lit64 5404319552844595 (-53)) (lit64 7205759403792794 (-53))) (ofZ64 10000).
Lemma st_calm n : (n <= 46)%nat -> calm st_row (st_init n) (Z.of_nat n) 45 90.
Proof.
  intro H46. assert (N : forall z, (-45 <= z <= 45)%Z -> is_finite (ofZ64 z) = true /\ Rabs (B2R (ofZ64 z)) <= 45).
  { intros z Z7. destruct (ofZ_correct z) as [F E]; [lia|]. split; [exact F|]. rewrite E. rewrite <- abs_IZR. apply (IZR_le _ 45). lia. }
  assert (T : forall k j, (0 <= j < Z.of_nat n)%Z -> (- Z.of_nat n <= k)%Z -> Rabs (turbulence st_row (st_init n) j k) <= 45).
  { intros k j J K. unfold turbulence. destruct (k <? 0)%Z eqn:B.
    - unfold st_init. rewrite (nth_indep _ (fun _ => ofZ64 0) (fun j : Z => ofZ64 (- j))) by (rewrite repeat_length; lia). rewrite nth_repeat. apply N. lia.
    - apply N. unfold st_row. destruct (Nat.even _); lia. }
  split; [|split].
  - intros k j J. apply N. unfold st_row. destruct (Nat.even k); lia.
  - intros r j Hr J. apply repeat_spec in Hr. subst r. apply N. lia.
  - intros k j J K. unfold st_init in K. rewrite repeat_length in K. replace 90 with (45 + 45) by ring. unfold Rminus. eapply Rle_trans; [apply Rabs_triang|]. rewrite Rabs_Ropp.
    apply Rplus_le_compat; apply T; auto; lia.
Qed.
Example C199_instance : sensible star (/ 1000) 20000 256 /\ Forall2 (blown star (/ 1000) 20000 (ofZ64 10) (ofZ64 (-10)) 0 7) [ground; aloft] [(45, 90); (45, 90)] /\
  forall a n, fits a -> bounded_by a 1000 ->
    exists rs, chain64 star (ofZ64 10) (ofZ64 (-10)) 0 7 (ofZ64 1) [ground; aloft] (repeat [(a, ofZ64 0)] n) = Some rs /\ length rs = n /\ forall m r, nth_error rs m = Some r -> (Z.of_nat m < 1000000)%Z ->
      Rabs (B2R r - (sky star (ofZ64 10) (ofZ64 (-10)) 0 7 [ground; aloft] (m + 1) - exact_seen star (ofZ64 10) (ofZ64 (-10)) 0 7 [(a, ofZ64 0)])) <= / 1000.
Proof.
  assert (B : 1 <= bpow radix2 1000) by (change 1 with (bpow radix2 0); apply bpow_le; lia).
  assert (V : forall z, (Z.abs z <= 2 ^ 53)%Z -> is_finite (ofZ64 z) = true /\ B2R (ofZ64 z) = IZR z) by (intros; apply ofZ_correct; assumption).
  assert (Z8 : is_finite (div64 (ofZ64 1) (ofZ64 8)) = true /\ B2R (div64 (ofZ64 1) (ofZ64 8)) = / 8).
  { destruct (V 1%Z) as [F1 E1]; [lia|]. destruct (V 8%Z) as [F8 E8]; [lia|].
    destruct (div_correct (ofZ64 1) (ofZ64 8) F1) as [F E]; [rewrite E8; lra|rewrite E1, E8, Rabs_pos_eq; lra|]. split; [exact F|]. rewrite E, E1, E8. replace (1 / 8) with (bpow radix2 (-3)) by (cbn; lra).
    rewrite rnd_rep; [cbn; lra|]. replace (bpow radix2 (-3)) with (1 * bpow radix2 (-3)) by ring. apply (rep_F2R 1); lia. }
  assert (ZA : is_finite (lit64 5723664318800627 (-70)) = true /\ B2R (lit64 5723664318800627 (-70)) = 5723664318800627 / 1180591620717411303424).
  { destruct (lit_correct 5723664318800627 (-70)) as [F E]; [rewrite Rabs_pos_eq; [|apply Rmult_le_pos; [lra|apply bpow_ge_0]]; cbn; cbn in B; lra|].
    split; [exact F|]. rewrite E, rnd_rep by (apply rep_F2R; lia). reflexivity. }
  assert (ZV : is_finite (lit64 5 (-2)) = true /\ B2R (lit64 5 (-2)) = 5 / 4).
  { assert (BW : bpow radix2 (-2) = / 4) by (cbn; lra). destruct (lit_correct 5 (-2)) as [F E].
    - rewrite BW, Rabs_pos_eq by lra. apply Rle_trans with (bpow radix2 1); [change (bpow radix2 1) with 2; lra|apply bpow_le; lia].
    - split; [exact F|]. rewrite E, rnd_rep by (apply rep_F2R; cbn; lia). rewrite BW. lra. }
  assert (ZL : forall k, (0 <= k <= 2 ^ 53)%Z -> is_finite (lit64 k (-53)) = true /\ B2R (lit64 k (-53)) = IZR k / 9007199254740992).
  { intros k K. assert (BW : bpow radix2 (-53) = / 9007199254740992) by (cbn; lra). assert (0 <= IZR k <= 9007199254740992) by (split; [apply IZR_le; lia|apply (IZR_le k 9007199254740992); lia]).
    destruct (lit_correct k (-53)) as [F E]; [rewrite BW, Rabs_pos_eq; lra|]. split; [exact F|]. rewrite E, rnd_rep by (apply rep_F2R; lia). rewrite BW. lra. }
  assert (P1 : bpow radix2 (-100) <= / 1024 /\ 1048576 <= bpow radix2 100). { change (/ 1024) with (bpow radix2 (-10)). change 1048576 with (bpow radix2 20). split; apply bpow_le; lia. }
  assert (P2 : bpow radix2 (-900) <= 1 /\ 2 <= bpow radix2 52 /\ 8192 <= bpow radix2 50 /\ bpow radix2 (-60) <= 1 <= bpow radix2 60).
  { change 1 with (bpow radix2 0). change 2 with (bpow radix2 1). change 8192 with (bpow radix2 13). repeat split; apply bpow_le; lia. }
  destruct Z8 as [F8 E8]. destruct ZA as [FA EA]. destruct ZV as [FV EV]. destruct (V 0%Z) as [F0 E0]; [lia|]. destruct (V 2%Z) as [F2 E2]; [lia|]. destruct (V 10%Z) as [F10 E10]; [lia|].
  destruct (V (-10)%Z) as [Fm Em]; [lia|]. destruct (V 10000%Z) as [FT ET]; [lia|]. destruct (V 1%Z) as [F1 E1]; [lia|].
  assert (S : sensible star (/ 1000) 20000 256).
  { unfold sensible, star. cbn [g_asec g_src g_pix g_opix g_nout g_scrn]. rewrite E8. repeat split; auto; try lia; try lra. }
  assert (W : forall p a, (-10 <= p <= 10)%Z -> (0 <= a <= 20000)%Z -> within star (/ 1000) 20000 (ofZ64 p) (ofZ64 a)).
  { intros p a HP HA. destruct (V p) as [Fp Ep]; [lia|]. destruct (V a) as [Fa Ea]; [lia|]. unfold within, star. cbn [g_asec g_src]. rewrite EA, Ep, Ea, E0.
    assert (-10 <= IZR p <= 10) by (split; apply IZR_le; lia). assert (0 <= IZR a <= 20000) by (split; apply IZR_le; lia). repeat split; auto; try lra. apply Rabs_le. lra. }
  assert (FP : forall pos alt k, footprint star pos alt k = 5723664318800627 / 1180591620717411303424 * pos * alt * 8 + 4 + IZR k).
  { intros pos alt k. unfold footprint, beam, star. cbn [g_asec g_src g_pix g_opix g_nout g_scrn]. rewrite EA, E8, E0. destruct (Req_EM_T 0 0) as [_|N]; [|lra]. change (8 - 1)%Z with 7%Z. field. }
  assert (BL : Forall2 (blown star (/ 1000) 20000 (ofZ64 10) (ofZ64 (-10)) 0 7) [ground; aloft] [(45, 90); (45, 90)]).
  { constructor; [|constructor; [|constructor]]; unfold blown, ground, aloft; cbn [fst snd ly_v ly_row ly_init ly_nx ly_alt]; rewrite ?EV, ?E2, ?FP, ?E10, ?Em, ?E0, ?ET;
      (split; [assumption|]); (split; [lra|]).
    - split; [apply (st_calm 16); lia|]. split; [lra|]. split; [cbn; lia|]. split; [reflexivity|]. split; [exact I|]. split; [apply W; lia|]. split; [apply W; lia|]. cbn [star g_scrn]; change (16 - 3)%Z with 13%Z; lra.
    - split; [apply (st_calm 46); lia|]. split; [lra|]. split; [cbn; lia|]. split; [vm_compute; reflexivity|]. split; [|split; [apply W; lia|]; split; [apply W; lia|]; cbn [star g_scrn]; change (16 - 3)%Z with 13%Z; lra].
      unfold directed. cbn [ly_dir]. destruct (ZL 5404319552844595%Z) as [Fc Ec]; [lia|]. destruct (ZL 7205759403792794%Z) as [Fs Es]; [lia|]. rewrite Ec, Es.
      repeat split; auto. change (bpow radix2 (-45)) with (/ 35184372088832). lra. }
  split; [exact S|]. split; [exact BL|]. intros a n FA' BA.
  destruct (C199_chain star (/ 1000) 20000 256 (ofZ64 10) (ofZ64 (-10)) 0 7 (ofZ64 1) [ground; aloft] [(45, 90); (45, 90)] (repeat [(a, ofZ64 0)] n) (repeat [1000] n) S) as (rs & E & L & H);
    [cbn; lia|cbn; lia|cbn; lia|exact F1|rewrite E1; lra|exact BL|cbn; lia|cbn; lra| |].
  - induction n as [|n IH]; constructor; [|exact IH]. split; [constructor; [cbn [fst snd]; split; [exact FA'|]; split; [exact BA|]; split; apply W; lia|constructor]|]. cbn. split; [lia|lra].
  - exists rs. split; [exact E|]. rewrite repeat_length in L. split; [exact L|]. intros m r Er M. assert (ML : (m < n)%nat) by (rewrite <- L; apply nth_error_Some; congruence).
    destruct (H m r [(a, ofZ64 0)] [1000] Er) as [_ X]; [apply nth_error_repeat; exact ML..|].
    eapply Rle_trans; [exact X|]. unfold slack. cbn [combine map total fold_right fst snd ground aloft ly_nx]. assert (IM : INR (m + 1) <= 1000000). { rewrite INR_IZR_INZ. apply IZR_le. lia. }
    assert (U : unit_roundoff = / 9007199254740992) by (unfold unit_roundoff; cbn; lra). assert (T80 : bpow radix2 (-80) <= / 1000000). { apply Rle_trans with (bpow radix2 (-20)); [apply bpow_le; lia|change (bpow radix2 (-20)) with (/ 1048576); lra]. }
    rewrite U. replace (10 ^ 7) with 10000000 by ring. lra.
Qed.

(** Property theorem C196: footprints in floating-point arithmetic. *)
From Coq Require Import ZArith List.
From Flocq Require Import Core BinarySingleNaN.
From Verif.Base Require Import Float64.
From Verif.Model Require Import Rounding64 FloatInterp.
From Verif.Spec Require Import FloatLoopSpec FloatInterpSpec.
From Verif.Model Require Import FloatLos.
From Verif.Spec Require Import FloatLosSpec.
From Verif.Proofs Require Import FloatLosFrame.
From Verif.Model Require Import FloatFootprint.
From Verif.Spec Require Import FloatFootprintSpec.
From Verif.Proofs Require Import FloatFootprintProofs.
From Verif.Proofs Require Import FloatFootprintFrame.
From Coq Require Import Reals Bool Lia Lra.
Import ListNotations.
Local Open Scope R_scope.

(** C196: the coordinates at which a line of sight crosses a layer are numbers and miss those of exact arithmetic by no more than 100 * 2^-53 of the extent of the footprints (in pixels). *)
Theorem C196_footprints :
  forall (g : geometry64) (theta h G : R) (pos alt : b64) (k : Z), sensible g theta h G -> within g theta h pos alt -> (0 <= k < g_nout g)%Z ->
    is_finite (footprint64 g pos alt k) = true /\ Rabs (B2R (footprint64 g pos alt k) - footprint g (B2R pos) (B2R alt) k) <= 100 * unit_roundoff * G.
Proof. intros g theta h G pos alt k HS HW HK. exact (footprint_ok g theta h G pos alt HS HW k HK). Qed.
Print Assumptions C196_footprints.

(** C196: so on every frame of a run, from the configured direction and altitudes to the residual, the pixel (p, q) is the sum of the screens less the sum of the corrections,
    interpolated where exact arithmetic puts the crossings, up to a fraction 1e-7 + 400 * 2^-53 * G of the sum of the largest values (and 2^-80). *)
Theorem C196_residual :
  forall (g : geometry64) (theta h G : R) (posx posy : b64) (p q : Z) (c : b64) (frames : list (list (farr * b64) * list (farr * b64))) (bounds : list (list R * list R)),
    sensible g theta h G -> (0 <= p < g_nout g)%Z -> (0 <= q < g_nout g)%Z -> is_finite c = true -> bpow radix2 (-60) <= B2R c <= bpow radix2 60 ->
    Forall2 (fun f b => fine g theta h posx posy (fst f) (fst b) /\ fine g theta h posx posy (snd f) (snd b) /\
               (Z.of_nat (length (fst f)) <= 2 ^ 20)%Z /\ (Z.of_nat (length (snd f)) <= 2 ^ 20)%Z /\ total (fst b) <= bpow radix2 50 /\ total (snd b) <= bpow radix2 50) frames bounds ->
    exists rs, los_run64 Single c (map (fun f => (cross64 g posx posy p q (fst f), cross64 g posx posy p q (snd f))) frames) = Some rs /\
      length rs = length frames /\ forall n r f b, nth_error rs n = Some r -> nth_error frames n = Some f -> nth_error bounds n = Some b ->
        is_finite r = true /\
        Rabs (B2R r - (exact_seen g posx posy p q (fst f) - exact_seen g posx posy p q (snd f))) <= (/ 10 ^ 7 + 400 * unit_roundoff * G) * (total (fst b) + total (snd b)) + bpow radix2 (-80).
Proof.
  intros g theta h G posx posy p q c frames bounds HS HP HQ FC BC H. generalize Single. induction H as [|f b fs bs (M1 & M2 & L1 & L2 & T1 & T2) H IH]; intro d.
  - exists []. split; [reflexivity|]. split; [reflexivity|]. intros [|n] r f b E; discriminate E.
  - destruct f as [s k]. destruct b as [As Bs]. cbn [fst snd] in *. destruct (cross_ok g theta h G posx posy p q s As HS HP HQ M1) as [K1 X1]. destruct (cross_ok g theta h G posx posy p q k Bs HS HP HQ M2) as [K2 X2].
    destruct (frame_ok d c (cross64 g posx posy p q s) (cross64 g posx posy p q k) As Bs K1 K2) as (r & ph & E & FR & _ & B & _); auto; [unfold cross64; rewrite map_length; assumption..|].
    destruct (IH Double) as (rs & ER & LR & HR). exists (r :: rs). cbn [map los_run64 fst snd]. rewrite E, ER. split; [reflexivity|]. split; [cbn; rewrite LR; reflexivity|].
    intros [|n] r' f b Er Ef Eb; cbn [nth_error] in *; [|exact (HR n r' f b Er Ef Eb)]. injection Er as <-. injection Ef as <-. injection Eb as <-. cbn [fst snd]. split; [exact FR|].
    set (S := total_seen (cross64 g posx posy p q s)) in *. set (K := total_seen (cross64 g posx posy p q k)) in *. set (S' := exact_seen g posx posy p q s) in *. set (K' := exact_seen g posx posy p q k) in *.
    replace (B2R r - (S' - K')) with ((B2R r - (S - K)) + ((S - S') - (K - K'))) by ring. eapply Rle_trans; [apply Rabs_triang|]. 
    assert (Y : Rabs ((S - S') - (K - K')) <= 400 * unit_roundoff * G * (total As + total Bs)). { unfold Rminus at 1. eapply Rle_trans; [apply Rabs_triang|]. rewrite Rabs_Ropp. lra. }
    lra.
Qed.
Print Assumptions C196_residual.

(** A telescope of 8 m and 64 pixels, screens of 256 pixels of an eighth of a metre, a sodium beacon at 90 km and 40 arcsec off axis, layers up to 20 km; ASEC2RAD is the number of the program. *)
Definition beacon : geometry64 := mkGeo (lit64 5723664318800627 (-70)) (ofZ64 90000) (div64 (ofZ64 1) (ofZ64 8)) (div64 (ofZ64 1) (ofZ64 8)) 64 256.
Example C196_instance : sensible beacon (/ 1000) 20000 256 /\ within beacon (/ 1000) 20000 (ofZ64 40) (ofZ64 10000) /\
  within beacon (/ 1000) 20000 (ofZ64 (-30)) (ofZ64 0) /\
  forall a b, bounded_by a 1000 -> bounded_by b 1000 -> fits a -> fits b -> fine beacon (/ 1000) 20000 (ofZ64 40) (ofZ64 (-30)) [(a, ofZ64 0); (b, ofZ64 10000)] [1000; 1000].
Proof.
  assert (Z8 : is_finite (div64 (ofZ64 1) (ofZ64 8)) = true /\ B2R (div64 (ofZ64 1) (ofZ64 8)) = / 8).
  { destruct (ofZ_correct 1) as [F1 E1]; [lia|]. destruct (ofZ_correct 8) as [F8 E8]; [lia|]. assert (B : 1 <= bpow radix2 1000) by (change 1 with (bpow radix2 0); apply bpow_le; lia).
    destruct (div_correct (ofZ64 1) (ofZ64 8) F1) as [F E]; [rewrite E8; lra|rewrite E1, E8, Rabs_pos_eq; lra|]. split; [exact F|]. rewrite E, E1, E8. replace (1 / 8) with (bpow radix2 (-3)) by (cbn; lra).
    rewrite rnd_rep; [cbn; lra|]. replace (bpow radix2 (-3)) with (1 * bpow radix2 (-3)) by ring. apply (rep_F2R 1); lia. }
  assert (ZA : is_finite (lit64 5723664318800627 (-70)) = true /\ B2R (lit64 5723664318800627 (-70)) = 5723664318800627 * bpow radix2 (-70)).
  { assert (B : 1 <= bpow radix2 1000) by (change 1 with (bpow radix2 0); apply bpow_le; lia). destruct (lit_correct 5723664318800627 (-70)) as [F E]; [rewrite Rabs_pos_eq; [|apply Rmult_le_pos; [lra|apply bpow_ge_0]]; cbn; cbn in B; lra|].
    split; [exact F|]. rewrite E. apply rnd_rep. apply rep_F2R; lia. }
  assert (P1 : bpow radix2 (-100) <= / 1024 /\ 1048576 <= bpow radix2 100). { change (/ 1024) with (bpow radix2 (-10)). change 1048576 with (bpow radix2 20). split; apply bpow_le; lia. }
  assert (V : forall z, (Z.abs z <= 2 ^ 53)%Z -> is_finite (ofZ64 z) = true /\ B2R (ofZ64 z) = IZR z) by (intros; apply ofZ_correct; assumption).
  destruct Z8 as [F8 E8]. destruct ZA as [FA EA]. assert (S : sensible beacon (/ 1000) 20000 256).
  { unfold sensible, beacon. cbn [g_asec g_src g_pix g_opix g_nout g_scrn]. rewrite E8. destruct (V 90000%Z) as [F9 E9]; [lia|]. repeat split; auto; try lia; try lra. }
  assert (W : forall p a, (-40 <= p <= 40)%Z -> (0 <= a <= 20000)%Z -> within beacon (/ 1000) 20000 (ofZ64 p) (ofZ64 a)).
  { intros p a HP HA. destruct (V p) as [Fp Ep]; [lia|]. destruct (V a) as [Fa Ea]; [lia|]. destruct (V 90000%Z) as [F9 E9]; [lia|]. unfold within, beacon. cbn [g_asec g_src]. rewrite EA, Ep, Ea, E9.
    assert (-40 <= IZR p <= 40) by (split; apply IZR_le; lia). assert (0 <= IZR a <= 20000) by (split; apply IZR_le; lia). repeat split; auto; try lra.
    apply Rabs_le. change (bpow radix2 (-70)) with (/ 1180591620717411303424). lra. }
  split; [exact S|]. split; [apply W; lia|]. split; [apply W; lia|]. intros a b BA BB FTA FTB. apply Forall2_cons; [|apply Forall2_cons; [|apply Forall2_nil]]; cbn [fst snd]; (split; [assumption|]); (split; [assumption|]); split; apply W; lia.
Qed.

(** Property theorem C204: the way of a laser up through the atmosphere in floating-point arithmetic. *)
From Coq Require Import ZArith List.
From Flocq Require Import Core BinarySingleNaN.
From Verif.Base Require Import Float64.
From Verif.Model Require Import Rounding64 FloatInterp.
From Verif.Spec Require Import FloatLoopSpec FloatInterpSpec.
From Verif.Model Require Import FloatLos.
From Verif.Spec Require Import FloatLosSpec.
From Verif.Proofs Require Import FloatLosFrame.
From Verif.Model Require Import FloatFootprint.
From Verif.Spec Require Import FloatFootprintSpec.
From Verif.Proofs Require Import FloatFootprintProofs FloatFootprintFrame.
From Verif.Props Require Import FloatFootprintProps.
From Coq Require Import Reals Bool Lia Lra.
From Verif.Model Require Import FloatLaunch.
From Verif.Spec Require Import FloatLaunchSpec.
From Verif.Proofs Require Import FloatLaunchProofs.
Import ListNotations.
Local Open Scope R_scope.

(** C204: the coordinates at which a laser crosses a layer on its way up are numbers, and miss those on the straight way from the launch position to the guide star by no more than
    150 * 2^-53 of the extent of the footprints (in pixels).  This way begins at the launch position, ends at the guide star, and is that of the light coming down if the laser is
    launched from the centre of the telescope. *)
Theorem C204_footprints :
  forall (g : geometry64) (theta h G : R) (pos at_ diam alt : b64) (k : Z), sensible g theta h G -> launched g theta h G at_ diam -> within g theta h pos alt -> (0 <= k < g_nout g)%Z ->
    let L := B2R at_ * B2R diam / 2 in
    is_finite (up_footprint64 g pos (launch64 at_ diam) alt k) = true /\
    Rabs (B2R (up_footprint64 g pos (launch64 at_ diam) alt k) - laser_footprint g (B2R pos) L (B2R alt) k) <= 150 * unit_roundoff * G /\
    laser_axis g (B2R pos) L 0 = L /\
    (B2R (g_src g) <> 0 -> laser_axis g (B2R pos) L (B2R (g_src g)) = B2R (g_src g) * (B2R (g_asec g) * B2R pos)) /\
    laser_footprint g (B2R pos) 0 (B2R alt) k = footprint g (B2R pos) (B2R alt) k.
Proof.
  intros g theta h G pos at_ diam alt k HS HL HW HK. cbv zeta. pose proof (launch_ok _ _ _ _ _ _ HS HL) as A. destruct HL as (_ & _ & B & _).
  destruct (laser_ok g theta h G pos alt _ _ HS HW A B k HK) as [F E]. split; [exact F|]. split; [exact E|].
  unfold laser_footprint, footprint, laser_axis. cbv zeta. split; [destruct (Req_EM_T _ 0); [lra|field; assumption]|]. split.
  - intro N. destruct (Req_EM_T _ 0); [contradiction|]. field. assumption.
  - f_equal. f_equal. f_equal. unfold Rdiv at 1 3. f_equal. destruct (Req_EM_T (B2R (g_src g)) 0); [ring|field; assumption].
Qed.
Print Assumptions C204_footprints.

(** C204: so on every frame of a run the pixel (p, q) of the laser's field holds the sum of the screens less the sum of the precorrections, interpolated on this way, up to a fraction
    1e-7 + 600 * 2^-53 * G of the sum of the largest values (and 2^-80). *)
Theorem C204_residual :
  forall (g : geometry64) (theta h G : R) (posx posy ax ay diam : b64) (p q : Z) (c : b64) (frames : list (list (farr * b64) * list (farr * b64))) (bounds : list (list R * list R)),
    sensible g theta h G -> launched g theta h G ax diam -> launched g theta h G ay diam -> (0 <= p < g_nout g)%Z -> (0 <= q < g_nout g)%Z -> is_finite c = true -> bpow radix2 (-60) <= B2R c <= bpow radix2 60 ->
    Forall2 (fun f b => fine g theta h posx posy (fst f) (fst b) /\ fine g theta h posx posy (snd f) (snd b) /\
               (Z.of_nat (length (fst f)) <= 2 ^ 20)%Z /\ (Z.of_nat (length (snd f)) <= 2 ^ 20)%Z /\ total (fst b) <= bpow radix2 50 /\ total (snd b) <= bpow radix2 50) frames bounds ->
    exists rs, los_run64 Single c (map (fun f => (up_cross64 g posx posy (launch64 ax diam) (launch64 ay diam) p q (fst f), up_cross64 g posx posy (launch64 ax diam) (launch64 ay diam) p q (snd f))) frames) = Some rs /\
      length rs = length frames /\ forall n r f b, nth_error rs n = Some r -> nth_error frames n = Some f -> nth_error bounds n = Some b ->
        is_finite r = true /\
        Rabs (B2R r - (laser_seen g (B2R posx) (B2R posy) (B2R ax * B2R diam / 2) (B2R ay * B2R diam / 2) p q (fst f) - laser_seen g (B2R posx) (B2R posy) (B2R ax * B2R diam / 2) (B2R ay * B2R diam / 2) p q (snd f))) <= (/ 10 ^ 7 + 600 * unit_roundoff * G) * (total (fst b) + total (snd b)) + bpow radix2 (-80).
Proof.
  intros g theta h G posx posy ax ay diam p q c frames bounds HS LX LY HP HQ FC BC H. generalize Single. induction H as [|f b fs bs (M1 & M2 & L1 & L2 & T1 & T2) H IH]; intro d.
  - exists []. split; [reflexivity|]. split; [reflexivity|]. intros [|n] r f b E; discriminate E.
  - destruct f as [s k]. destruct b as [As Bs]. cbn [fst snd] in *. destruct (laser_cross_ok g theta h G posx posy ax ay diam p q s As HS LX LY HP HQ M1) as [K1 X1]. destruct (laser_cross_ok g theta h G posx posy ax ay diam p q k Bs HS LX LY HP HQ M2) as [K2 X2].
    destruct (frame_ok d c (up_cross64 g posx posy (launch64 ax diam) (launch64 ay diam) p q s) (up_cross64 g posx posy (launch64 ax diam) (launch64 ay diam) p q k) As Bs K1 K2) as (r & ph & E & FR & _ & B & _); auto; [unfold up_cross64; rewrite map_length; assumption..|].
    destruct (IH Double) as (rs & ER & LR & HR). exists (r :: rs). cbn [map los_run64 fst snd]. rewrite E, ER. split; [reflexivity|]. split; [cbn; rewrite LR; reflexivity|].
    intros [|n] r' f b Er Ef Eb; cbn [nth_error] in *; [|exact (HR n r' f b Er Ef Eb)]. injection Er as <-. injection Ef as <-. injection Eb as <-. cbn [fst snd]. split; [exact FR|].
    set (S := total_seen (up_cross64 g posx posy (launch64 ax diam) (launch64 ay diam) p q s)) in *. set (K := total_seen (up_cross64 g posx posy (launch64 ax diam) (launch64 ay diam) p q k)) in *. set (S' := laser_seen g (B2R posx) (B2R posy) (B2R ax * B2R diam / 2) (B2R ay * B2R diam / 2) p q s) in *. set (K' := laser_seen g (B2R posx) (B2R posy) (B2R ax * B2R diam / 2) (B2R ay * B2R diam / 2) p q k) in *.
    replace (B2R r - (S' - K')) with ((B2R r - (S - K)) + ((S - S') - (K - K'))) by ring. eapply Rle_trans; [apply Rabs_triang|]. 
    assert (Y : Rabs ((S - S') - (K - K')) <= 600 * unit_roundoff * G * (total As + total Bs)). { unfold Rminus at 1. eapply Rle_trans; [apply Rabs_triang|]. rewrite Rabs_Ropp. lra. }
    lra.
Qed.
Print Assumptions C204_residual.

(** The beacon of C196, its laser launched from the edge of the telescope of 8 m. *)
Example C204_instance : sensible beacon (/ 1000) 20000 256 /\ launched beacon (/ 1000) 20000 256 (ofZ64 1) (ofZ64 8) /\ launched beacon (/ 1000) 20000 256 (ofZ64 0) (ofZ64 8) /\
  within beacon (/ 1000) 20000 (ofZ64 40) (ofZ64 10000) /\ laser_axis beacon 0 4 45000 = 2.
Proof.
  destruct C196_instance as (S & W & _). split; [exact S|].
  assert (P8 : B2R (g_pix beacon) = / 8).
  { cbn [beacon g_pix]. destruct (ofZ_correct 1) as [F1 E1]; [lia|]. destruct (ofZ_correct 8) as [F8 E8]; [lia|]. assert (B : 1 <= bpow radix2 1000) by (change 1 with (bpow radix2 0); apply bpow_le; lia).
    destruct (div_correct (ofZ64 1) (ofZ64 8) F1) as [F E]; [rewrite E8; lra|rewrite E1, E8, Rabs_pos_eq; lra|]. rewrite E, E1, E8. replace (1 / 8) with (bpow radix2 (-3)) by (cbn; lra).
    rewrite rnd_rep; [cbn; lra|]. replace (bpow radix2 (-3)) with (1 * bpow radix2 (-3)) by ring. apply (rep_F2R 1); lia. }
  destruct (ofZ_correct 1) as [F1 E1]; [lia|]. destruct (ofZ_correct 8) as [F8 E8]; [lia|]. destruct (ofZ_correct 0) as [F0 E0]; [lia|]. destruct (ofZ_correct 90000) as [F9 E9]; [lia|].
  split; [|split; [|split; [exact W|]]].
  - unfold launched. rewrite P8, E1, E8, !Rabs_pos_eq by lra. repeat split; auto; lra.
  - unfold launched. rewrite P8, E0, E8, !Rabs_pos_eq by lra. repeat split; auto; lra.
  - unfold laser_axis. cbn [beacon g_src g_asec]. rewrite E9. destruct (Req_EM_T 90000 0); [lra|]. cbv zeta. lra.
Qed.

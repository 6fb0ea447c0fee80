(** Property theorems C194 and C195: a geometric line of sight in floating-point arithmetic. *)
From Coq Require Import ZArith List.
From Flocq Require Import Core BinarySingleNaN.
From Verif.Base Require Import Float64.
From Verif.Model Require Import Rounding64 FloatInterp.
From Verif.Spec Require Import FloatLoopSpec FloatInterpSpec.
From Verif.Model Require Import FloatLos.
From Verif.Spec Require Import FloatLosSpec.
From Verif.Proofs Require Import FloatLosFrame.
From Coq Require Import Reals Bool Lia Lra.
Import ListNotations.
Local Open Scope R_scope.

(** C194: on every frame of a run, every pixel of the residual is a number, and is the sum of the screens less the sum of the corrections, interpolated where the line of sight
    crosses them, up to a ten-millionth of the sum of the largest values of the screens and corrections (and 2^-80), whatever the wavelength (c: radians per nm). *)
Theorem C194_residual :
  forall (c : b64) (frames : list (list crossing * list crossing)) (bounds : list (list R * list R)), is_finite c = true -> bpow radix2 (-60) <= B2R c <= bpow radix2 60 ->
    Forall2 (fun f b => moderate (fst f) (fst b) /\ moderate (snd f) (snd b) /\ (Z.of_nat (length (fst f)) <= 2 ^ 20)%Z /\ (Z.of_nat (length (snd f)) <= 2 ^ 20)%Z /\
               total (fst b) <= bpow radix2 50 /\ total (snd b) <= bpow radix2 50) frames bounds ->
    exists rs, los_run64 Single c frames = Some rs /\
      length rs = length frames /\ forall n r f b, nth_error rs n = Some r -> nth_error frames n = Some f -> nth_error bounds n = Some b ->
        is_finite r = true /\ Rabs (B2R r - (total_seen (fst f) - total_seen (snd f))) <= (total (fst b) + total (snd b)) / 10 ^ 7 + bpow radix2 (-80).
Proof.
  intros c frames bounds FC BC H. generalize Single. induction H as [|f b fs bs (M1 & M2 & L1 & L2 & T1 & T2) H IH]; intro d.
  - exists []. split; [reflexivity|]. split; [reflexivity|]. intros [|n] r f b E; discriminate E.
  - destruct f as [s k]. destruct b as [As Bs]. cbn [fst snd] in *. destruct (frame_ok d c s k As Bs M1 M2 L1 L2 T1 T2 FC BC) as (r & ph & E & FR & _ & B & _).
    destruct (IH Double) as (rs & ER & LR & HR). exists (r :: rs). cbn [los_run64]. rewrite E, ER. split; [reflexivity|]. split; [cbn; rewrite LR; reflexivity|].
    intros [|n] r' f b Er Ef Eb; cbn [nth_error] in *; [injection Er as <-; injection Ef as <-; injection Eb as <-; split; assumption|]. exact (HR n r' f b Er Ef Eb).
Qed.
Print Assumptions C194_residual.

(** C195: a frame depends only on the screens and corrections given; proved of all frames but the first of a line of sight. *)
Theorem C195_later_partial :
  forall (c : b64) (f0 g0 f : list crossing * list crossing) (fs gs : list (list crossing * list crossing)) (rs rs' : list b64),
    los_run64 Single c ((f0 :: fs) ++ [f]) = Some rs -> los_run64 Single c ((g0 :: gs) ++ [f]) = Some rs' ->
    exists r, nth_error rs (S (length fs)) = Some r /\ nth_error rs' (S (length gs)) = Some r.
Proof.
  intros c f0 g0 f fs gs rs rs' E E'.
  assert (D : forall hs l, los_run64 Double c (hs ++ [f]) = Some l -> exists r ph d, frame64 Double c (fst f) (snd f) = Some (r, ph, d) /\ nth_error l (length hs) = Some r).
  { induction hs as [|[s k] hs IH]; intros l H.
    - destruct f as [s k]. cbn [app los_run64] in H. cbn [fst snd]. destruct (frame64 Double c s k) as [[[r ph] d]|]; [|discriminate H]. injection H as <-. exists r, ph, d. split; reflexivity.
    - cbn [app los_run64] in H. unfold frame64 in H. destruct (crossings64 s); [|discriminate H]. destruct (crossings64 k); [|discriminate H].
      destruct (los_run64 Double c (hs ++ [f])) as [l'|] eqn:Q; [|discriminate H]. injection H as <-. destruct (IH l' eq_refl) as (r & ph & d & A & B). exists r, ph, d. split; [exact A|exact B]. }
  assert (G : forall h0 hs l, los_run64 Single c ((h0 :: hs) ++ [f]) = Some l -> exists r ph d, frame64 Double c (fst f) (snd f) = Some (r, ph, d) /\ nth_error l (S (length hs)) = Some r).
  { intros [s k] hs l H. cbn [app los_run64] in H. unfold frame64 in H at 1. destruct (crossings64 s); [|discriminate H]. destruct (crossings64 k); [|discriminate H].
    destruct (los_run64 Double c (hs ++ [f])) as [l'|] eqn:Q; [|discriminate H]. injection H as <-. exact (D hs l' Q). }
  destruct (G f0 fs rs E) as (r & ph & d & A & B). destruct (G g0 gs rs' E') as (r' & ph' & d' & A' & B'). rewrite A in A'. injection A' as <- <- <-. exists r. split; assumption.
Qed.
Print Assumptions C195_later_partial.
(** C195 is FALSE of the code: the first frame is rounded to single precision and those after it are not, so the same screens and correction give another residual the second time. *)
Definition flat_screen (z : Z) : farr := mkFarr 2 2 (fun _ _ => ofZ64 z).
Definition pixel_at (z : Z) : crossing := mkCr (flat_screen z) (ofZ64 0) (ofZ64 0).
Theorem C195_first_refuted : exists (c : b64) (f : list crossing * list crossing) (r r' : b64), los_run64 Single c [f; f] = Some [r; r'] /\ B2SF r <> B2SF r'.
Proof.
  set (f := ([pixel_at 777], [pixel_at 1])). set (c := div64 (ofZ64 1) (ofZ64 100)).
  assert (M : match los_run64 Single c [f; f] with Some [r; r'] => B2SF r <> B2SF r' | _ => False end) by (vm_compute; discriminate).
  exists c, f. destruct (los_run64 Single c [f; f]) as [[|r [|r' [|]]]|]; try contradiction. exists r, r'. split; [reflexivity|exact M].
Qed.
Print Assumptions C195_first_refuted.
(** C195: but by no more than 2e-7 of the largest values. *)
Theorem C195_close_partial :
  forall (c : b64) (fs gs : list (list crossing * list crossing)) (bs cs : list (list R * list R)) (f : list crossing * list crossing) (b : list R * list R),
    is_finite c = true -> bpow radix2 (-60) <= B2R c <= bpow radix2 60 ->
    let ok f b := moderate (fst f) (fst b) /\ moderate (snd f) (snd b) /\ (Z.of_nat (length (fst f)) <= 2 ^ 20)%Z /\ (Z.of_nat (length (snd f)) <= 2 ^ 20)%Z /\
               total (fst b) <= bpow radix2 50 /\ total (snd b) <= bpow radix2 50 in
    Forall2 ok fs bs -> Forall2 ok gs cs -> ok f b ->
    exists rs rs' r r', los_run64 Single c (fs ++ [f]) = Some rs /\ los_run64 Single c (gs ++ [f]) = Some rs' /\ nth_error rs (length fs) = Some r /\ nth_error rs' (length gs) = Some r' /\
      Rabs (B2R r - B2R r') <= 2 * ((total (fst b) + total (snd b)) / 10 ^ 7 + bpow radix2 (-80)).
Proof.
  intros c fs gs bs cs f b FC BC ok HF HG HB.
  assert (ONE : forall hs ds, Forall2 ok hs ds -> exists rs r, los_run64 Single c (hs ++ [f]) = Some rs /\ nth_error rs (length hs) = Some r /\
     Rabs (B2R r - (total_seen (fst f) - total_seen (snd f))) <= (total (fst b) + total (snd b)) / 10 ^ 7 + bpow radix2 (-80)).
  { intros hs ds H. assert (LE : length hs = length ds) by (clear -H; induction H; cbn; congruence).
    destruct (C194_residual c (hs ++ [f]) (ds ++ [b]) FC BC) as (rs & E & L & P); [apply Forall2_app; [exact H|constructor; [exact HB|constructor]]|].
    assert (N : exists r, nth_error rs (length hs) = Some r). { destruct (nth_error rs (length hs)) as [r|] eqn:Q; [eauto|]. apply nth_error_None in Q. rewrite L, app_length in Q. cbn in Q. lia. }
    destruct N as [r N]. exists rs, r. split; [exact E|]. split; [exact N|]. apply (P (length hs) r f b N).
    - rewrite nth_error_app2, Nat.sub_diag by lia. reflexivity.
    - rewrite LE, nth_error_app2, Nat.sub_diag by lia. reflexivity. }
  destruct (ONE fs bs HF) as (rs & r & E1 & N1 & B1). destruct (ONE gs cs HG) as (rs' & r' & E2 & N2 & B2). exists rs, rs', r, r'. repeat split; auto.
  set (X := total_seen (fst f) - total_seen (snd f)) in *. replace (B2R r - B2R r') with ((B2R r - X) - (B2R r' - X)) by ring. unfold Rminus at 1. eapply Rle_trans; [apply Rabs_triang|].
  rewrite Rabs_Ropp. lra.
Qed.
Print Assumptions C195_close_partial.

(** Two layers of 1000 and -300 and a mirror of 1, a hundredth of a radian per nm. *)
Lemma flat_moderate z : (-1000 <= z <= 1000)%Z -> moderate [pixel_at z] [1000].
Proof.
  intro Hz. constructor; [|constructor]. destruct (ofZ_correct z) as [F E]; [lia|]. destruct (ofZ_correct 0) as [F0 _]; [lia|]. split; [split; cbn; lia|]. split; [|split; exact F0].
  intros i j _ _. split; [exact F|]. unfold numbers, pixel_at, flat_screen. cbn [cr_screen fa_at]. rewrite E, <- abs_IZR. apply (IZR_le _ 1000). lia.
Qed.
Lemma flat_seen z : (-1000 <= z <= 1000)%Z -> seen (pixel_at z) = IZR z.
Proof.
  intro Hz. unfold seen, bilinear, straight, numbers, pixel_at, flat_screen. cbn [cr_screen fa_at]. destruct (ofZ_correct z) as [_ E]; [lia|]. rewrite E. ring.
Qed.
Example C194_instance : exists r r', los_run64 Single (div64 (ofZ64 1) (ofZ64 100)) [([pixel_at 1000; pixel_at (-300)], [pixel_at 1]); ([pixel_at 1000; pixel_at (-300)], [pixel_at 1])] = Some [r; r'] /\
  Rabs (B2R r - 699) <= 1 / 1000 /\ Rabs (B2R r' - 699) <= 1 / 1000.
Proof.
  set (f := ([pixel_at 1000; pixel_at (-300)], [pixel_at 1])). set (b := ([1000; 1000], [1000])).
  assert (C : is_finite (div64 (ofZ64 1) (ofZ64 100)) = true /\ / 128 <= B2R (div64 (ofZ64 1) (ofZ64 100)) <= 1).
  { destruct (ofZ_correct 1) as [F1 E1]; [lia|]. destruct (ofZ_correct 100) as [F2 E2]; [lia|]. destruct (div_correct (ofZ64 1) (ofZ64 100) F1) as [F E]; [rewrite E2; lra| |].
    - rewrite E1, E2, Rabs_pos_eq by lra. apply Rle_trans with (bpow radix2 0); [change (bpow radix2 0) with 1; lra|apply bpow_le; lia].
    - split; [exact F|]. rewrite E, E1, E2. split.
      + replace (/ 128) with (rnd64 (bpow radix2 (-7))); [apply rnd_le; change (bpow radix2 (-7)) with (/ 128); lra|]. rewrite rnd_rep; [reflexivity|]. rewrite <- (Rmult_1_l (bpow radix2 (-7))). apply rep_F2R; cbn; lia.
      + apply Rle_trans with (rnd64 1); [apply rnd_le; lra|rewrite rnd_rep by (apply (rep_Z 1); lia); lra]. }
  destruct C as [FC BC].
  assert (OK : moderate (fst f) (fst b) /\ moderate (snd f) (snd b) /\ (Z.of_nat (length (fst f)) <= 2 ^ 20)%Z /\ (Z.of_nat (length (snd f)) <= 2 ^ 20)%Z /\ total (fst b) <= bpow radix2 50 /\ total (snd b) <= bpow radix2 50).
  { assert (P12 : 4096 <= bpow radix2 50) by (change 4096 with (bpow radix2 12); apply bpow_le; lia).
    unfold f, b; cbn [fst snd total fold_right length]. split; [|split; [apply flat_moderate; lia|split; [lia|split; [lia|split; lra]]]].
    pose proof (flat_moderate 1000 ltac:(lia)) as M1. pose proof (flat_moderate (-300) ltac:(lia)) as M2. inversion M1; subst. constructor; [assumption|exact M2]. }
  destruct (C194_residual (div64 (ofZ64 1) (ofZ64 100)) [f; f] [b; b] FC) as (rs & E & L & P).
  - split; [apply Rle_trans with (/ 128); [change (/ 128) with (bpow radix2 (-7)); apply bpow_le; lia|lra]|apply Rle_trans with 1; [lra|change 1 with (bpow radix2 0); apply bpow_le; lia]].
  - constructor; [exact OK|constructor; [exact OK|constructor]].
  - destruct rs as [|r [|r' [|]]]; try discriminate L. exists r, r'. split; [exact E|].
    assert (T80 : bpow radix2 (-80) <= / 10000) by (apply Rle_trans with (bpow radix2 (-14)); [apply bpow_le; lia|change (bpow radix2 (-14)) with (/ 16384); lra]).
    assert (V : total_seen (fst f) - total_seen (snd f) = 699). { unfold total_seen, f. cbn [fst snd map fold_right]. rewrite !flat_seen by lia. lra. }
    assert (W : (total (fst b) + total (snd b)) / 10 ^ 7 + bpow radix2 (-80) <= 1 / 1000). { unfold total, b. cbn [fst snd fold_right]. replace (10 ^ 7) with 10000000 by ring. lra. }
    destruct (P 0%nat r f b eq_refl eq_refl eq_refl) as [_ B1]. destruct (P 1%nat r' f b eq_refl eq_refl eq_refl) as [_ B2]. rewrite V in B1, B2. lra.
Qed.
Example C195_instance : match los_run64 Single (div64 (ofZ64 1) (ofZ64 100)) (repeat ([pixel_at 777], [pixel_at 1]) 4) with
  | Some [r0; r1; r2; r3] => B2SF r1 = B2SF r2 /\ B2SF r2 = B2SF r3 /\ B2SF r0 <> B2SF r1
  | _ => False
  end.
Proof. vm_compute. repeat split. discriminate. Qed.

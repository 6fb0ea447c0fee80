(** Property theorem C157: the pyramid sensor has no preferred direction. *)
From Coq Require Import ZArith Reals List Bool Lra Lia.
From Coquelicot Require Import Complex.
From Verif.Base Require Import Py CSum CSumFacts.
From Verif.Model Require Import Numerics Pyramid.
From Verif.Spec Require Import PyramidSpec.
From Verif.Proofs Require Import PyramidProofs PyramidSymmetry.
Import ListNotations.
Open Scope R_scope.

(** C157: turning the wavefront upside down turns the detector image upside down, and exchanging rows and columns of the wavefront exchanges those
    of the image. *)
Theorem C157_image :
  forall (c : pyr) (ns : Z) (mem mem' : memory) (phase : Z -> Z -> R), pyr_build (y_N c) (y_P c) (y_n c) (y_sep c) = Ok ns ->
  (0 < y_N c)%Z -> (2 <= y_n c <= y_P c)%Z -> (0 <= y_sep c <= ns)%Z -> (32 <= y_nmod c)%Z -> binary_mask c -> symmetric_mask c ->
  ((y_nmod c mod 4 = 0)%Z -> forall i j,
     pyr_detector c false (pyr_write c mem (upside_down (y_N c) phase)) i j = upside_down ns (pyr_detector c false (pyr_write c mem' phase)) i j) /\
  (forall i j, pyr_detector c false (pyr_write c mem (transposed phase)) i j = transposed (pyr_detector c false (pyr_write c mem' phase)) i j).
Proof.
  intros c ns mem mem' phase HB HN Hn Hs H32 B [M MT]. split.
  - intros H4 i j. pose proof HB as HB'. destruct (built_facts c ns HB HN ltac:(lia) ltac:(lia)) as (En & _). apply build_iff in HB' as (_ & HE & _); [|lia|auto|lia]. apply detector_mirror; auto; lia.
  - intros i j. apply detector_T; auto.
Qed.
Print Assumptions C157_image.
(** C157: turning the wavefront upside down changes the sign of the vertical signal and leaves the horizontal one.  (The number of modulation
    points must be a multiple of 4.) *)
Theorem C157_upside_down :
  forall (c : pyr) (ns : Z) (m0 : memory) (flat : list R) (destroy destroy' : memory -> memory) (mem mem' : memory) (phase phase' : Z -> Z -> R) (s : list R),
  pyr_build (y_N c) (y_P c) (y_n c) (y_sep c) = Ok ns -> (0 < y_N c)%Z -> (2 <= y_n c <= y_P c)%Z -> (0 <= y_sep c <= ns)%Z ->
  (32 <= y_nmod c)%Z -> (y_nmod c mod 4 = 0)%Z -> binary_mask c -> symmetric_mask c ->
  flat_slopes c m0 = Some flat -> same_image (y_N c) phase' (upside_down (y_N c) phase) -> fst (pyr_frame c flat destroy mem phase) = Some s ->
  exists s', fst (pyr_frame c flat destroy' mem' phase') = Some s' /\ signal_x c s' = signal_x c s /\ signal_y c s' = - signal_y c s.
Proof. intros c ns m0 flat destroy destroy' mem mem' phase phase' s HB HN Hn Hs H32 H4 B [M _]. apply (frame_mirror c ns); auto. Qed.
Print Assumptions C157_upside_down.
(** C157: exchanging rows and columns of the wavefront exchanges the two signals. *)
Theorem C157_exchanged :
  forall (c : pyr) (m0 : memory) (flat : list R) (destroy destroy' : memory -> memory) (mem mem' : memory) (phase phase' : Z -> Z -> R) (s : list R),
  (32 <= y_nmod c)%Z -> symmetric_mask c -> symmetric_subaps c ->
  flat_slopes c m0 = Some flat -> same_image (y_N c) phase' (transposed phase) -> fst (pyr_frame c flat destroy mem phase) = Some s ->
  exists s', fst (pyr_frame c flat destroy' mem' phase') = Some s' /\ signal_x c s' = signal_y c s /\ signal_y c s' = signal_x c s.
Proof. intros c m0 flat destroy destroy' mem mem' phase phase' s H32 [_ M] S. apply frame_T; auto. Qed.
Print Assumptions C157_exchanged.
(** C157: opposite tilts give opposite vertical signals, and the same horizontal one. *)
Theorem C157_opposite_tilts :
  forall (c : pyr) (ns : Z) (m0 : memory) (flat : list R) (destroy destroy' : memory -> memory) (mem mem' : memory) (a : R) (s : list R),
  pyr_build (y_N c) (y_P c) (y_n c) (y_sep c) = Ok ns -> (0 < y_N c)%Z -> (2 <= y_n c <= y_P c)%Z -> (0 <= y_sep c <= ns)%Z ->
  (32 <= y_nmod c)%Z -> (y_nmod c mod 4 = 0)%Z -> binary_mask c -> symmetric_mask c -> flat_slopes c m0 = Some flat ->
  let tilt a := fun i j : Z => a * (IZR i - IZR (y_N c - 1) / 2) in
  fst (pyr_frame c flat destroy mem (tilt a)) = Some s ->
  exists s', fst (pyr_frame c flat destroy' mem' (tilt (- a))) = Some s' /\ signal_x c s' = signal_x c s /\ signal_y c s' = - signal_y c s.
Proof.
  intros c ns m0 flat destroy destroy' mem mem' a s HB HN Hn Hs H32 H4 B [M _] Hf tilt. apply (frame_mirror c ns m0); auto.
  intros i j _ _. unfold upside_down, tilt. rewrite !minus_IZR. lra.
Qed.
Print Assumptions C157_opposite_tilts.
(** A 2 x 2 pupil in 4 x 4 elements, 32 modulation points. *)
Definition ex_sym : pyr :=
  mkPyr 4 2 2 32 0 (1 / 10) (fun i j => if (1 <=? i)%Z && (i <=? 2)%Z && (1 <=? j)%Z && (j <=? 2)%Z then 1 else 0) (fun _ _ => true).
Ltac decide_ifs := repeat match goal with |- context [if ?b then _ else _] => let v := eval vm_compute in b in change b with v; cbv iota end.
Lemma ex_light' : light 4 (fun i j => y_mask ex_sym i j * y_mask ex_sym i j) = 4.
Proof. unfold light, rsum. change (Z.to_nat 4) with 4%nat. cbn [rsumn y_mask ex_sym]. decide_ifs. lra. Qed.
Example C157_instance :
  pyr_build (y_N ex_sym) (y_P ex_sym) (y_n ex_sym) (y_sep ex_sym) = Ok 4%Z /\ binary_mask ex_sym /\ symmetric_mask ex_sym /\ symmetric_subaps ex_sym /\
  forall (flat : list R) (destroy : memory -> memory) (mem : memory) (phase : Z -> Z -> R), exists s, fst (pyr_frame ex_sym flat destroy mem phase) = Some s.
Proof.
  assert (B : binary_mask ex_sym) by (intros i j; cbn; destruct (_ && _); auto).
  split; [reflexivity|]. split; [exact B|]. split; [|split; [intros i j; reflexivity|]].
  { split; intros i j Hi Hj; cbn [ex_sym y_N y_mask] in *; unfold upside_down, transposed;
    (assert (i = 0 \/ i = 1 \/ i = 2 \/ i = 3)%Z as [-> |[-> |[-> | ->]]] by lia); (assert (j = 0 \/ j = 1 \/ j = 2 \/ j = 3)%Z as [-> |[-> |[-> | ->]]] by lia); reflexivity. }
  intros flat destroy mem phase. unfold pyr_frame. cbn [fst]. unfold pyr_slopes, raw_slopes. destruct (Req_EM_T _ 0) as [E|E]; [|eauto]. exfalso.
  set (det := pyr_detector ex_sym false (pyr_write ex_sym mem phase)) in *.
  assert (L : light 4 det = 4).
  { unfold det. rewrite (frame_light ex_sym 4) by (try reflexivity; cbn; lia). change (y_N ex_sym) with 4%Z. rewrite ex_light'. change (4 / 4)%Z with 1%Z. lra. }
  assert (P : forall i j, 0 <= det i j).
  { intros i j. unfold det, pyr_detector. cbn [ex_sym y_nmod y_P y_n]. change (pyr_bin 2 2 =? 1)%Z with true. cbv iota. apply Rmult_le_pos; [|left; apply Rinv_0_lt_compat; lra]. apply rsum_nonneg. intros k _. apply cnorm2_nonneg. }
  unfold rlsum, quad_flux in E. cbn [ex_sym y_N y_P y_n y_sep y_sub] in E.
  change (pyr_ndet 4 2 2 / 2)%Z with 2%Z in E.
  assert (F : forall a b, filter (fun rc => quad_mask 2 2 0 (fun _ _ => true) a b (fst rc) (snd rc)) (raster 2) = [(0, 0); (0, 1); (1, 0); (1, 1)]%Z)
    by (intros [] []; reflexivity).
  rewrite !F in E. cbn [map fold_right fst snd] in E. rewrite !Rabs_pos_eq in E by apply P.
  unfold light, rsum in L. change (Z.to_nat 4) with 4%nat in L. cbn [rsumn] in L.
  change (Z.of_nat 0) with 0%Z in L. change (Z.of_nat 1) with 1%Z in L. change (Z.of_nat 2) with 2%Z in L. change (Z.of_nat 3) with 3%Z in L.
  cbn [Z.add Pos.add Pos.succ] in E. lra.
Qed.

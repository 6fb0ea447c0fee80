(** Property theorems C48, C49, C85-C87: the pyramid sensor, over the real numbers. *)
From Coq Require Import ZArith Reals List Bool Lra Lia.
From Coquelicot Require Import Complex.
From Verif.Base Require Import Py CSum CSumFacts.
From Verif.Model Require Import Numerics Pyramid.
From Verif.Spec Require Import PyramidSpec.
From Verif.Proofs Require Import PyramidProofs.
Import ListNotations.
Open Scope R_scope.

(** A small sensor: a 2 x 2 pupil in 4 x 4 elements, 32 modulation points. *)
Definition ex_pyr (nmod : Z) : pyr :=
  mkPyr 4 2 2 nmod 0 (1 / 10) (fun i j => if (1 <=? i)%Z && (i <=? 2)%Z && (1 <=? j)%Z && (j <=? 2)%Z then 1 else 0) (fun _ _ => true).

Ltac decide_ifs := repeat match goal with |- context [if ?b then _ else _] => let v := eval vm_compute in b in change b with v; cbv iota end.
Lemma ex_light : light 4 (fun i j => y_mask (ex_pyr 32) i j * y_mask (ex_pyr 32) i j) = 4.
Proof. unfold light, rsum. change (Z.to_nat 4) with 4%nat. cbn [rsumn y_mask ex_pyr]. decide_ifs. lra. Qed.

(** C48: slopes do not change when the detector image is multiplied by a positive factor (including the 0/0 case). *)
Theorem C48_flux_scale :
  forall (c : pyr) (flat : list R) (det : Z -> Z -> R) (s : R), 0 < s ->
    pyr_slopes c flat (fun i j => s * det i j) = pyr_slopes c flat det.
Proof. intros. unfold pyr_slopes. rewrite raw_scale by assumption. reflexivity. Qed.
Print Assumptions C48_flux_scale.
(** C48: before the reference is taken away slopes lie between -1 and 1, for every detector image (noisy ones too), and
    there are slope_size of them. *)
Theorem C48_bounded :
  forall (c : pyr) (det : Z -> Z -> R) (s : list R), raw_slopes c det = Some s ->
    Forall (fun x => -1 <= x <= 1) s.
Proof. exact raw_bounded. Qed.
Print Assumptions C48_bounded.
(** C48, partial: a flat wavefront of any piston gives exactly zero slopes, whatever the memory at initialisation
    and before the frame.  Missing: fewer than 32 modulation points (see C49) and masks with grey pixels. *)
Theorem C48_flat_partial :
  forall (c : pyr) (m0 : memory) (flat : list R) (destroy : memory -> memory) (mem : memory) (p : R),
    (32 <= y_nmod c)%Z -> binary_mask c -> flat_slopes c m0 = Some flat ->
    exists s, fst (pyr_frame c flat destroy mem (fun _ _ => p)) = Some s /\ length s = slope_size c /\ Forall (fun x => x = 0) s.
Proof. exact flat_zero. Qed.
Print Assumptions C48_flat_partial.
(** C48, partial: piston added to any wavefront changes nothing. *)
Theorem C48_piston_partial :
  forall (c : pyr) (flat : list R) (d1 d2 : memory -> memory) (mem mem' : memory) (phase : Z -> Z -> R) (p : R),
    (32 <= y_nmod c)%Z -> binary_mask c ->
    fst (pyr_frame c flat d1 mem (piston p phase)) = fst (pyr_frame c flat d2 mem' phase).
Proof. exact frame_piston. Qed.
Print Assumptions C48_piston_partial.
Example C48_instance :
  (32 <= y_nmod (ex_pyr 32))%Z /\ binary_mask (ex_pyr 32) /\ slope_size (ex_pyr 32) = 8%nat /\
  forall m0, exists flat, flat_slopes (ex_pyr 32) m0 = Some flat.
Proof.
  assert (B : binary_mask (ex_pyr 32)) by (intros i j; cbn; destruct (_ && _); auto).
  split; [cbn; lia|]. split; [exact B|]. split; [reflexivity|].
  intros m0. unfold flat_slopes, raw_slopes. destruct (Req_EM_T _ 0) as [E|E]; [|eauto]. exfalso.
  set (det := pyr_detector (ex_pyr 32) true (pyr_write (ex_pyr 32) m0 (y_mask (ex_pyr 32)))) in *.
  assert (L : light 4 det = 32 * 4).
  { assert (X : light 4 (pyr_detector (ex_pyr 32) false (pyr_write (ex_pyr 32) m0 (y_mask (ex_pyr 32)))) = 4).
    { rewrite (frame_light (ex_pyr 32) 4) by (try reflexivity; cbn; lia). change (y_N (ex_pyr 32)) with 4%Z. rewrite ex_light. change (4 / 4)%Z with 1%Z. lra. }
    rewrite <- X, <- light_scale. apply light_ext. intros i j _ _. unfold det, pyr_detector. cbn [y_nmod ex_pyr]. field. }
  assert (P : forall i j, 0 <= det i j).
  { intros i j. unfold det, pyr_detector. apply rsum_nonneg. intros k _. apply cnorm2_nonneg. }
  unfold rlsum, quad_flux in E. cbn [ex_pyr y_N y_P y_n y_sep y_sub] in E.
  change (pyr_ndet 4 2 2 / 2)%Z with 2%Z in E.
  assert (F : forall a b, filter (fun rc => quad_mask 2 2 0 (fun _ _ => true) a b (fst rc) (snd rc)) (raster 2) = [(0, 0); (0, 1); (1, 0); (1, 1)]%Z)
    by (intros [] []; reflexivity).
  rewrite !F in E. cbn [map fold_right fst snd] in E. rewrite !Rabs_pos_eq in E by apply P. 
  unfold light, rsum in L. change (Z.to_nat 4) with 4%nat in L. cbn [rsumn] in L.
  change (Z.of_nat 0) with 0%Z in L. change (Z.of_nat 1) with 1%Z in L. change (Z.of_nat 2) with 2%Z in L. change (Z.of_nat 3) with 3%Z in L.
  cbn [Z.add Pos.add Pos.succ] in E. lra.
Qed.

(** C49, partial: with at least 32 modulation points the detector image of a frame depends on its phase only. *)
Theorem C49_partial :
  forall (c : pyr) (mem mem' : memory) (phase : Z -> Z -> R) (i j : Z), (32 <= y_nmod c)%Z ->
    pyr_detector c false (pyr_write c mem phase) i j = pyr_detector c false (pyr_write c mem' phase) i j.
Proof. exact frame_history. Qed.
Print Assumptions C49_partial.
(** C49, refuted: with fewer (the default is 4) the planes that are never written are summed into every image; for every
    geometry and phase there are memory contents that give different images. *)
Theorem C49_refuted :
  forall (c : pyr) (ns : Z) (phase : Z -> Z -> R),
    pyr_build (y_N c) (y_P c) (y_n c) (y_sep c) = Ok ns -> (0 < y_N c)%Z -> (0 < y_n c)%Z -> (0 < y_P c)%Z -> (1 <= y_nmod c < 32)%Z ->
    exists mem mem', ~ same_image ns (pyr_detector c false (pyr_write c mem phase)) (pyr_detector c false (pyr_write c mem' phase)).
Proof. exact history_refuted. Qed.
Print Assumptions C49_refuted.
Example C49_instance : pyr_build 4 2 2 0 = Ok 4%Z /\ (1 <= y_nmod (ex_pyr 4) < 32)%Z /\ pyr_build 250 100 20 6 = Ok 50%Z.
Proof. split; [reflexivity|]. split; [cbn; lia|reflexivity]. Qed.

(** C85: as many slopes are delivered as are announced as n_measurements, for every detector image and pupil shape. *)
Theorem C85_count :
  forall (c : pyr) (det : Z -> Z -> R) (s : list R), raw_slopes c det = Some s -> length s = slope_size c.
Proof. exact raw_length. Qed.
Print Assumptions C85_count.
Example C85_instance : forall m0, exists s, flat_slopes (ex_pyr 32) m0 = Some s /\ length s = 8%nat.
Proof. intros m0. destruct C48_instance as (_ & _ & S & H). destruct (H m0) as [s E]. exists s. split; [exact E|]. rewrite <- S. eapply raw_length. exact E. Qed.

(** C86: a pyramid is built exactly when the simulated aperture is even, the binned detector is exact and even and the four
    pupil images fit on it; it then has size_array // bin pixels. *)
Theorem C86_sizes :
  forall N P n sep ns : Z, (2 <= n <= P)%Z -> (0 < N)%Z -> (0 <= sep <= pyr_ndet N P n)%Z ->
    pyr_build N P n sep = Ok ns <->
    ns = (N / (P / n))%Z /\ (N mod 2 = 0)%Z /\ (ns mod 2 = 0)%Z /\ (P / n = 1 \/ (0 < ns /\ N mod ns = 0))%Z /\ (2 * n + sep <= ns + 1)%Z.
Proof. exact build_iff. Qed.
Print Assumptions C86_sizes.
(** C86: otherwise building it raises ValueError. *)
Theorem C86_error :
  forall N P n sep : Z, (2 <= n <= P)%Z -> (0 < N)%Z -> (0 <= sep <= pyr_ndet N P n)%Z ->
    (exists ns, pyr_build N P n sep = Ok ns) \/ pyr_build N P n sep = Err ValueError.
Proof. exact build_err. Qed.
Print Assumptions C86_error.
(** conf/pwfs.yaml; the same with the default simOversize of 1.02; with 10 pixels of separation; with 30 sub-apertures *)
Example C86_instance :
  pyr_build 250 100 20 6 = Ok 50%Z /\ pyr_build 102 100 20 6 = Err ValueError /\ pyr_build 250 100 20 12 = Err ValueError /\
  pyr_build 250 100 30 6 = Err ValueError.
Proof. repeat split. Qed.

(** C87: the light on the detector is the light through the pupil (divided by the binning, which averages), whatever the
    wavefront, the modulation and the history; 32 or more modulation points. *)
Theorem C87_light_partial :
  forall (c : pyr) (ns : Z) (mem : memory) (phase : Z -> Z -> R),
    pyr_build (y_N c) (y_P c) (y_n c) (y_sep c) = Ok ns -> (0 < y_N c)%Z -> (0 < y_n c)%Z -> (0 < y_P c)%Z -> (32 <= y_nmod c)%Z ->
    light ns (pyr_detector c false (pyr_write c mem phase)) =
    light (y_N c) (fun i j => y_mask c i j * y_mask c i j) / (IZR (y_N c / ns) * IZR (y_N c / ns)).
Proof. exact frame_light. Qed.
Print Assumptions C87_light_partial.
(** C87, refuted for fewer: the light on the detector also counts what is in the planes never written. *)
Theorem C87_refuted :
  forall (c : pyr) (ns : Z) (phase : Z -> Z -> R),
    pyr_build (y_N c) (y_P c) (y_n c) (y_sep c) = Ok ns -> (0 < y_N c)%Z -> (0 < y_n c)%Z -> (0 < y_P c)%Z -> (1 <= y_nmod c < 32)%Z ->
    exists mem mem', light ns (pyr_detector c false (pyr_write c mem phase)) <> light ns (pyr_detector c false (pyr_write c mem' phase)).
Proof. exact light_refuted. Qed.
Print Assumptions C87_refuted.
Example C87_instance : forall mem phase, light 4 (pyr_detector (ex_pyr 32) false (pyr_write (ex_pyr 32) mem phase)) = 4.
Proof. intros. rewrite (frame_light (ex_pyr 32) 4) by (try reflexivity; cbn; lia). change (y_N (ex_pyr 32)) with 4%Z. rewrite ex_light. change (4 / 4)%Z with 1%Z. lra. Qed.

(** C172-C174: what a tilted wavefront does to the images, from the phase along the line of sight. *)
From Coq Require Import ZArith QArith Reals Qreals.
From Flocq Require Import Core.
From Coquelicot Require Import Complex Rcomplements.
From Verif.Base Require Import Vec CSum CSumFacts.
From Verif.Model Require Import Sh Science ShOptics.
From Verif.Spec Require Import ScienceSpec ShOpticsSpec.
From Verif.Proofs Require Import ScienceProofs ScienceStrehl ShOpticsProofs.
From Verif.Props Require Import ShOpticsProps.
From Verif.Model Require Import Sampling.
From Verif.Spec Require Import SamplingSpec.
From Verif.Proofs Require Import SamplingProofs.
From Coq Require Import Lra Lia.
Open Scope R_scope.

(** C172, what holds: there is one angle, [true_scale], such that tilting the wavefront by whole multiples of it, along either axis and whatever
    else is in the wavefront, moves the image on the detector by that number of pixels. *)
Theorem C172_moves_partial (k : cam) (pupil pad : Z) (waves : Qc) (D lambda fov : R) (los : Z -> Z -> R) (m n : Z) :
  camera_of k pupil pad waves D lambda fov ->
  let s := true_scale k D lambda in
  displaced (k_nx k) m n (sci_image k pupil pad los) (sci_image k pupil pad (tilted_phase lambda (D / IZR pupil) (IZR m * s) (IZR n * s) los)).
Proof. exact (image_displaced k pupil pad waves D lambda fov los m n). Qed.
Print Assumptions C172_moves_partial.

(** How that angle compares with the configured one: field of view over pixels. *)
Theorem C172_scale_partial (k : cam) (pupil pad : Z) (waves : Qc) (D lambda fov : R) :
  camera_of k pupil pad waves D lambda fov ->
  true_scale k D lambda = configured_scale k fov * ((IZR (qc_round waves) - / IZR (g_factor (k_geom k))) / qr waves).
Proof. exact (scale_general k pupil pad waves D lambda fov). Qed.
Print Assumptions C172_scale_partial.

(** C172 is false even where nothing is rounded, that is when D * fov / lambda is a whole number: a tilt by F - 1 configured pixel scales moves every
    image by F pixels, F the number of elements across the aperture... *)
Theorem C172_overshoot_refuted (k : cam) (pupil pad : Z) (waves : Qc) (D lambda fov : R) (los : Z -> Z -> R) (q m n : Z) :
  camera_of k pupil pad waves D lambda fov -> waves = qz q ->
  let F := g_fov (k_geom k) in let s := configured_scale k fov in
  displaced (k_nx k) (F * m) (F * n) (sci_image k pupil pad los)
    (sci_image k pupil pad (tilted_phase lambda (D / IZR pupil) (IZR ((F - 1) * m) * s) (IZR ((F - 1) * n) * s) los)).
Proof. exact (overshoot k pupil pad waves D lambda fov los q m n). Qed.
Print Assumptions C172_overshoot_refuted.

(** ... and that is not a displacement by F - 1 pixels. *)
Definition four_px : cam := mkCam (mkGeom 1 2 10 4 1 4 0 4) 4 (fun _ _ => 1).
Lemma four_camera : camera_of four_px 1 2 (qz 2) 1 1 2.
Proof.
  split; [lia|]. split; [lia|]. split; [cbn; lia|]. split; [reflexivity|]. split; [lra|]. split; [lra|].
  split; [rewrite qr_qz; field|]. split; [reflexivity|]. exists 1%Z, 3%nat, 4%Z. split; reflexivity.
Qed.
Definition flat_los : Z -> Z -> R := fun _ _ => 0.
Lemma bilin_flat x y : bilin flat_los x y = 0.
Proof.
  unfold bilin, flat_los. cbv zeta. generalize (qr x - IZR (qc_int x)) (qr y - IZR (qc_int y)). intros. ring.
Qed.
Lemma four_flat i : (0 <= i < 4)%Z -> sci_image four_px 1 2 flat_los i 2%Z = 4 * cnorm2 (1 + cis (- (2 * PI * IZR (i - 2) / 4)))%C.
Proof.
  intros Hi. assert (K : camera four_px) by exact (camera_is _ _ _ _ _ _ _ four_camera).
  destruct (camera_facts four_px K eq_refl) as (h & KF). pose proof (kf_fft _ _ KF) as HH. change (4 = 2 * h)%Z in HH. assert (h = 2)%Z by lia. subst h.
  unfold sci_image. rewrite (raw_ext four_px 2 (fun _ _ => 0)); [|exact KF| |cbn; lia|cbn; lia].
  2:{ intros a b _ _. exact (bilin_flat _ _). }
  rewrite raw_os1 by reflexivity. rewrite (intensity_far four_px 2) by (auto; cbn; lia). cbn [four_px k_geom g_fov g_fft g_crop k_mask].
  rewrite !Z.add_0_r. change (2 - 2)%Z with 0%Z.
  assert (E : far_field 2 4 (sci_field (fun _ _ => 1) (fun _ _ => 0)) (i - 2) 0 = (RtoC 2 * (1 + cis (- (2 * PI * IZR (i - 2) / 4))))%C).
  { unfold far_field, csum. change (Z.to_nat 2) with 2%nat. cbn [csumn]. unfold sci_field. rewrite cis_0.
    change (Z.of_nat 0) with 0%Z. change (Z.of_nat 1) with 1%Z.
    replace ((i - 2) * 0 + 0 * 0)%Z with 0%Z by ring. replace ((i - 2) * 0 + 0 * 1)%Z with 0%Z by ring.
    replace ((i - 2) * 1 + 0 * 0)%Z with (i - 2)%Z by ring. replace ((i - 2) * 1 + 0 * 1)%Z with (i - 2)%Z by ring.
    replace (- (2 * PI * 0 / 4)) with 0 by field. rewrite cis_0.
    apply injective_projections; cbn; ring. }
  rewrite E, cnorm2_mul, cnorm2_R. ring.
Qed.

Lemma four_bright : sci_image four_px 1 2 flat_los 2%Z 2%Z = 16 /\ sci_image four_px 1 2 flat_los 3%Z 2%Z = 8.
Proof.
  rewrite !four_flat by lia. change (2 - 2)%Z with 0%Z. change (3 - 2)%Z with 1%Z. split.
  - replace (- (2 * PI * 0 / 4)) with 0 by field. rewrite cis_0. unfold cnorm2. cbn. ring.
  - replace (- (2 * PI * 1 / 4)) with (- (PI / 2)) by field. unfold cnorm2, cis. cbn. rewrite cos_neg, sin_neg, cos_PI2, sin_PI2. ring.
Qed.
(** A flat wavefront tilted by one configured pixel scale, down: the brightest pixel stays where a displacement by one pixel does not put it. *)
Theorem C172_refuted : exists (k : cam) (pupil pad : Z) (waves : Qc) (D lambda fov : R) (los : Z -> Z -> R),
  camera_of k pupil pad waves D lambda fov /\ waves = qz 2 /\
  ~ displaced (k_nx k) (-1) 0 (sci_image k pupil pad los) (sci_image k pupil pad (tilted_phase lambda (D / IZR pupil) (- configured_scale k fov) 0 los)).
Proof.
  exists four_px, 1%Z, 2%Z, (qz 2), 1, 1, 2, flat_los. split; [exact four_camera|]. split; [reflexivity|]. intros H.
  pose proof (H 1%Z 2%Z ltac:(cbn; lia) ltac:(cbn; lia) ltac:(cbn; lia) ltac:(cbn; lia)) as E.
  pose proof (overshoot four_px 1 2 (qz 2) 1 1 2 flat_los 2 (-1) 0 four_camera eq_refl 1%Z 2%Z ltac:(cbn; lia) ltac:(cbn; lia) ltac:(cbn; lia) ltac:(cbn; lia)) as E'.
  change (g_fov (k_geom four_px)) with 2%Z in E'.
  replace (IZR ((2 - 1) * -1) * configured_scale four_px 2) with (- configured_scale four_px 2) in E' by (cbn; ring).
  replace (IZR ((2 - 1) * 0) * configured_scale four_px 2) with 0 in E' by (cbn; ring).
  rewrite E in E'. change (1 - -1)%Z with 2%Z in E'. change (2 - 0)%Z with 2%Z in E'. change (1 - 2 * -1)%Z with 3%Z in E'. change (2 - 2 * 0)%Z with 2%Z in E'.
  destruct four_bright as (A & B). lra.
Qed.
Print Assumptions C172_refuted.
(** The image of the flat wavefront is bright in the middle, and the tilt that moves it does. *)
Example C172_instance : camera_of four_px 1 2 (qz 2) 1 1 2 /\ sci_image four_px 1 2 flat_los 2%Z 2%Z = 16 /\
  sci_image four_px 1 2 (tilted_phase 1 (1 / IZR 1) (IZR (-1) * true_scale four_px 1 1) (IZR 0 * true_scale four_px 1 1) flat_los) 1%Z 2%Z = 16 /\
  true_scale four_px 1 1 = configured_scale four_px 2 / 2.
Proof.
  destruct four_bright as (A & _). split; [exact four_camera|]. split; [exact A|]. split.
  - rewrite (C172_moves_partial four_px 1 2 (qz 2) 1 1 2 flat_los (-1) 0 four_camera 1%Z 2%Z) by (cbn; lia). exact A.
  - unfold true_scale, configured_scale. cbn. field.
Qed.

(** C173: behind a transposed aperture a transposed wavefront gives the transposed image; for every camera. *)
Theorem C173_exchanged (k : cam) (pupil pad : Z) (los : Z -> Z -> R) (i j : Z) :
  sci_image (with_mask k (fun a b => k_mask k b a)) pupil pad (fun p q => los q p) j i = sci_image k pupil pad los i j.
Proof. exact (image_exchanged k pupil pad los i j). Qed.
Print Assumptions C173_exchanged.
(** The image is not constant. *)
Example C173_instance : camera four_px /\
  sci_image four_px 1 2 flat_los 3%Z 2%Z <> sci_image four_px 1 2 flat_los 2%Z 2%Z.
Proof. split; [exact (camera_is _ _ _ _ _ _ _ four_camera)|]. destruct four_bright. lra. Qed.

(** C174, what holds: the spots of a Shack-Hartmann sensor move by one (fine) pixel, round the field of the sub-aperture, per [true_spot_scale] of tilt of the
    wavefront along the line of sight, whatever else is in the wavefront. *)
Theorem C174_moves_partial (o : optics) (n N : Z) (step : R) (los : Z -> Z -> R) (mask : Z -> Z -> R) (fill : R) (x y m k : Z) :
  usable o -> (1 < n)%Z -> (1 <= N)%Z -> 0 < step ->
  let s := true_spot_scale o step n N in
  same_on (n_over o) (sub_image o (sh_field n N (tilted_phase (s_lambda o) step (IZR m * s) (IZR k * s) los)) mask fill x y)
          (moved (n_over o) m k (sub_image o (sh_field n N los) mask fill x y)).
Proof. exact (spots_displaced o n N step los mask fill x y m k). Qed.
Print Assumptions C174_moves_partial.
(** C174 is false, where nothing is rounded: that is not the configured scale, by a factor a little above one. *)
Theorem C174_refuted (o : optics) (D : R) (nsub pupil n N q : Z) :
  usable o -> 0 < D -> (0 < nsub)%Z -> (0 < pupil)%Z -> (1 < n)%Z -> (n < N)%Z ->
  s_d o = D / IZR nsub -> waves o = IZR q -> (N * pupil = nsub * nx_interp o * n)%Z ->
  let s := true_spot_scale o (D / IZR pupil) n N in
  s = pixel_scale o * ((1 - 99999999 / 100000000 / IZR N) / (1 - / IZR n)) /\ pixel_scale o < s.
Proof.
  intros U HD H1 H2 Hn HN Ed Ew EN s. pose proof U as (Ud & Ul & Uf & Uo & Up & _).
  assert (E : s = pixel_scale o * ((1 - 99999999 / 100000000 / IZR N) / (1 - / IZR n))) by (apply (spot_scale o D nsub pupil n N q); auto; lia).
  split; [exact E|]. rewrite E. 
  assert (P : 0 < pixel_scale o) by (unfold pixel_scale; apply Rdiv_lt_0_compat; [lra|apply IZR_lt; lia]).
  assert (1 < IZR n) by (apply IZR_lt; lia). assert (IZR n < IZR N) by (apply IZR_lt; lia).
  rewrite <- (Rmult_1_r (pixel_scale o)) at 1. apply Rmult_lt_compat_l; [exact P|].
  assert (/ IZR N < / IZR n) by (apply Rinv_lt_contravar; [nra|lra]). assert (0 < / IZR N) by (apply Rinv_0_lt_compat; lra).
  assert (/ IZR n < 1) by (rewrite <- Rinv_1; apply Rinv_lt_contravar; lra).
  apply Rlt_div_r; [lra|]. unfold Rdiv. lra.
Qed.
Print Assumptions C174_refuted.

Example C174_instance : usable sh_three /\ waves sh_three = IZR 3 /\ (12 * 2 = 2 * nx_interp sh_three * 4)%Z /\
  sub_image sh_three (sh_field 4 12 flat_los) (fun _ _ => 1) 1 0 0 1 1 = 81.
Proof.
  split; [exact three_usable|]. split; [exact three_waves|]. rewrite three_interp. split; [reflexivity|].
  erewrite same_image; [apply (three_image 1 1); lia|exact three_usable|].
  intros u v. unfold sh_field, efield, bilin, flat_los, flat. cbv zeta. rewrite <- cis_0. f_equal. ring.
Qed.

(** The science camera: properties C60-C62 and C92-C94.  Vocabulary: Spec/ScienceSpec.v. *)
From Coq Require Import Reals.
From Coquelicot Require Import Complex.
From Verif.Base Require Import Vec CSum CSumFacts PyFacts.
From Verif.Model Require Import Sh Science.
From Verif.Spec Require Import ScienceSpec.
From Verif.Proofs Require Import ScienceProofs ScienceFourier ScienceStrehl ScienceCases.
From Coq Require Import Lra Lia.
Open Scope Z_scope.
Open Scope R_scope.

(** C60: with images of positive flux since the last reset, every frame shows the frame's image divided by its sum and the sum of all frames so
    far divided by its sum; both sum to one. *)
Theorem C60_images :
  forall (n : Z) (raws : list image), Forall (fun r => 0 < img_sum n r) raws ->
    let shown := snd (sci_run n raws (fun _ _ => 0)) in
    length shown = length raws /\
    forall m r, nth_error raws m = Some r ->
      exists frame long, nth_error shown m = Some (Some frame, Some long) /\
        total n frame = 1 /\ (forall i j, frame i j = r i j / total n r) /\
        total n long = 1 /\ (forall i j, long i j = img_total (firstn (S m) raws) i j / total n (img_total (firstn (S m) raws))).
Proof.
  intros n raws H shown. assert (Z0 : 0 <= img_sum n (fun _ _ => 0)) by (apply rsum_nonneg; intros; apply rsum_nonneg; intros; lra).
  destruct (run_ok n raws (fun _ _ => 0) H Z0) as (A & _ & B). split; [exact A|]. intros m r Hm. destruct (B m r Hm) as (d & l & B1 & B2 & B3 & B4 & B5).
  exists d, l. split; [exact B1|]. split; [exact B2|]. split; [exact B3|]. split; [exact B4|]. intros i j. rewrite B5.
  assert (Q : forall i j, 0 + img_total (firstn (S m) raws) i j = img_total (firstn (S m) raws) i j) by (intros; ring).
  unfold total. rewrite Q. f_equal. apply rsum_ext. intros. apply rsum_ext. intros. apply Q.
Qed.
Print Assumptions C60_images.
(** C60: every camera the library builds with an even transform and an aperture that is not wholly closed gives an image, whatever the wavefront,
    and a flat wavefront of any piston has Strehl ratio one by the brightest pixel. *)
Theorem C60_never_dark :
  forall (k : cam) (phase : image), camera k -> Z.even (g_fft (k_geom k)) = true -> lit k ->
    0 < total (k_nx k) (sci_raw k phase) /\ (exists d, normalised (k_nx k) (sci_raw k phase) = Some d /\ total (k_nx k) d = 1) /\
    forall c, inst_strehl k false (fun _ _ => c) = Some 1.
Proof.
  intros k phase C Ev L. pose proof (never_dark k phase C Ev L) as N. pose proof (never_dark k (fun _ _ => 0) C Ev L) as N0.
  split; [exact N|]. split.
  - destruct (normalised_some (k_nx k) (sci_raw k phase) ltac:(lra)) as (v & A & B & _). eauto.
  - intros c. apply flat_strehl; [|lra]. destruct C as (? & ? & ? & ? & ? & ? & ? & ? & ? & _). auto.
Qed.
Print Assumptions C60_never_dark.
(** C60, in tip-tilt mode (central pixel): only without oversampling. *)
Theorem C60_flat_centre_partial :
  forall (k : cam) (c : R), camera k -> Z.even (g_fft (k_geom k)) = true -> lit k -> mask_nonneg k -> g_os (k_geom k) = 1%Z ->
    inst_strehl k true (fun _ _ => c) = Some 1.
Proof. exact flat_strehl_tt. Qed.
Print Assumptions C60_flat_centre_partial.
(** C60 is false in tip-tilt mode with oversampling 2: two holes, flat wavefront, Strehl below one. *)
Theorem C60_flat_centre_refuted :
  exists k s, camera k /\ Z.even (g_fft (k_geom k)) = true /\ lit k /\ mask_nonneg k /\ inst_strehl k true (fun _ _ => 0) = Some s /\ s < 1.
Proof.
  destruct slit_below_one as (s & A & B). exists slit_cam, s. split; [exact slit_camera|]. split; [reflexivity|]. split; [apply slit_lit|]. split; [apply slit_lit|]. auto.
Qed.
Print Assumptions C60_flat_centre_refuted.
Example C60_instance : camera small_cam /\ Z.even (g_fft (k_geom small_cam)) = true /\ lit small_cam /\
  Forall (fun r => 0 < img_sum (k_nx small_cam) r) (map (fun t => sci_raw small_cam (fun a _ => t * IZR a)) (0 :: 1 :: 2 :: nil)).
Proof.
  split; [exact small_camera|]. split; [reflexivity|]. split; [exact small_lit|]. change (k_nx small_cam) with 2%Z. repeat constructor; rewrite small_sum; lra.
Qed.
Definition plain_cam : cam := mkCam (mkGeom 1 3 7 2 1 4 0 4) 4 (fun _ _ => 1).
Example C60_centre_instance : camera plain_cam /\ Z.even (g_fft (k_geom plain_cam)) = true /\ lit plain_cam /\ mask_nonneg plain_cam /\ g_os (k_geom plain_cam) = 1%Z.
Proof.
  split; [exists 2%Z, 1%Z, 1%Z, (qz 3), 5%nat, 4%Z; repeat split; reflexivity|]. split; [reflexivity|].
  split; [exists 0%Z, 0%Z; cbn; repeat split; try lia; lra|]. split; [intros a b _ _; cbn; lra | reflexivity].
Qed.

(** C61: sizes.  Whenever the sizes come out, the field-of-view grid is finer than the pupil, the aperture slot of the transform has exactly its
    size and is central to within one element, the Physical-mode crop is exact, oversampling is the least at or above the configured one that
    holds the aperture, and unless nx * oversampling is odd with an even crop factor the cropped focal plane is exactly nx * oversampling wide,
    cut evenly on both sides. *)
Theorem C61_partial :
  forall (pupil pad nx os : Z) (ratio : Qc) (fuel : nat) (g : geom),
    (0 < pupil)%Z -> (0 < pad)%Z -> (0 < nx)%Z -> (0 < ratio)%Qc -> sci_geometry pupil (pupil + 2 * pad) nx os ratio fuel = Some (Ok g) ->
    ((pupil < g_fov g <= g_fft g)%Z /\
     (slot_end (g_fft g) (g_fov g) - slot_start (g_fft g) (g_fov g) = g_fov g)%Z /\
     (0 <= slot_start (g_fft g) (g_fov g))%Z /\ (0 <= (g_fft g - slot_end (g_fft g) (g_fov g)) - slot_start (g_fft g) (g_fov g) <= 1)%Z /\
     cut_len (g_padfov g) (g_simpad g) = g_fov g /\
     (os <= g_os g)%Z /\ (g_fov g <= nx * g_os g)%Z /\ (os < g_os g -> nx * (g_os g - 1) < g_fov g)%Z) /\
    (Z.odd (nx * g_os g) && Z.even (g_factor g) = false ->
       focal_check g = Ok (nx * g_os g)%Z /\ (2 * g_crop g = g_fft g - nx * g_os g)%Z).
Proof.
  intros pupil pad nx os ratio fuel g Hp Hpad Hn Hr E.
  destruct (geometry_ok _ _ _ _ _ _ _ Hp Hpad Hn Hr E) as (G1 & G2 & G3 & G4 & G5 & G6 & G7 & G8 & G9 & G10 & G11 & G12 & G13).
  assert (LE : (g_fov g <= g_fft g)%Z) by (rewrite G12, G11; nia).
  destruct (slot_margin (g_fft g) (g_fov g) LE) as (S1 & S2 & S3).
  split.
  - split; [lia|]. split; [apply slot_len|]. split; [exact S1|]. split; [exact S3|]. split; [|auto].
    unfold cut_len. destruct (Z.eqb_spec (g_simpad g) 0); lia.
  - apply (proj1 (focal_ok g (nx * g_os g)%Z G12 G4 ltac:(lia) G13 (eq_sym G11))).
Qed.
Print Assumptions C61_partial.
Theorem C61_terminates :
  forall (pupil sim nx os : Z) (ratio : Qc), (0 < nx)%Z -> exists fuel r, sci_geometry pupil sim nx os ratio fuel = Some r.
Proof. exact geometry_term. Qed.
Print Assumptions C61_terminates.
Example C61_instance : exists g, sci_geometry 64 68 128 2 (qz 100) 10 = Some (Ok g) /\ focal_check g = Ok 256%Z /\ Z.odd (128 * g_os g) && Z.even (g_factor g) = false.
Proof. eexists. split; [vm_compute; reflexivity|]. split; reflexivity. Qed.
(** C61 is false: an odd focal plane with an even crop factor is rejected at every frame, always ... *)
Theorem C61_odd_refuted :
  forall (pupil pad nx os : Z) (ratio : Qc) (fuel : nat) (g : geom),
    (0 < pupil)%Z -> (0 < pad)%Z -> (0 < nx)%Z -> (0 < ratio)%Qc -> sci_geometry pupil (pupil + 2 * pad) nx os ratio fuel = Some (Ok g) ->
    Z.odd (nx * g_os g) && Z.even (g_factor g) = true -> focal_check g = Err ValueError.
Proof.
  intros pupil pad nx os ratio fuel g Hp Hpad Hn Hr E O.
  destruct (geometry_ok _ _ _ _ _ _ _ Hp Hpad Hn Hr E) as (G1 & G2 & G3 & G4 & G5 & G6 & G7 & G8 & G9 & G10 & G11 & G12 & G13).
  apply (proj2 (focal_ok g (nx * g_os g)%Z G12 G4 ltac:(nia) G13 (eq_sym G11)) O).
Qed.
Print Assumptions C61_odd_refuted.
Example C61_odd_instance : exists g, sci_geometry 64 68 101 1 (qz 50) 10 = Some (Ok g) /\ Z.odd (101 * g_os g) && Z.even (g_factor g) = true.
Proof. eexists. split; [vm_compute; reflexivity|]. reflexivity. Qed.
(** ... and a field of view under half a diffraction width cannot be set up. *)
Theorem C61_narrow_refuted :
  forall (pupil sim nx os : Z) (ratio : Qc) (fuel : nat), qc_round ratio = 0%Z -> sci_geometry pupil sim nx os ratio fuel = Some (Err ZeroDivisionError).
Proof. intros pupil sim nx os ratio fuel H. unfold sci_geometry. cbv zeta. rewrite H. reflexivity. Qed.
Print Assumptions C61_narrow_refuted.
Example C61_narrow_instance : (0 < qfrac 2 5)%Qc /\ qc_round (qfrac 2 5) = 0%Z.
Proof. split; reflexivity. Qed.

(** C62: the wavefront error of any phase over a binary mask with something open (Geometric mode). *)
Theorem C62_partial :
  forall (n : Z) (mask phase : image) (radians_per_nm : R), binary n mask -> 0 < total n mask -> radians_per_nm <> 0 ->
    exists w, wfe false n mask phase radians_per_nm = Some w /\ 0 <= w /\
      w * w = pupil_var n mask (fun i j => phase i j / radians_per_nm) /\
      (forall c, wfe false n mask (fun i j => phase i j + c) radians_per_nm = Some w) /\
      (forall a, wfe false n mask (fun i j => a * phase i j) radians_per_nm = Some (Rabs a * w)) /\
      (forall c, wfe false n mask (fun _ _ => c) radians_per_nm = Some 0).
Proof. exact wfe_laws. Qed.
Print Assumptions C62_partial.
Example C62_instance : binary 2 (fun i j => if (i =? j)%Z then 1 else 0) /\ 0 < total 2 (fun i j => if (i =? j)%Z then 1 else 0).
Proof.
  split; [intros i j _ _; destruct (i =? j)%Z; auto|]. unfold total. rewrite !rsum_2. cbn. lra.
Qed.
(** C62 is false in Physical mode: the wavefront error is reported as zero whatever the wavefront, which may well have variance. *)
Theorem C62_physical_refuted :
  (forall n mask phase s, wfe true n mask phase s = Some 0) /\
  exists n mask phase, binary n mask /\ 0 < total n mask /\ 0 < pupil_var n mask phase.
Proof.
  split; [reflexivity|]. exists 2%Z, (fun _ _ => 1), (fun i j => IZR i). split; [intros i j _ _; auto|].
  split; [unfold total; rewrite !rsum_2; lra|]. unfold pupil_var, pupil_mean, total. rewrite !rsum_2. lra.
Qed.
Print Assumptions C62_physical_refuted.

(** C92: with no oversampling and no cropped focal plane (even transform, non-negative aperture), the tip-tilt Strehl ratio is exactly the squared
    modulus of the mean complex amplitude over the aperture, and neither kind exceeds one. *)
Theorem C92_partial :
  forall (k : cam) (phase : image), camera k -> Z.even (g_fft (k_geom k)) = true -> lit k -> mask_nonneg k -> g_os (k_geom k) = 1%Z -> g_factor (k_geom k) = 1%Z ->
    let F := g_fov (k_geom k) in
    let s := cnorm2 (csum F (fun a => csum F (fun b => RtoC (k_mask k a b) * cis (phase a b))%C)) / (total F (k_mask k) * total F (k_mask k)) in
    inst_strehl k true phase = Some s /\ 0 <= s <= 1 /\ exists t, inst_strehl k false phase = Some t /\ s <= t <= 1.
Proof.
  intros k phase C Ev L M O F1 F s. destruct (strehl_formula k phase C Ev L M O F1) as (A & t & B & T). fold F in A.
  assert (T0 : 0 < total F (k_mask k)) by (apply lit_total; auto).
  assert (S0 : 0 <= s) by (apply Rmult_le_pos; [apply cnorm2_nonneg | left; apply Rinv_0_lt_compat, Rmult_lt_0_compat; auto]).
  assert (ST : s <= t).
  { revert A B. unfold inst_strehl, strehl_of. destruct (normalised (k_nx k) (sci_raw k phase)) as [v|]; [|discriminate]. unfold psf_max.
    destruct (normalised_some (k_nx k) (sci_raw k (fun _ _ => 0)) ltac:(pose proof (never_dark k (fun _ _ => 0) C Ev L); lra)) as (v0 & -> & _ & Hv0). cbn [option_map].
    intros A B. injection A as A. injection B as <-. change (cnorm2 (csum F (fun a => csum F (fun b => sci_field (k_mask k) phase a b))) / (total F (k_mask k) * total F (k_mask k))) with s in A.
    rewrite <- A. assert (N : (0 < k_nx k)%Z) by (destruct C as (? & ? & ? & ? & ? & ? & ? & ? & ? & _); auto).
    apply Rmult_le_compat_r.
    - left. apply Rinv_0_lt_compat. destruct (camera_facts k C Ev) as (h & K). rewrite (flat_max k h v0 K M O (never_dark k (fun _ _ => 0) C Ev L) Hv0).
      apply Rdiv_lt_0_compat; [apply Rmult_lt_0_compat; auto | apply never_dark; auto].
    - apply img_max_ge; split; try apply Z.div_pos; try apply Z.div_lt_upper_bound; lia. }
  split; [exact A|]. split; [split; lra|]. exists t. split; [exact B|]. split; lra.
Qed.
Print Assumptions C92_partial.
Example C92_instance : camera plain_cam /\ g_factor (k_geom plain_cam) = 1%Z.
Proof. split; [apply C60_centre_instance | reflexivity]. Qed.
(** C92 is false with oversampling 2: a small tilt over a fully open aperture gives both Strehl ratios above one. *)
Theorem C92_refuted :
  exists k phase s t, camera k /\ Z.even (g_fft (k_geom k)) = true /\ lit k /\ mask_nonneg k /\ g_factor (k_geom k) = 1%Z /\
    inst_strehl k true phase = Some s /\ 1 < s /\ inst_strehl k false phase = Some t /\ 1 < t.
Proof.
  destruct strehl_above_one as (phase & s & t & A & B & C & D). exists small_cam, phase, s, t.
  split; [exact small_camera|]. split; [reflexivity|]. split; [exact small_lit|]. split; [intros a b _ _; cbn; lra|]. split; [reflexivity|]. auto.
Qed.
Print Assumptions C92_refuted.
(** A camera with a single pixel reports Strehl ratio one for every wavefront. *)
Theorem C92_one_pixel_refuted :
  forall (k : cam) (tt : bool) (phase : image), camera k -> Z.even (g_fft (k_geom k)) = true -> lit k -> k_nx k = 1%Z -> inst_strehl k tt phase = Some 1.
Proof. exact one_pixel. Qed.
Print Assumptions C92_one_pixel_refuted.
Definition pixel_cam : cam := mkCam (mkGeom 1 3 7 2 4 4 0 4) 1 (fun _ _ => 1).
Example C92_one_pixel_instance : camera pixel_cam /\ Z.even (g_fft (k_geom pixel_cam)) = true /\ lit pixel_cam.
Proof.
  split; [exists 2%Z, 1%Z, 4%Z, (qz 3), 5%nat, 4%Z; repeat split; reflexivity|]. split; [reflexivity|]. exists 0%Z, 0%Z; cbn; repeat split; try lia; lra.
Qed.

(** C93: with an even transform, element (i, j) of the focal plane is the far field of the aperture at frequency (i - centre, j - centre), where the
    centre is half the focal plane. *)
Theorem C93_partial :
  forall (k : cam) (phase : image) (i j : Z), camera k -> Z.even (g_fft (k_geom k)) = true ->
    let n := (k_nx k * g_os (k_geom k))%Z in (0 <= i < n)%Z -> (0 <= j < n)%Z ->
    sci_intensity k phase i j =
    cnorm2 (far_field (g_fov (k_geom k)) (g_fft (k_geom k)) (fun a b => RtoC (k_mask k a b) * cis (phase a b))%C (i - n / 2) (j - n / 2)).
Proof.
  intros k phase i j C Ev n Hi Hj. destruct (camera_facts k C Ev) as (h & K). rewrite (intensity_far k h) by auto. destruct K. unfold n in *. clear n. remember (k_nx k * g_os (k_geom k))%Z as n eqn:En.
  assert (Q : forall i, (i + g_crop (k_geom k) - h = i - n / 2)%Z).
  { intros z. pose proof (Z.div_mod n 2 ltac:(lia)). pose proof (Z.mod_pos_bound n 2 ltac:(lia)). lia. }
  rewrite !Q. reflexivity.
Qed.
Print Assumptions C93_partial.
Example C93_instance : camera small_cam /\ Z.even (g_fft (k_geom small_cam)) = true.
Proof. split; [exact small_camera | reflexivity]. Qed.
(** C93 is false for odd transforms: the last row and column are left where they were. *)
Theorem C93_odd_refuted :
  exists k phase i j, camera k /\ (0 <= i < k_nx k)%Z /\ (0 <= j < k_nx k)%Z /\ g_os (k_geom k) = 1%Z /\
    sci_intensity k phase i j = 1 /\
    cnorm2 (far_field (g_fov (k_geom k)) (g_fft (k_geom k)) (fun a b => RtoC (k_mask k a b) * cis (phase a b))%C (i - k_nx k / 2) (j - k_nx k / 2)) = 4.
Proof.
  exists odd_cam, (fun _ _ => 0), 0%Z, 2%Z. split; [exact odd_camera|]. split; [cbn; lia|]. split; [cbn; lia|]. split; [reflexivity|]. exact odd_wrong.
Qed.
Print Assumptions C93_odd_refuted.

(** C94: in exact arithmetic the coordinates at which the phase is sampled, without bounds checks, and their neighbours lie in the phase array. *)
Theorem C94_inside_partial :
  forall (pupil pad F k : Z), (0 < pupil)%Z -> (0 < pad)%Z ->
    let x := phase_coord pupil pad (pupil + 2 * pad) F k in (0 <= x)%Qc /\ (0 <= qc_int x)%Z /\ (qc_int x + 1 < pupil + 2 * pad)%Z.
Proof. intros pupil pad F k Hp Hpad. exact (coord_in pupil pad _ F k Hp Hpad eq_refl). Qed.
Print Assumptions C94_inside_partial.
(** In single precision they do not: 510 elements across the pupil and a padding of one read past the end. *)
Theorem C94_float32_refuted :
  exists pupil pad F k, (0 < pupil)%Z /\ (0 < pad)%Z /\ (0 <= k < F)%Z /\
    let x := phase_coord32 pupil pad (pupil + 2 * pad) F k in (qc_int x + 1 = pupil + 2 * pad)%Z.
Proof. exists 510%Z, 1%Z, 600%Z, 599%Z. split; [lia|]. split; [lia|]. split; [lia|]. vm_compute. reflexivity. Qed.
Print Assumptions C94_float32_refuted.
(** C94 is false: aperture and phase are not sampled at the same points; the difference grows to a whole element at the far edge. *)
Theorem C94_same_points_refuted :
  forall (pupil pad F k : Z), (0 < pupil)%Z -> (1 < pad)%Z -> (1 < F)%Z -> (0 <= k < F)%Z ->
    (phase_coord pupil pad (pupil + 2 * pad) F k - mask_coord pupil pad F k = qz k / qz (F - 1))%Qc.
Proof. exact coord_differ. Qed.
Print Assumptions C94_same_points_refuted.
Example C94_instance : phase_coord 64 2 68 100 99 = qz 66 /\ mask_coord 64 2 100 99 = qz 65.
Proof. split; apply Qc_is_canon; vm_compute; reflexivity. Qed.

(** Laser guide stars and the logger: properties C63-C65 and C95-C100.  Vocabulary: Spec/LgsSpec.v. *)
From Coq Require Import Reals.
From Coquelicot Require Import Complex.
From Verif.Base Require Import Vec CSum CSumFacts PyFacts.
From Verif.Model Require Import Los Science Lgs LgsReal.
From Verif.Spec Require Import LgsSpec.
From Verif.Proofs Require Import LgsProofs LgsRealProofs.
From Coq Require Import Lra Lia.
Open Scope Z_scope.

(** C63: the meta-pupil lies on the straight line from the launch position on the ground to the guide star at the LGS height, and is where the
    upward line of sight has its centre. *)
Theorem C63 :
  forall gs launch H : Qc, H <> 0%Qc ->
    let pos := launch_meta_pupil lgs_rad2asec gs launch H in
    pos 0%Qc = launch /\ pos H = (gs / lgs_rad2asec * H)%Qc /\
    forall h, pos h = beam launch (gs / lgs_rad2asec) H h /\ pos h = centre true H (gs / lgs_rad2asec) launch h.
Proof.
  intros gs launch H HH pos. assert (R0 : lgs_rad2asec <> 0%Qc) by (unfold lgs_rad2asec; apply qz_neq0; lia). unfold pos.
  split; [unfold launch_meta_pupil; field; auto|]. split; [unfold launch_meta_pupil; field; auto|].
  intros h. split; [apply launch_beam; auto | symmetry; apply launch_los; auto].
Qed.
Print Assumptions C63.
(** The meta-pupil moves affinely: equal steps in height give equal steps in position. *)
Theorem C63_affine :
  forall gs launch H h h' t : Qc, H <> 0%Qc ->
    launch_meta_pupil lgs_rad2asec gs launch H ((1 - t) * h + t * h')%Qc =
    ((1 - t) * launch_meta_pupil lgs_rad2asec gs launch H h + t * launch_meta_pupil lgs_rad2asec gs launch H h')%Qc.
Proof. intros. assert (R0 : lgs_rad2asec <> 0%Qc) by (unfold lgs_rad2asec; apply qz_neq0; lia). unfold launch_meta_pupil. field. auto. Qed.
Print Assumptions C63_affine.
Example C63_instance : qz 90000 <> 0%Qc /\ launch_meta_pupil lgs_rad2asec (qz 206265) (qz 4) (qz 90000) (qz 45000) = qz 45002.
Proof. split; [apply qz_neq0; lia | qc_compute]. Qed.

(** C64, heights: with at least two layers they run in equal steps over the configured depth, symmetrically about the guide star height. *)
Theorem C64_heights :
  forall (H depth : Qc) (n : Z), 1 < n ->
    elong_height H depth n 0 = (H - depth / qz 2)%Qc /\ elong_height H depth n (n - 1) = (H + depth / qz 2)%Qc /\
    (forall i, (elong_height H depth n (i + 1) - elong_height H depth n i = depth / qz (n - 1))%Qc) /\
    (forall i, (elong_height H depth n i + elong_height H depth n (n - 1 - i) = H + H)%Qc) /\
    (Z.odd n = true -> elong_height H depth n (n / 2) = H).
Proof.
  intros H d n Hn. destruct (elong_ends H d n Hn) as (A & B). split; [exact A|]. split; [exact B|]. split; [intros; apply elong_step; exact Hn|].
  split; [intros; apply elong_sym; exact Hn|]. intros O. apply Z.odd_spec in O as (m & ->).
  replace ((2 * m + 1) / 2) with m by (replace (2 * m + 1) with (1 + m * 2) by lia; rewrite Z.div_add by lia; reflexivity). apply elong_mid. lia.
Qed.
Print Assumptions C64_heights.
(** C64 is false for a single layer: it lies half the depth below the guide star. *)
Theorem C64_single_refuted : forall H depth : Qc, depth <> 0%Qc -> elong_height H depth 1 0 = (H - depth / qz 2)%Qc /\ elong_height H depth 1 0 <> H.
Proof.
  intros H d Hd. split; [apply elong_single|]. rewrite elong_single. intros E. apply Hd. pose proof qz2.
  assert (X : (d = (H - (H - d / qz 2)) * qz 2)%Qc) by (field; auto). rewrite X, E. ring.
Qed.
Print Assumptions C64_single_refuted.
(** C64, directions: for a guide star on axis every layer is seen where the launch beam is at its height. *)
Theorem C64_position_partial :
  forall launch H h : Qc, H <> 0%Qc -> h <> 0%Qc -> elong_pos 0 launch H h = (rad2asec * seen_at launch 0 H h)%Qc.
Proof. exact elong_pos_zero. Qed.
Print Assumptions C64_position_partial.
(** C64 is false for every other guide star, whatever the launch position and layer: the central layer too is misplaced. *)
Theorem C64_position_refuted :
  forall gs launch H h : Qc, gs <> 0%Qc -> H <> 0%Qc -> h <> 0%Qc ->
    elong_pos gs launch H h <> (rad2asec * seen_at launch (gs / rad2asec) H h)%Qc /\
    elong_pos gs launch H H = (qz 2 * rad2asec * rad2asec * gs)%Qc.
Proof.
  intros gs l H h Hg H1 H2. split; [intros E; apply Hg; eapply elong_pos_wrong; [| |exact E]; auto|].
  unfold elong_pos. replace (H - H)%Qc with 0%Qc by ring. rewrite qz2_11. field. intros X. apply H1. rewrite <- X. ring.
Qed.
Print Assumptions C64_position_refuted.
Open Scope R_scope.
(** C64, wavefront of a layer: with the LGS height equal to the guide star height the focus added is the difference of the spherical waves from
    the layer and from the guide star, of the sign of their difference, and nothing is added at the guide star itself.  A centrally launched star
    on axis gets no tilt. *)
Theorem C64_phase_partial :
  forall lambda D H : R, 0 < lambda -> 0 < D -> 0 <= H ->
    (forall h, focal_path lambda D h H H = 2 * PI / lambda * (sag D h - sag D H)) /\
    (forall h, 0 <= h -> (H < h -> focal_path lambda D h H H < 0) /\ (h < H -> 0 < focal_path lambda D h H H)) /\
    focal_path lambda D H H H = 0 /\
    (forall d gs, tilt_path lambda D d gs H H H = 0) /\ (forall h, tilt_path lambda D 0 0 h H H = 0).
Proof.
  intros lambda D H Hl HD HH. split; [intros; apply focal_sag|]. split; [intros h Hh; apply focal_sign; auto|]. split; [apply focal_centre|].
  split; [intros; apply tilt_centre | intros; apply tilt_on_axis].
Qed.
Print Assumptions C64_phase_partial.
(** C64, tilt: for a guide star on axis the tilt added is that of the spherical wave from where the launch beam is at the layer's height, relative to
    the guide star, whatever the launch position. *)
Theorem C64_tilt_partial :
  forall lambda D d h H : R, H <> 0 ->
    tilt_path lambda D d 0 h H H = 2 * PI / lambda * (edge_difference D (beamR d 0 H h) h - edge_difference D (beamR d 0 H H) H).
Proof. intros. apply tilt_edges. auto. Qed.
Print Assumptions C64_tilt_partial.
(** C64 is false off axis: GSPosition, in arcseconds, is used as radians.  The wave added is that of a source at that many radians, and no layer but
    one on the ground is there. *)
Theorem C64_tilt_refuted :
  forall lambda D d gs H h arcsec : R, H <> 0 -> gs <> 0 -> h <> 0 -> 1 < arcsec ->
    tilt_path lambda D d gs h H H = 2 * PI / lambda * (edge_difference D (beamR d gs H h) h - edge_difference D (beamR d gs H H) H) /\
    beamR d gs H h <> beamR d (gs / arcsec) H h.
Proof.
  intros lambda D d gs H h a HH Hg Hh Ha. split; [apply tilt_edges; auto|]. unfold beamR. intros E.
  assert (X : h * gs * (a - 1) = 0).
  { replace (h * gs * (a - 1)) with (a * ((d + (gs * H - d) * (h / H)) - (d + (gs / a * H - d) * (h / H)))) by (field; lra). rewrite E. ring. }
  apply Rmult_integral in X as [X|X]; [|lra]. apply Rmult_integral in X as [X|X]; contradiction.
Qed.
Print Assumptions C64_tilt_refuted.
Example C64_tilt_instance : 90000 <> 0 /\ 10 <> 0 /\ 1 < 206264 /\ beamR 4 10 90000 90000 = 900000 /\ beamR 4 0 90000 45000 = 2.
Proof. unfold beamR. repeat split; lra. Qed.
(** C64 is false when the two heights are configured differently: the central layer is out of focus. *)
Theorem C64_phase_refuted :
  forall lambda D gsH H : R, 0 < lambda -> 0 <= gsH -> 0 <= H -> gsH <> H -> focal_path lambda D gsH gsH H <> 0.
Proof. exact focal_mismatch. Qed.
Print Assumptions C64_phase_refuted.
Open Scope Z_scope.
Example C64_instance :
  map (elong_height (qz 90000) (qz 10000) 5) [0; 1; 2; 3; 4] = map qz [85000; 87500; 90000; 92500; 95000] /\
  elong_height (qz 90000) (qz 10000) 1 0 = qz 85000 /\ 1 < 5 /\ (qz 10000 <> 0)%Qc /\
  elong_pos 0 (qz 4) (qz 90000) (qz 95000) <> 0%Qc.
Proof. split; [qc_compute|]. split; [qc_compute|]. split; [lia|]. split; qc_neq. Qed.

(** C65: a message goes to the file and the status function if they are set and always to standard output, once each, exactly when the verbosity
    is at least its level; so raising the verbosity never suppresses one. *)
Theorem C65 :
  forall (v : Z) (file status : bool) (c : call),
    (call_level c <= v -> exists out, log v file status c = Ok out /\ NoDup out /\
      (In SFile out <-> file = true) /\ (In SStatus out <-> status = true) /\ In SStdout out) /\
    (v < call_level c -> log v file status c = Ok []) /\
    forall v' out, v <= v' -> log v file status c = Ok out -> exists out', log v' file status c = Ok out' /\ forall s, In s out -> In s out'.
Proof.
  intros v f s c.
  assert (A : call_level c <= v -> log v f s c = Ok ((if f then [SFile] else []) ++ (if s then [SStatus] else []) ++ [SStdout])).
  { intros L. unfold log, print_message. destruct (Z.leb_spec (call_level c) v); [|lia]. destruct f, c; reflexivity. }
  assert (A' : forall v', call_level c <= v' -> log v' f s c = Ok ((if f then [SFile] else []) ++ (if s then [SStatus] else []) ++ [SStdout])).
  { intros v' L. unfold log, print_message. destruct (Z.leb_spec (call_level c) v'); [|lia]. destruct f, c; reflexivity. }
  assert (B : v < call_level c -> log v f s c = Ok []).
  { intros L. unfold log, print_message. destruct (Z.leb_spec (call_level c) v); [lia|reflexivity]. }
  split; [|split; [exact B|]].
  - intros L. eexists. split; [apply A, L|]. destruct f, s; cbn [app]; (split; [repeat constructor; cbn; intuition discriminate|]); cbn; intuition discriminate.
  - intros v' out Hv E. destruct (Z_le_gt_dec (call_level c) v) as [L|L].
    + rewrite A in E by exact L. injection E as <-. eexists. split; [apply A'; lia|]. auto.
    + rewrite B in E by lia. injection E as <-. destruct (Z_le_gt_dec (call_level c) v') as [L'|L'].
      * eexists. split; [apply A'; lia|]. intros x [].
      * exists []. split; [|auto]. unfold log, print_message. destruct (Z.leb_spec (call_level c) v'); [lia|reflexivity].
Qed.
Print Assumptions C65.
(** C65: warnings from verbosity 1, info from 2, debug from 3. *)
Theorem C65_levels :
  forall (v : Z) (file status : bool),
    (log v file status CWarning = Ok [] <-> v < 1) /\ (log v file status CInfo = Ok [] <-> v < 2) /\ (log v file status CDebug = Ok [] <-> v < 3).
Proof.
  intros v f s. unfold log, print_message, call_level.
  split; [|split]; match goal with |- context [?l <=? v] => destruct (Z.leb_spec l v) end; destruct f, s; cbn; split; intros; try lia; try discriminate; reflexivity.
Qed.
Print Assumptions C65_levels.
(** C65 is false for print_: it is silent at every verbosity below 3, the default (1) included. *)
Theorem C65_refuted : forall (v : Z) (file status : bool), v < 3 -> log v file status CPrint = Ok [].
Proof. intros v f s H. unfold log, print_message, call_level. destruct (Z.leb_spec 3 v); [lia|reflexivity]. Qed.
Print Assumptions C65_refuted.
Example C65_instance : log 2 true false CWarning = Ok [SFile; SStdout] /\ log 1 true true CPrint = Ok [] /\ log 3 false true CPrint = Ok [SStatus; SStdout].
Proof. split; [|split]; reflexivity. Qed.

Open Scope R_scope.
(** C95: on every even focal plane the uplink replaces the spots by their circular convolution with the beacon image about the central element,
    over the number of elements; light multiplies; and a beacon that is a single bright element displaces the spots by its offset from the centre. *)
Theorem C95_convolution_partial :
  forall (h : Z) (spots beacon : image), (0 < h)%Z ->
    let P := (2 * h)%Z in
    (forall i j, (0 <= i < P)%Z -> (0 <= j < P)%Z -> apply_uplink P spots beacon i j = convolved P h spots beacon i j / (IZR P * IZR P)) /\
    light P (apply_uplink P spots beacon) = light P spots * light P beacon / (IZR P * IZR P) /\
    forall w c d i j, (0 <= c < P)%Z -> (0 <= d < P)%Z -> (0 <= i < P)%Z -> (0 <= j < P)%Z ->
      apply_uplink P spots (point w c d) i j = w / (IZR P * IZR P) * spots ((i - (c - h)) mod P)%Z ((j - (d - h)) mod P)%Z.
Proof.
  intros h a b Hh P. assert (HP : (0 < P)%Z) by (unfold P; lia).
  assert (A : forall b i j, (0 <= i < P)%Z -> (0 <= j < P)%Z -> apply_uplink P a b i j = convolved P h a b i j / (IZR P * IZR P)) by (intros; apply uplink_conv; auto).
  split; [apply A|]. split.
  - rewrite <- (conv_light P h a b HP). unfold light. unfold Rdiv. rewrite Rmult_comm, <- rsum_scale. apply rsum_ext. intros i Hi. rewrite <- rsum_scale. apply rsum_ext. intros j Hj.
    rewrite A by auto. unfold Rdiv. ring.
  - intros w c d i j Hc Hd Hi Hj. rewrite A, conv_point by auto. replace (i + h - c)%Z with (i - (c - h))%Z by lia. replace (j + h - d)%Z with (j - (d - h))%Z by lia.
    unfold Rdiv. ring.
Qed.
Print Assumptions C95_convolution_partial.
(** C95 is false of the geometric beacon: with a flat wavefront and any transmission its brightest element is one before the centre on both axes,
    and with the whole transform lit it moves every spot by exactly one element. *)
Theorem C95_refuted :
  forall h : Z, (0 < h)%Z ->
    let P := (2 * h)%Z in
    (forall n (m : image) i j, (forall a b, 0 <= m a b) -> (0 <= i < P)%Z -> (0 <= j < P)%Z ->
       beacon_psf P n (fun a b => RtoC (m a b)) i j <= beacon_psf P n (fun a b => RtoC (m a b)) (h - 1) (h - 1)) /\
    (forall i j, (0 <= i < P)%Z -> (0 <= j < P)%Z -> beacon_psf P P (fun _ _ => RtoC 1) i j = point (IZR P ^ 4) (h - 1) (h - 1) i j) /\
    forall spots i j, (0 <= i < P)%Z -> (0 <= j < P)%Z ->
      apply_uplink P spots (beacon_psf P P (fun _ _ => RtoC 1)) i j = IZR P ^ 2 * spots ((i + 1) mod P)%Z ((j + 1) mod P)%Z.
Proof.
  intros h Hh P. split; [intros; apply flat_beacon_peak; auto|]. split; [intros; apply full_flat_beacon; auto|]. intros; apply flat_beacon_shifts; auto.
Qed.
Print Assumptions C95_refuted.
Example C95_instance :
  apply_uplink 4 (point 1 2 2) (beacon_psf 4 4 (fun _ _ => RtoC 1)) 1 1 = 16 /\ apply_uplink 4 (point 1 2 2) (beacon_psf 4 4 (fun _ _ => RtoC 1)) 2 2 = 0.
Proof. change 4%Z with (2 * 2)%Z. rewrite !(flat_beacon_shifts 2) by lia. unfold point. cbn. lra. Qed.

Open Scope Z_scope.
(** C96: with the field stop the beacon is asked for at the angular scale of the spots it is convolved with, when the field of view is a whole
    number of diffraction widths. *)
Theorem C96_partial :
  forall (diam fov wl : Qc) (k padding : Z), 0 < k -> 0 < padding -> diam <> 0%Qc -> wl <> 0%Qc -> fov <> 0%Qc -> (diam * fov / wl = qz k)%Qc ->
    spot_scale 1 diam fov wl padding = beacon_scale fov padding.
Proof. intros diam fov wl k p Hk Hp Hd Hw Hf E. rewrite (scales 1 diam fov wl k p) by (auto; lia). rewrite qz_1. ring. Qed.
Print Assumptions C96_partial.
(** C96 is false without the field stop, the default: one element of the spots is twice as wide as one of the beacon. *)
Theorem C96_refuted :
  forall (diam fov wl : Qc) (k padding : Z), 0 < k -> 0 < padding -> diam <> 0%Qc -> wl <> 0%Qc -> fov <> 0%Qc -> (diam * fov / wl = qz k)%Qc ->
    spot_scale 2 diam fov wl padding = (qz 2 * beacon_scale fov padding)%Qc /\ spot_scale 2 diam fov wl padding <> beacon_scale fov padding.
Proof.
  intros diam fov wl k p Hk Hp Hd Hw Hf E. assert (S : spot_scale 2 diam fov wl p = (qz 2 * beacon_scale fov p)%Qc) by (apply (scales 2 diam fov wl k p); auto; lia).
  split; [exact S|]. rewrite S. intros X. assert (P0 : qz p <> 0%Qc) by (apply qz_neq0; lia). apply Hf.
  assert (B : (beacon_scale fov p = 0)%Qc).
  { replace (beacon_scale fov p) with (qz 2 * beacon_scale fov p - beacon_scale fov p)%Qc by (rewrite qz2_11; ring). rewrite X. ring. }
  unfold beacon_scale in B. replace fov with (fov / qz p * qz p)%Qc by (field; auto). rewrite B. ring.
Qed.
Print Assumptions C96_refuted.
Example C96_instance : (qz 1 * qfrac 1 100000 / qfrac 1 2000000 = qz 20)%Qc /\
  spot_scale 2 (qz 1) (qfrac 1 100000) (qfrac 1 2000000) 40 = qfrac 1 2000000 /\ beacon_scale (qfrac 1 100000) 40 = qfrac 1 4000000.
Proof. split; [|split]; qc_compute. Qed.

(** C97: exactly when a beacon of each kind can be built, and its size. *)
Theorem C97_partial :
  (forall (pupilDiam pxlScale ratio : Qc) (nOut : Z), qc_round (pupilDiam * pxlScale) <> 0 -> qc_round ratio <= nOut ->
     geometric_sizes pupilDiam pxlScale ratio nOut = Ok (qc_round ratio)) /\
  (forall nOut L : Z, 0 < nOut -> 0 <= L <= 3 * nOut -> physical_sizes nOut L = Ok nOut).
Proof.
  split.
  - intros d s r n H1 H2. unfold geometric_sizes. destruct (Z.eqb_spec (qc_round (d * s)) 0); [contradiction|]. destruct (Z.ltb_spec n (qc_round r)); [lia|reflexivity].
  - intros n L H1 H2. apply physical_ok; lia.
Qed.
Print Assumptions C97_partial.
(** C97 is false of launch apertures under half a phase pixel, of fields wider than the transform, and of apertures over three times the image. *)
Theorem C97_refuted :
  (forall (pupilDiam pxlScale ratio : Qc) (nOut : Z), qc_round (pupilDiam * pxlScale) = 0 -> geometric_sizes pupilDiam pxlScale ratio nOut = Err ZeroDivisionError) /\
  (forall (pupilDiam pxlScale ratio : Qc) (nOut : Z), qc_round (pupilDiam * pxlScale) <> 0 -> nOut < qc_round ratio ->
     geometric_sizes pupilDiam pxlScale ratio nOut = Err ValueError) /\
  (forall nOut L : Z, 0 < nOut -> 3 * nOut < L -> physical_sizes nOut L = Err ValueError).
Proof.
  split; [|split].
  - intros d s r n H. unfold geometric_sizes. rewrite H. reflexivity.
  - intros d s r n H1 H2. unfold geometric_sizes. destruct (Z.eqb_spec (qc_round (d * s)) 0); [contradiction|]. destruct (Z.ltb_spec n (qc_round r)); [reflexivity|lia].
  - intros n L H1 H2. apply physical_bad; auto.
Qed.
Print Assumptions C97_refuted.
Example C97_instance :
  geometric_sizes (qfrac 3 10) (qz 16) (qz 12) 30 = Ok 12 /\ geometric_sizes (qfrac 3 10) (qfrac 3 2) (qz 12) 30 = Err ZeroDivisionError /\
  physical_sizes 8 5 = Ok 8 /\ physical_sizes 8 25 = Err ValueError.
Proof. split; [|split; [|split]]; vm_compute; reflexivity. Qed.

(** C98: the focal plane of an elongated source is the sum of the layers' spots weighted by the sodium profile, uniform by default; too short a
    profile is refused. *)
Theorem C98_weighted :
  forall (given : option vec) (spots : list vec) (n : nat), Forall (fun s => length s = n) spots ->
    match given with
    | Some p => if (length p <? length spots)%nat then na_profile given (length spots) = Err ConfigurationError
                else exists q, na_profile given (length spots) = Ok q /\ elong_focus spots q (vzero n) = Ok (weighted p spots n)
    | None => exists q, na_profile given (length spots) = Ok q /\ elong_focus spots q (vzero n) = Ok (weighted (repeat 1%Qc (length spots)) spots n)
    end.
Proof.
  intros given spots n F. destruct given as [p|]; unfold na_profile.
  - destruct (Nat.ltb_spec (length p) (length spots)); [reflexivity|]. exists p. split; [reflexivity|].
    rewrite (elong_focus_ok spots p (vzero n) n); auto using vzero_length. rewrite vadd_0_l; [reflexivity|]. apply weighted_len. exact F.
  - rewrite repeat_length. destruct (Nat.ltb_spec (length spots) (length spots)); [lia|]. eexists. split; [reflexivity|].
    rewrite (elong_focus_ok spots _ (vzero n) n F (vzero_length n)) by (rewrite repeat_length; apply le_n). rewrite vadd_0_l; [reflexivity|]. apply weighted_len. exact F.
Qed.
Print Assumptions C98_weighted.
(** C98: after the detector is scaled to the flux of the guide star only the relative strengths matter, and the flux is delivered. *)
Theorem C98_relative :
  forall (flux c : Qc) (p : vec) (spots : list vec) (n : nat), c <> 0%Qc ->
    scale_flux flux (weighted (vscale c p) spots n) = scale_flux flux (weighted p spots n) /\
    forall d v, scale_flux flux d = Some v -> lsum v = flux.
Proof. intros flux c p spots n Hc. split; [rewrite weighted_scale; apply flux_scale; exact Hc | intros; eapply scale_flux_sum; eauto]. Qed.
Print Assumptions C98_relative.
Example C98_instance :
  let spots := [[qz 1; 0%Qc]; [0%Qc; qz 1]] in
  na_profile (Some [qz 1; qz 3]) 2 = Ok [qz 1; qz 3] /\ elong_focus spots [qz 1; qz 3] (vzero 2) = Ok [qz 1; qz 3] /\
  scale_flux (qz 100) [qz 1; qz 3] = Some [qz 25; qz 75] /\ na_profile (Some [qz 1]) 2 = Err ConfigurationError.
Proof. split; [reflexivity|]. split; [qc_compute|]. split; [qc_compute | reflexivity]. Qed.

(** C99: with precompensation, a beacon and no elongation the correction given to the sensor is the one the beacon is launched with in the same
    frame; without precompensation the beacon is left alone. *)
Theorem C99_partial :
  forall (A : Type) (c : A) (old : option A),
    precomp_frame false true (Some c) (Some old) = Ok (Some (Some c)) /\
    (forall elongated correction, precomp_frame elongated false correction (Some old) = Ok (Some old)).
Proof. intros A c old. split; [reflexivity|]. intros [] [x|]; reflexivity. Qed.
Print Assumptions C99_partial.
(** C99 is false without uplink simulation (AttributeError), with elongation (ignored), and in a frame without correction (the last one stays). *)
Theorem C99_refuted :
  forall (A : Type) (c : A) (old : option A),
    precomp_frame false true (Some c) None = Err AttributeError /\
    precomp_frame true true (Some c) (Some old) = Ok (Some old) /\
    precomp_frame false true None (Some (Some c)) = Ok (Some (Some c)).
Proof. intros. split; [|split]; reflexivity. Qed.
Print Assumptions C99_refuted.
Example C99_instance : precomp_frame false true (Some 7) (Some (Some 3)) = Ok (Some (Some 7)) /\ precomp_frame true true (Some 7) (Some (Some 3)) = Ok (Some (Some 3)).
Proof. split; reflexivity. Qed.

(** C100: the warning is logged exactly when some meta-pupil reaches beyond the simulated array on its positive side. *)
Theorem C100_partial :
  forall (positions : list Qc) (pxlScale : Qc) (pupil sim : Z), positions <> [] -> (0 < pxlScale)%Qc ->
    (off_axis_warning positions pxlScale pupil sim = true <->
     exists x, In x positions /\ (qz sim / qz 2 < x * pxlScale + qz pupil / qz 2)%Qc).
Proof.
  intros l s p n Hl Hs. unfold off_axis_warning. rewrite Bool.negb_true_iff.
  assert (T : forall x, (qz 2 * x <= qz n)%Qc <-> (x <= qz n / qz 2)%Qc).
  { intros x. assert (X : (qz n = qz n / qz 2 + qz n / qz 2)%Qc) by (rewrite qz2_11; field; discriminate). set (y := (qz n / qz 2)%Qc) in *. clearbody y.
    rewrite X. replace (qz 2 * x)%Qc with (x + x)%Qc by (rewrite qz2_11; ring). split; intros H; qclra. }
  split.
  - intros E. exists (qmax_list l). split; [apply qmax_in, Hl|]. apply Qcnot_le_lt. intros C. apply T in C. apply qc_leb_true in C. congruence.
  - intros (x & Hx & L). destruct (qc_leb _ _) eqn:E; [|reflexivity]. exfalso. apply qc_leb_true in E. apply T in E.
    apply (Qclt_not_le _ _ L). eapply Qcle_trans; [|exact E]. apply Qcplus_le_compat; [|apply Qcle_refl]. apply Qcmult_le_compat_r; [apply qmax_ge, Hx | apply Qclt_le_weak, Hs].
Qed.
Print Assumptions C100_partial.
(** C100 is false on the negative side: no offset below the axis, however large, is ever reported. *)
Theorem C100_refuted :
  forall (positions : list Qc) (pxlScale : Qc) (pupil sim : Z), positions <> [] -> Forall (fun x => x <= 0)%Qc positions -> (0 < pxlScale)%Qc -> pupil <= sim ->
    off_axis_warning positions pxlScale pupil sim = false.
Proof.
  intros l s p n Hl F Hs Hp. destruct (off_axis_warning l s p n) eqn:E; [|reflexivity]. exfalso. apply (C100_partial l s p n Hl Hs) in E as (x & Hx & L).
  rewrite Forall_forall in F. specialize (F x Hx). apply (Qclt_not_le _ _ L).
  assert (A : (x * s <= 0)%Qc) by (replace 0%Qc with (0 * s)%Qc by ring; apply Qcmult_le_compat_r; [exact F | apply Qclt_le_weak, Hs]).
  assert (B : (qz p / qz 2 <= qz n / qz 2)%Qc) by (apply Qcmult_le_compat_r; [apply qz_le; exact Hp | discriminate]).
  replace (qz n / qz 2)%Qc with (0 + qz n / qz 2)%Qc by ring. apply Qcplus_le_compat; auto.
Qed.
Print Assumptions C100_refuted.
Example C100_instance : off_axis_warning [qz 1; qz 30] (qz 16) 128 260 = true /\ off_axis_warning [qz (-1); qz (-30)] (qz 16) 128 260 = false.
Proof. split; vm_compute; reflexivity. Qed.

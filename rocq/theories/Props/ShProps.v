(** Property theorems C41-C45, C76-C81: the Shack-Hartmann sensor. *)
From Coq Require Import Reals.
From Verif.Base Require Import Vec.
From Verif.Model Require Import Numerics Wfs Sh ShReal.
From Verif.Spec Require Import NumericsSpec ShSpec.
From Verif.Proofs Require Import ShProofs ShRealProofs.
Open Scope Z_scope.

(** A 3 x 3 sensor with 4 pixels per sub-aperture, one guard pixel and the doubled field. *)
Definition ex_sh : sh := mkSh 3 4 1 2.
Definition ones (n : Z) : arr Qc := mkArr n n (fun _ _ => 1%Qc).

(** C41: the window centroided for sub-aperture (x, y) is cut from the detector without an exception, has p x p
    pixels, and is the p x p block that starts at g + x (p + g), g + y (p + g), all of it on the detector. *)
Theorem C41_windows :
  forall (c : sh) (det : arr Qc) (q : Z * Z), sane c -> on_grid (nx c) q -> square (ndet_alloc c) det ->
    exists w, chop det (cent_coord c (fst q)) (cent_coord c (snd q)) (npx c) = Ok w /\ square (npx c) w /\
      forall i j, 0 <= i < npx c -> 0 <= j < npx c ->
        (0 <= window0 (npx c) (guard c) (fst q) + i < det_side (nx c) (npx c) (guard c)) /\
        (0 <= window0 (npx c) (guard c) (snd q) + j < det_side (nx c) (npx c) (guard c)) /\
        at2 w i j = at2 det (window0 (npx c) (guard c) (fst q) + i) (window0 (npx c) (guard c) (snd q) + j).
Proof. exact c41_windows. Qed.
Print Assumptions C41_windows.
(** C41: no detector pixel is in the windows of two sub-apertures, nor twice in one. *)
Theorem C41_disjoint :
  forall (c : sh) (q q' : Z * Z) (i j i' j' : Z), sane c ->
    0 <= i < npx c -> 0 <= j < npx c -> 0 <= i' < npx c -> 0 <= j' < npx c ->
    window0 (npx c) (guard c) (fst q) + i = window0 (npx c) (guard c) (fst q') + i' ->
    window0 (npx c) (guard c) (snd q) + j = window0 (npx c) (guard c) (snd q') + j' ->
    q = q' /\ i = i' /\ j = j'.
Proof. exact c41_disjoint. Qed.
Print Assumptions C41_disjoint.
Example C41_instance : sane ex_sh /\ on_grid (nx ex_sh) (1, 2) /\ square (ndet_alloc ex_sh) (ones 16) /\ cent_coord ex_sh 2 = 11 /\
  chop (ones 16) (cent_coord ex_sh 1) (cent_coord ex_sh 2) 4 <> Err ValueError.
Proof. unfold sane, on_grid, square. cbn. repeat split; try lia; try discriminate. Qed.

(** C42 (partial: sensors with a field stop, or with an even number of pixels per sub-aperture): the placement of
    any sub-aperture images succeeds and adds to every detector pixel exactly the light of the images drawn centred
    on their windows, each once. *)
Theorem C42_placed_partial :
  forall (c : sh) (det : arr Qc) (subs : list ((Z * Z) * arr Qc)),
    sane c -> (over c = 1 \/ Z.even (npx c) = true) -> square (ndet_alloc c) det ->
    Forall (fun s => on_grid (nx c) (fst s) /\ square (over c * npx c) (snd s)) subs ->
    exists d, place c det subs = Ok d /\ square (ndet_alloc c) d /\
      (forall u v, 0 <= u < nrow d -> 0 <= v < ncol d ->
        at2 d u v = (at2 det u v + lsum (map (fun s => drawn (npx c) (guard c) (over c) (fst s) (snd s) u v) subs))%Qc) /\
      flux d = (flux det + lsum (map (fun s => caught (nx c) (npx c) (guard c) (over c) (fst s) (snd s)) subs))%Qc.
Proof. exact c42_place. Qed.
Print Assumptions C42_placed_partial.
(** C42: an image that lies wholly on the detector adds all its light. *)
Theorem C42_light_kept_partial :
  forall (c : sh) (det : arr Qc) (q : Z * Z) (img : arr Qc),
    sane c -> (over c = 1 \/ Z.even (npx c) = true) -> square (ndet_alloc c) det ->
    on_grid (nx c) q -> square (over c * npx c) img ->
    (over c * npx c - npx c) / 2 <= window0 (npx c) (guard c) (fst q) ->
    window0 (npx c) (guard c) (fst q) - (over c * npx c - npx c) / 2 + over c * npx c <= det_side (nx c) (npx c) (guard c) ->
    (over c * npx c - npx c) / 2 <= window0 (npx c) (guard c) (snd q) ->
    window0 (npx c) (guard c) (snd q) - (over c * npx c - npx c) / 2 + over c * npx c <= det_side (nx c) (npx c) (guard c) ->
    exists d, place c det [(q, img)] = Ok d /\ flux d = (flux det + flux img)%Qc.
Proof. exact c42_flux_kept. Qed.
Print Assumptions C42_light_kept_partial.
Example C42_instance : sane ex_sh /\ Z.even (npx ex_sh) = true /\ square (ndet_alloc ex_sh) (ones 16) /\ square (over ex_sh * npx ex_sh) (ones 8) /\
  drawn 4 1 2 (0, 2) (ones 8) 0 15 = 1%Qc /\ drawn 4 1 2 (0, 2) (ones 8) 7 15 = 0%Qc /\ caught 3 4 1 2 (0, 2) (ones 8) = qz 49 /\
  caught 3 4 1 2 (1, 1) (ones 8) = qz 64.
Proof. unfold sane, square. cbn [nx npx guard over ex_sh]. repeat split; try lia; qc_compute. Qed.
(** C42 refuted otherwise: with the doubled field and an odd number of pixels per sub-aperture wider than two guard
    bands, placing any image of a sub-aperture in the first row raises ValueError, because half-pixel source and
    destination windows are truncated to different sizes. *)
Theorem C42_refuted :
  forall (c : sh) (det : arr Qc) (q : Z * Z) (img : arr Qc) (r : list ((Z * Z) * arr Qc)),
    2 <= nx c -> 0 <= guard c -> over c = oversize_of false -> Z.odd (npx c) = true -> 1 <= npx c -> 2 * guard c < npx c ->
    square (ndet_alloc c) det -> square (2 * npx c) img -> fst q = 0 -> place c det ((q, img) :: r) = Err ValueError.
Proof. exact c42_odd_place. Qed.
Print Assumptions C42_refuted.
Example C42_refuted_instance : Z.odd 5 = true /\ place (mkSh 4 5 0 (oversize_of false)) (ones 20) [((0, 1), ones 10)] = Err ValueError.
Proof. split; reflexivity. Qed.

(** C43: whatever light fell on the detector, after read-out it sums to the photons of the guide star and keeps its
    distribution. *)
Theorem C43_flux :
  forall (r : read_cfg) (mask det : arr Qc), flux det <> 0%Qc ->
    exists d, read_detector r mask det = Some d /\ nrow d = nrow det /\ ncol d = ncol det /\
      flux d = star_photons (r_zp r) mask (r_scale r) (r_mag r) (r_exposure r) /\
      forall i j, (at2 d i j * flux det = at2 det i j * flux d)%Qc.
Proof. exact read_star. Qed.
Print Assumptions C43_flux.
(** C43: nor does it depend on how much light was accumulated. *)
Theorem C43_exposure_structure :
  forall (r : read_cfg) (mask det : arr Qc) (k : Qc), k <> 0%Qc -> flux det <> 0%Qc ->
    exists d d', read_detector r mask det = Some d /\ read_detector r mask (scaled k det) = Some d' /\ arr_eq d' d.
Proof. exact read_scale. Qed.
Print Assumptions C43_exposure_structure.
(** C43: five magnitudes are a factor of one hundred, and fainter stars give less light. *)
Theorem C43_magnitudes :
  forall zp area mag t : R,
    (photons_R zp area (mag + 5) t * 100 = photons_R zp area mag t)%R /\
    (forall k, photons_R zp area mag (k * t) = k * photons_R zp area mag t)%R /\
    (forall m', 0 < zp -> 0 < area -> 0 < t -> mag < m' -> photons_R zp area m' t < photons_R zp area mag t)%R.
Proof. intros. split; [apply five_mags|]. split; [intros; apply linear_exposure|]. intros. apply brighter; auto. Qed.
Print Assumptions C43_magnitudes.
Definition ex_read : read_cfg := mkRead (qfrac 1 100) (qfrac 1 2) (qz 2) (qz 400) (qfrac 1 2).
Example C43_instance : flux (ones 4) <> 0%Qc /\ star_photons (r_zp ex_read) (ones 10) (r_scale ex_read) (r_mag ex_read) (r_exposure ex_read) = qz 200 /\
  match read_detector ex_read (ones 10) (ones 4) with Some d => at2 d 1 2 = qfrac 25 2 | None => False end.
Proof. split; [qc_neq|]. split; qc_compute. Qed.

(** C44: with tip-tilt removal the x slopes and the y slopes average to zero, differences between sub-apertures are
    untouched, and removing twice is removing once. *)
Theorem C44_removeTT :
  forall (n : nat) (s : vec), (0 < n)%nat -> length s = (2 * n)%nat ->
    length (remove_tt n s) = (2 * n)%nat /\
    lsum (firstn n (remove_tt n s)) = 0%Qc /\ lsum (skipn n (remove_tt n s)) = 0%Qc /\
    (forall i j, (i < n)%nat -> (j < n)%nat ->
       nth i (remove_tt n s) 0 - nth j (remove_tt n s) 0 = nth i s 0 - nth j s 0 /\
       nth (n + i) (remove_tt n s) 0 - nth (n + j) (remove_tt n s) 0 = nth (n + i) s 0 - nth (n + j) s 0)%Qc /\
    remove_tt n (remove_tt n s) = remove_tt n s.
Proof. exact remove_tt_spec. Qed.
Print Assumptions C44_removeTT.
Example C44_instance : remove_tt 2 [qz 1; qz 3; qz 10; qz 20] = [qz (-1); qz 1; qz (-5); qz 5].
Proof. qc_compute. Qed.

(** C45: for any positive number of pixels the padding loop ends; *)
Theorem C45_terminates :
  forall n need ov : Z, 0 < n -> exists (fuel : nat) (r : Z * Z), pad_loop n need fuel ov = Some r.
Proof. intros n need ov H. exact (pad_loop_term n need H ov). Qed.
Print Assumptions C45_terminates.
(** C45: the padding is a multiple of the sampling, holds the field, the oversampling is at least the requested one
    and the least such, and a second run changes nothing. *)
Theorem C45_padding :
  forall (n need : Z) (fuel : nat) (ov ov' P : Z), pad_loop n need fuel ov = Some (ov', P) ->
    (P = n * ov' /\ ov <= ov' /\ need <= P /\ (ov < ov' -> n * (ov' - 1) < need)) /\
    forall f, pad_loop n need f ov' = Some (ov', P).
Proof. intros n need fuel ov ov' P E. split; [exact (pad_loop_spec _ _ _ _ _ _ E)|exact (pad_loop_idem _ _ _ _ _ _ E)]. Qed.
Print Assumptions C45_padding.
(** C45: so binning the padded focal plane by the oversampling gives exactly the oversized sub-aperture, with all
    its light (times the fill factor). *)
Theorem C45_binning :
  forall (c : sh) (ov : Z) (f : Qc) (inten : arr Qc), sane c -> 1 <= ov -> square (over c * npx c * ov) inten ->
    square (over c * npx c) (to_subap_img c ov f inten) /\ flux (to_subap_img c ov f inten) = (f * flux inten)%Qc.
Proof. exact to_subap_flux. Qed.
Print Assumptions C45_binning.
Example C45_instance : pad_loop 8 30 2 2 = Some (4, 32) /\ pad_loop 8 30 1 2 = None.
Proof. split; reflexivity. Qed.

(** C76: for every padding of at least one pixel, the piece of the interpolated field seen by a sub-aperture lies
    inside the field, so that cutting it out never fails. *)
Theorem C76_inside :
  forall (A : Type) (P n pad I : Z) (q : Z * Z) (f : arr A), 0 < P -> 0 < n -> 0 < pad -> 0 < I -> on_grid n q ->
    square (nx_field P n pad I) f ->
    exists w, chop f (interp_coord P n pad I (fst q)) (interp_coord P n pad I (snd q)) I = Ok w /\ square I w /\
      forall i j, 0 <= i < I -> 0 <= j < I ->
        at2 w i j = at2 f (interp_coord P n pad I (fst q) + i) (interp_coord P n pad I (snd q) + j).
Proof. intros A P n pad I q f. exact (c76_chop P n pad I q f). Qed.
Print Assumptions C76_inside.
(** C76 (partial: pupil size a multiple of the number of sub-apertures, even number of field elements, as without a
    field stop): neighbouring pieces touch and do not overlap. *)
Theorem C76_tiling_partial :
  forall P n pad I x : Z, 0 < P -> 0 < n -> 0 <= pad -> Z.even I = true -> P mod n = 0 ->
    interp_coord P n pad I x = x * I + interp_coord P n pad I 0.
Proof. exact field_aligned. Qed.
Print Assumptions C76_tiling_partial.
Example C76_instance : nx_field 100 10 5 12 = 132 /\ interp_coord 100 10 5 12 0 = 6 /\ interp_coord 100 10 5 12 9 = 114.
Proof. repeat split; reflexivity. Qed.
(** C76 refuted: when the pupil size is not a multiple, pupil coordinates are truncated to whole pixels before they are
    scaled, and pieces overlap: 10 sub-apertures over 128 pixels, 20 elements each. *)
Theorem C76_refuted :
  exists P n pad I x : Z, 0 < P /\ 0 < n /\ 0 < pad /\ Z.even I = true /\ 0 <= x /\ x + 1 < n /\
    interp_coord P n pad I (x + 1) < interp_coord P n pad I x + I.
Proof. exists 128, 10, 2, 20, 0. repeat split; reflexivity. Qed.
Print Assumptions C76_refuted.

(** C77: every row and every column of the pupil belongs to exactly one row and column of sub-apertures; a
    sub-aperture is used iff the mean of the mask over its pixels reaches the threshold, and none is used twice. *)
Theorem C77_active :
  forall (mask : arr Qc) (n : Z) (thr : Qc), 0 < n -> n <= nrow mask -> n <= ncol mask ->
    NoDup (active_subaps mask n thr) /\
    (forall u, 0 <= u < nrow mask -> exists! x, 0 <= x < n /\ pup_edge (nrow mask) n x <= u < pup_edge (nrow mask) n (x + 1)) /\
    (forall v, 0 <= v < ncol mask -> exists! y, 0 <= y < n /\ pup_edge (ncol mask) n y <= v < pup_edge (ncol mask) n (y + 1)) /\
    forall q, In q (active_subaps mask n thr) <->
      (on_grid n q /\
       let a := pup_edge (nrow mask) n (fst q) in let b := pup_edge (nrow mask) n (fst q + 1) in
       let c := pup_edge (ncol mask) n (snd q) in let d := pup_edge (ncol mask) n (snd q + 1) in
       (thr <= zsum (b - a) (fun i => zsum (d - c) (fun j => at2 mask (a + i)%Z (c + j)%Z)) / qz ((b - a) * (d - c)))%Qc).
Proof. exact c77. Qed.
Print Assumptions C77_active.
Example C77_instance :
  active_subaps (mkArr 5 5 (fun i j => if i + j <? 5 then 1%Qc else 0%Qc)) 2 (qfrac 1 2) = [(0, 0); (0, 1); (1, 0)] /\
  pup_edge 5 2 1 = 2 /\ pup_edge 5 2 2 = 5.
Proof. repeat split; reflexivity. Qed.

(** C78 refuted: the configured throughput is ignored; for any throughput other than 1 the detected flux is not the
    throughput times the photons of the guide star. *)
Theorem C78_refuted :
  forall (r : read_cfg) (mask det : arr Qc), flux det <> 0%Qc -> r_throughput r <> 1%Qc ->
    star_photons (r_zp r) mask (r_scale r) (r_mag r) (r_exposure r) <> 0%Qc ->
    exists d, read_detector r mask det = Some d /\
      flux d <> (r_throughput r * star_photons (r_zp r) mask (r_scale r) (r_mag r) (r_exposure r))%Qc.
Proof. exact throughput_star. Qed.
Print Assumptions C78_refuted.
Theorem C78_any_throughput :
  forall (r : read_cfg) (t : Qc) (mask det : arr Qc),
    read_detector (mkRead (r_mag r) (r_scale r) (r_exposure r) (r_zp r) t) mask det = read_detector r mask det.
Proof. exact throughput_ignored. Qed.
Print Assumptions C78_any_throughput.
Example C78_instance : flux (ones 4) <> 0%Qc /\ r_throughput ex_read <> 1%Qc /\
  star_photons (r_zp ex_read) (ones 10) (r_scale ex_read) (r_mag ex_read) (r_exposure ex_read) <> 0%Qc.
Proof. split; [qc_neq|]. split; qc_neq. Qed.

(** C79: whatever the optics, read-out and centroider (deterministic functions), after any history of frames that
    ends in a read, a flat wavefront read in one frame measures exactly zero, with or without tip-tilt removal. *)
Theorem C79_flat :
  forall (nf nd nm : nat) (toDet readOut cents : vec -> vec) (p : Z) (n : nat) (tt : bool) (inten : vec) (fs : list (bool * frame_in)),
    (fs = [] \/ exists h j, fs = h ++ [(true, j)]) ->
    let st := static_data nf nd nm toDet readOut cents p n inten in
    let ce := fun d => calc_slopes p (Some st) n tt (cents d) in
    exists k, snd (fst (wfs_frame nf nd nm toDet readOut ce (wfs_after nf nd nm toDet readOut ce (wfs_init nf nd nm) fs) true (mkIn inten None))) = vzero k /\
              k = length st.
Proof. exact flat_frame. Qed.
Print Assumptions C79_flat.
Example C79_instance :
  static_data 2 2 2 (fun v => v) (fun v => v) (fun v => v) 4 1 [qz 3; qz 1] = [qz 1; qz (-1)] /\
  calc_slopes 4 (Some [qz 1; qz (-1)]) 1 false [qz 5; qz 1] = [qz 2; 0%Qc].
Proof. split; qc_compute. Qed.

(** C80 refuted: the focal plane of a sub-aperture already carries light in proportion K to its lit area (Parseval),
    and is then multiplied by the lit fraction again: detected light goes as the square of the lit fraction. *)
Theorem C80_refuted :
  forall (c : sh) (ov : Z) (f1 f2 K A : Qc) (I1 I2 : arr Qc), sane c -> 1 <= ov ->
    square (over c * npx c * ov) I1 -> square (over c * npx c * ov) I2 ->
    flux I1 = (K * (f1 * A))%Qc -> flux I2 = (K * (f2 * A))%Qc ->
    (flux (to_subap_img c ov f1 I1) * (f2 * f2) = flux (to_subap_img c ov f2 I2) * (f1 * f1))%Qc /\
    (f1 <> 0 -> f2 <> 0 -> f1 <> f2 -> K * A <> 0 -> flux (to_subap_img c ov f1 I1) * f2 <> flux (to_subap_img c ov f2 I2) * f1)%Qc.
Proof. exact fill_twice. Qed.
Print Assumptions C80_refuted.
Example C80_instance : square (over ex_sh * npx ex_sh * 1) (ones 8) /\ flux (ones 8) = (1 * (1 * qz 64))%Qc /\
  flux (scaled (qfrac 1 2) (ones 8)) = (1 * (qfrac 1 2 * qz 64))%Qc /\
  flux (to_subap_img ex_sh 1 (qfrac 1 2) (scaled (qfrac 1 2) (ones 8))) = qz 16.
Proof. unfold square. repeat split; try lia; qc_compute. Qed.

(** C81 refuted: in physical propagation mode the field handed to the sub-apertures does not depend on the complex
    field of the line of sight (interp.zoom returns None for complex data); geometric frames do have a field. *)
Theorem C81_refuted :
  forall (spl : arr Qc -> Qc -> Qc -> Qc) (ph ph' re re' : arr Qc) (N : Z),
    interp_efield spl true ph re N = interp_efield spl true ph' re' N /\ interp_efield spl true ph re N = None /\
    interp_efield spl false ph re N = Some (zoom ph N N).
Proof. intros. split; [apply physical_blind|]. split; reflexivity. Qed.
Print Assumptions C81_refuted.
Example C81_instance :
  interp_efield (fun _ _ _ => 0%Qc) true (ones 4) (ones 4) 8 = None /\
  option_map (fun a => at2 a 7 7) (interp_efield (fun _ _ _ => 0%Qc) false (ones 4) (ones 4) 8) = Some (Ok 1%Qc).
Proof. split; qc_compute. Qed.

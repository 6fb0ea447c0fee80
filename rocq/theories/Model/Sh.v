(** The Shack-Hartmann sensor: which sub-apertures exist, where they lie on the pupil, on the interpolated
    field and on the detector, how light is binned, placed and scaled, and what is done to the centroids. *)
From Verif.Base Require Import Vec.
From Verif.Model Require Import Numerics Wfs.

(** soapy/wfs/shackhartmann.py:484-485, 71-74  the arguments of findActiveSubaps: nx_subaps, nx_subap_pixels,
    guard pixels, and SUBAP_OVERSIZE (1 with a field stop, else 2). *)
Record sh := mkSh { nx : Z; npx : Z; guard : Z; over : Z }.
(** soapy/wfs/shackhartmann.py:71-74 *)
Definition oversize_of (field_stop : bool) : Z := if field_stop then 1 else 2.
(** soapy/wfs/shackhartmann.py:79, 512 *)
Definition nos (c : sh) : Z := over c * npx c.
(** soapy/wfs/shackhartmann.py:514 *)
Definition ndet (c : sh) : Z := nx c * npx c + (nx c + 1) * guard c.
(** soapy/wfs/shackhartmann.py:76  the size with which the detector is allocated (248-250) *)
Definition ndet_alloc (c : sh) : Z := nx c * (npx c + guard c) + guard c.

(** ** Sub-apertures on the pupil *)
(** soapy/wfs/shackhartmann.py:503, 520  int(numpy.round(x*x_spacing)), x_spacing = mask.shape[0]/nx_subaps.
    The float product is taken as exact. *)
Definition pup_edge (P n x : Z) : Z := round_div (x * P) n.
(** soapy/wfs/shackhartmann.py:519-524  the sub-aperture of the mask and its mean; the mean of an empty slice is
    NaN, here [None]. *)
Definition fill (mask : arr Qc) (n x y : Z) : option Qc :=
  let s := slice2 mask (pup_edge (nrow mask) n x) (pup_edge (nrow mask) n (x + 1))
                       (pup_edge (ncol mask) n y) (pup_edge (ncol mask) n (y + 1)) in
  if nrow s * ncol s =? 0 then None
  else Some (zsum (nrow s) (fun i => zsum (ncol s) (fun j => at2 s i j)) / qz (nrow s * ncol s))%Qc.
(** soapy/wfs/shackhartmann.py:524  comparison with NaN is false *)
Definition is_active (mask : arr Qc) (n : Z) (thr : Qc) (x y : Z) : bool :=
  match fill mask n x y with Some f => qc_leb thr f | None => false end.
(** soapy/wfs/shackhartmann.py:517-524  the loops, x outermost *)
Definition active_subaps (mask : arr Qc) (n : Z) (thr : Qc) : list (Z * Z) :=
  filter (fun q => is_active mask n thr (fst q) (snd q)) (list_prod (zseq n) (zseq n)).

(** ** Sub-apertures on the interpolated field *)
(** soapy/wfs/shackhartmann.py:525, 559  x * x_spacing cast to int32 *)
Definition pup_coord (P n x : Z) : Z := (x * P) / n.
(** soapy/wfs/shackhartmann.py:129-130, 63  numpy.round((coords + sim_pad) * nx_subap_interp / nx_subap_pupil) *)
Definition interp_coord (P n pad I x : Z) : Z := round_div ((pup_coord P n x + pad) * I * n) P.
(** soapy/wfs/shackhartmann.py:83-86  [I] is nx_subap_interp after line 78 *)
Definition nx_field (P n pad I : Z) : Z := round_div (n * I * (P + 2 * pad)) P.
(** soapy/numbalib/wfslib.py:45-55, 69-76  dst[i, :s, :s] = src[x:x+s, y:y+s] of one sub-aperture; a source of
    another shape that does not broadcast raises ValueError.  The multiplication by the mask is left out. *)
Definition chop {A} (src : arr A) (x y s : Z) : result (arr A) :=
  let w := slice2 src x (x + s) y (y + s) in
  if bc_ok s (nrow w) && bc_ok s (ncol w)
  then Ok (mkArr s s (fun i j => at2 w (bc_ix (nrow w) i) (bc_ix (ncol w) j)))
  else Err ValueError.

(** ** Sub-apertures on the detector *)
(** soapy/wfs/shackhartmann.py:528-529 *)
Definition cent_coord (c : sh) (x : Z) : Z := x * npx c + (x + 1) * guard c.
(** soapy/wfs/shackhartmann.py:513, 531-534.  detector_pad is a half-integer when (oversize-1)*pixels is odd;
    these are the coordinates in half pixels, i.e. twice dx1 and dx2. *)
Definition dx1h (c : sh) (x : Z) : Z := 2 * (x * npx c + (x + 1) * guard c) - (nos c - npx c).
Definition dx2h (c : sh) (x : Z) : Z := 2 * ((x + 1) * npx c + (x + 1) * guard c) + (nos c - npx c).
(** astype('int32') of a number given in half pixels: truncation *)
Definition int32h (h : Z) : Z := Z.quot h 2.
(** soapy/wfs/shackhartmann.py:561  clip(0, nx_detector_pixels).astype('int32') *)
Definition det1 (c : sh) (x : Z) : Z := int32h (Z.min (Z.max (dx1h c x) 0) (2 * ndet c)).
Definition det2 (c : sh) (x : Z) : Z := int32h (Z.min (Z.max (dx2h c x) 0) (2 * ndet c)).
(** soapy/wfs/shackhartmann.py:537-555, 562 *)
Definition sub1 (c : sh) (x : Z) : Z := int32h (if dx1h c x <? 0 then - dx1h c x else 0).
Definition sub2 (c : sh) (x : Z) : Z :=
  int32h (if 2 * ndet c <? dx2h c x then - (dx2h c x - 2 * ndet c) else 2 * nos c).
(** soapy/numbalib/wfslib.py:117-121  detector_img[x1:x2, y1:y2] += subap_imgs[i, sx1:sx2, sy1:sy2] *)
Definition place_one (c : sh) (det : arr Qc) (q : Z * Z) (img : arr Qc) : result (arr Qc) :=
  let (x, y) := q in
  let x1 := norm_ix (nrow det) (det1 c x) in
  let y1 := norm_ix (ncol det) (det1 c y) in
  let lx := slice_len (nrow det) (det1 c x) (det2 c x) in
  let ly := slice_len (ncol det) (det1 c y) (det2 c y) in
  let s := slice2 img (sub1 c x) (sub2 c x) (sub1 c y) (sub2 c y) in
  if bc_ok lx (nrow s) && bc_ok ly (ncol s)
  then Ok (mkArr (nrow det) (ncol det) (fun u v =>
         if (x1 <=? u) && (u <? x1 + lx) && (y1 <=? v) && (v <? y1 + ly)
         then (at2 det u v + at2 s (bc_ix (nrow s) (u - x1)) (bc_ix (ncol s) (v - y1)))%Qc else at2 det u v))
  else Err ValueError.
(** soapy/numbalib/wfslib.py:112-123 *)
Fixpoint place (c : sh) (det : arr Qc) (subs : list ((Z * Z) * arr Qc)) : result (arr Qc) :=
  match subs with
  | [] => Ok det
  | (q, img) :: r => let* d := place_one c det q img in place c d r
  end.
(** soapy/wfs/shackhartmann.py:371-381 without the LGS convolution: bin by fftOversamp, scale by the fill factor
    of the sub-aperture, place. Every entry is position, fill factor, focal plane intensity. *)
Definition scaled (k : Qc) (a : arr Qc) : arr Qc := mkArr (nrow a) (ncol a) (fun i j => (at2 a i j * k)%Qc).
Definition to_subap_img (c : sh) (ov : Z) (f : Qc) (inten : arr Qc) : arr Qc :=
  scaled f (bin_img inten ov (nos c) (nos c)).
Definition integrate (c : sh) (ov : Z) (det : arr Qc) (subs : list ((Z * Z) * (Qc * arr Qc))) : result (arr Qc) :=
  place c det (map (fun s => (fst s, to_subap_img c ov (fst (snd s)) (snd (snd s)))) subs).

(** ** Padding of the FFTs *)
(** soapy/wfs/shackhartmann.py:163-168 with n = nx_subap_pixels_oversize, need = nx_subap_interp, and
    soapy/scienceinstrument.py:122-129 with n = nx_pixels, need = FOVPxlNo: fftOversamp and the padding.
    [fuel] bounds the number of iterations; [None] = still running. *)
Fixpoint pad_loop (n need : Z) (fuel : nat) (ov : Z) : option (Z * Z) :=
  if n * ov <? need then match fuel with O => None | S f => pad_loop n need f (ov + 1) end
  else Some (ov, n * ov).

(** ** Read-out *)
(** soapy/wfs/shackhartmann.py:567-587.  [mag_factor] stands for 10**(-mag/2.5). *)
Definition photons_per_mag (mag_factor : Qc) (mask : arr Qc) (phase_scale exposure zp : Qc) : Qc :=
  (zp * zsum (nrow mask) (fun i => zsum (ncol mask) (fun j => at2 mask i j)) * (phase_scale * phase_scale) * (mag_factor * exposure))%Qc.
(** The configuration values read-out may use.  soapy/confParse.py:681-684, 792-793 *)
Record read_cfg := mkRead { r_mag : Qc; r_scale : Qc; r_exposure : Qc; r_zp : Qc; r_throughput : Qc }.
(** soapy/wfs/shackhartmann.py:384-390  readDetectorPlane without noise (photonNoise false, eReadNoise 0).
    [None]: the detector is dark and the division makes every pixel NaN. *)
Definition read_detector (r : read_cfg) (mask det : arr Qc) : option (arr Qc) :=
  let t := zsum (nrow det) (fun i => zsum (ncol det) (fun j => at2 det i j)) in
  if qc_eqb t 0 then None
  else Some (mkArr (nrow det) (ncol det) (fun i j =>
         (at2 det i j / t * photons_per_mag (r_mag r) mask (r_scale r) (r_exposure r) (r_zp r))%Qc)).

(** ** Slopes *)
Definition sub_mean (l : vec) : vec := map (fun v => v - lsum l / qz (Z.of_nat (length l)))%Qc l.
(** soapy/wfs/shackhartmann.py:449-451; gradient.py:156-162 does the same *)
Definition remove_tt (n : nat) (s : vec) : vec := sub_mean (firstn n s) ++ sub_mean (skipn n s).
Definition any_nonzero (l : vec) : bool := existsb (fun v => negb (qc_eqb v 0)) l.
(** soapy/wfs/shackhartmann.py:438-451  from the centroids (NaN already replaced), flattened; without
    angleEquivNoise. staticData of [None] is falsy. *)
Definition calc_slopes (p : Z) (static : option vec) (n : nat) (removeTT : bool) (cents : vec) : vec :=
  let s := map (fun v => v - qz p / qz 2)%Qc cents in
  let s := match static with Some st => if any_nonzero st then vsub s st else s | None => s end in
  if removeTT then remove_tt n s else s.

(** soapy/wfs/shackhartmann.py:287-297  getStatic: one read frame of a flat wavefront with no static data, tip-tilt
    removal, noise and LGS uplink off, right after allocation.  [toDet], [readOut], [cents] are integrateDetectorPlane,
    the noiseless readDetectorPlane and chopping plus centroiding; [inten] is the focal plane of a flat wavefront. *)
Definition static_data (nfoc ndet nmeas : nat) (toDet readOut cents : vec -> vec) (p : Z) (n : nat) (inten : vec) : vec :=
  snd (fst (wfs_frame nfoc ndet nmeas toDet readOut (fun d => calc_slopes p None n false (cents d))
              (wfs_init nfoc ndet nmeas) true (mkIn inten None))).

(** soapy/wfs/shackhartmann.py:329-334  interp_efield: geometric frames zoom the phase and take exp(1j*.) (here the
    phase itself), physical frames assign interp.zoom of the complex field; assigning None to a complex array fills
    it with NaN or raises, here [None]. *)
Definition interp_efield (spl : arr Qc -> Qc -> Qc -> Qc) (physical : bool) (los_phase efield_re : arr Qc) (N : Z)
  : option (arr (result Qc)) :=
  if physical then match interp_zoom spl true efield_re (ZScalar N) with
                   | Some a => Some (mkArr (nrow a) (ncol a) (fun i j => Ok (at2 a i j)))
                   | None => None end
  else Some (zoom los_phase N N).

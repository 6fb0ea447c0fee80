(** The legacy Shack-Hartmann sensor: how the field is cut into sub-apertures and how their images are put on the detector. *)
From Verif.Base Require Import Vec.
From Verif.Model Require Import Numerics Sh.

(** nxSubaps, pxlsPerSubap, SUBAP_OVERSIZE, subapFOVSpacing (after the doubling of line 57), pupil_size and sim_pad
    (soapy/wfs/shackhartmann_legacy.py:31-59). *)
Record legacy := mkLegacy { g_nx : Z; g_px : Z; g_over : Z; g_sp : Z; g_pupil : Z; g_pad : Z }.

(** soapy/wfs/shackhartmann_legacy.py:56  detectorPxls *)
Definition leg_det (g : legacy) : Z := g_px g * g_nx g.
(** soapy/wfs/shackhartmann_legacy.py:58-59  pxlsPerSubap2 *)
Definition leg_p2 (g : legacy) : Z := g_over g * g_px g.
(** soapy/wfs/shackhartmann_legacy.py:63-66  scaledEFieldSize; the float product is taken as exact *)
Definition leg_field (g : legacy) : Z := round_div (g_nx g * g_sp g * (g_pupil g + 2 * g_pad g)) (g_pupil g).
(** soapy/wfs/shackhartmann_legacy.py:287-288  coord = int(round(int(scaledEFieldSize/2. - nxSubaps*subapFOVSpacing/2.))) *)
Definition leg_coord (g : legacy) : Z := Z.quot (leg_field g - g_nx g * g_sp g) 2.
(** soapy/wfs/shackhartmann_legacy.py:289  scaledEField[coord:-coord, coord:-coord] *)
Definition leg_crop {A} (g : legacy) (e : arr A) : arr A := slice2 e (leg_coord g) (- leg_coord g) (leg_coord g) (- leg_coord g).
(** soapy/wfs/shackhartmann_legacy.py:292-299  subapArrays[i] of the sub-aperture in row x, column y.  Its subapCoords are
    (x, y) * pupil_size / nxSubaps (aotools.wfs.findActiveSubaps), so that line 293 rounds (x, y) * subapFOVSpacing. *)
Definition leg_chop {A} (g : legacy) (e : arr A) (x y : Z) : result (arr A) := chop (leg_crop g e) (x * g_sp g) (y * g_sp g) (g_sp g).

(** soapy/wfs/shackhartmann_legacy.py:99-101, 346-393  along one axis: first and last detector pixel and first and last pixel of the
    image, for a sub-aperture in row (or column) x; detectorSubapCoords is x * pxlsPerSubap. *)
Definition leg_span (g : legacy) (x : Z) : (Z * Z) * (Z * Z) :=
  let c := x * g_px g in
  let x1 := round_div (2 * c + g_px g - leg_p2 g) 2 in
  let x2 := round_div (2 * c + g_px g + leg_p2 g) 2 in
  if c =? 0 then ((0, x2), (round_div (leg_p2 g - g_px g) 2, leg_p2 g))
  else if c =? leg_det g - g_px g then ((x1, leg_det g), (0, round_div (leg_p2 g + g_px g) 2))
  else ((x1, x2), (0, leg_p2 g)).
(** soapy/wfs/shackhartmann_legacy.py:395-396  wfsDetectorPlane[x1:x2, y1:y2] += binnedFPSubapArrays[i, x1_fp:x2_fp, y1_fp:y2_fp] *)
Definition leg_place_one (g : legacy) (det : arr Qc) (q : Z * Z) (img : arr Qc) : result (arr Qc) :=
  let '((x1, x2), (fx1, fx2)) := leg_span g (fst q) in
  let '((y1, y2), (fy1, fy2)) := leg_span g (snd q) in
  let r0 := norm_ix (nrow det) x1 in
  let c0 := norm_ix (ncol det) y1 in
  let lx := slice_len (nrow det) x1 x2 in
  let ly := slice_len (ncol det) y1 y2 in
  let s := slice2 img fx1 fx2 fy1 fy2 in
  if bc_ok lx (nrow s) && bc_ok ly (ncol s)
  then Ok (mkArr (nrow det) (ncol det) (fun u v =>
         if (r0 <=? u) && (u <? r0 + lx) && (c0 <=? v) && (v <? c0 + ly)
         then (at2 det u v + at2 s (bc_ix (nrow s) (u - r0)) (bc_ix (ncol s) (v - c0)))%Qc else at2 det u v))
  else Err ValueError.
(** soapy/wfs/shackhartmann_legacy.py:345-396 *)
Fixpoint leg_place (g : legacy) (det : arr Qc) (subs : list ((Z * Z) * arr Qc)) : result (arr Qc) :=
  match subs with
  | [] => Ok det
  | (q, img) :: r => let* d := leg_place_one g det q img in leg_place g d r
  end.
(** soapy/wfs/shackhartmann_legacy.py:333-343, 345-396 without the LGS convolution: every focal plane is binned by fftOversamp
    (interp.binImgs), scaled by the fill factor of its sub-aperture and placed.  Every entry is position, fill factor, focal plane;
    binImgs of the stack of focal planes raises when it would for one of them.  A binned image of another size than
    binnedFPSubapArrays (line 333) raises ValueError. *)
Fixpoint leg_bin (g : legacy) (os : Z) (subs : list ((Z * Z) * (Qc * arr Qc))) : result (list ((Z * Z) * arr Qc)) :=
  match subs with
  | [] => Ok []
  | (q, (f, a)) :: r =>
      let* b := binImgs a os in
      if (nrow b =? leg_p2 g) && (ncol b =? leg_p2 g) then let* t := leg_bin g os r in Ok ((q, scaled f b) :: t) else Err ValueError
  end.
Definition leg_integrate (g : legacy) (os : Z) (det : arr Qc) (subs : list ((Z * Z) * (Qc * arr Qc))) : result (arr Qc) :=
  let* imgs := leg_bin g os subs in leg_place g det imgs.
(** soapy/wfs/shackhartmann_legacy.py:436-442  the window the centroids are taken of: wfsDetectorPlane[x:x+p, y:y+p] *)
Definition leg_window (g : legacy) (det : arr Qc) (q : Z * Z) : arr Qc :=
  slice2 det (fst q * g_px g) (fst q * g_px g + g_px g) (snd q * g_px g) (snd q * g_px g + g_px g).

(** The gradient sensor, which projects the phase of every sub-aperture on tip and tilt. *)
From Verif.Base Require Import Vec.
From Verif.Model Require Import Numerics Sh.

(** numpy.linspace(0, amp, P)[k] *)
Definition lin_coord (amp : Qc) (P k : Z) : Qc := if P =? 1 then 0%Qc else (amp * qz k / qz (P - 1))%Qc.
(** soapy/wfs/gradient.py:47, 61, 99  int(subapSpacing), subapSpacing = pupil_size/nxSubaps *)
Definition grad_size (P n : Z) : Z := P / n.
(** soapy/wfs/gradient.py:60-65  the tilt vector: [amp] is the phase across the telescope of a tilt of 1 arcsecond *)
Definition sub_coord (amp : Qc) (P m k : Z) : Qc :=
  (- (lin_coord amp P k - zsum m (lin_coord amp P) / qz m))%Qc.
(** soapy/wfs/gradient.py:67-70, 145-152  the x and y slope of one sub-aperture: meshgrid makes xGrad vary along
    axis 1 and yGrad along axis 0.  [None]: division by zero (NaN). *)
Definition grad_slopes (amp : Qc) (P : Z) (a : arr Qc) : option (Qc * Qc) :=
  let m := nrow a in
  let c := sub_coord amp P m in
  let norm := zsum m (fun i => zsum m (fun j => c j * c j))%Qc in
  let mean := (zsum m (fun i => zsum m (fun j => at2 a i j)) / qz (m * m))%Qc in
  if (m =? 0) || qc_eqb norm 0 then None
  else Some (zsum m (fun i => zsum m (fun j => (at2 a i j - mean) * (c j / norm)))%Qc,
             zsum m (fun i => zsum m (fun j => (at2 a i j - mean) * (c i / norm)))%Qc).

(** soapy/wfs/gradient.py:113-118  los.phase *= mask, then the pupil is cut out *)
Definition grad_pupil (pad : Z) (mask phase : arr Qc) : arr Qc :=
  slice2 (mkArr (nrow phase) (ncol phase) (fun i j => at2 phase i j * at2 mask i j)%Qc) pad (- pad) pad (- pad).
(** soapy/wfs/gradient.py:121-126  with sub-aperture coordinates x*P/n (aotools.wfs.findActiveSubaps):
    subapArrays[i] = pupilPhase[x1:x2, y1:y2], an int(spacing) x int(spacing) array *)
Definition grad_subap (P n : Z) (pupil : arr Qc) (x y : Z) : result (arr Qc) :=
  let m := grad_size P n in
  let w := slice2 pupil (round_div (x * P) n) (round_div ((x + 1) * P) n) (round_div (y * P) n) (round_div ((y + 1) * P) n) in
  if bc_ok m (nrow w) && bc_ok m (ncol w)
  then Ok (mkArr m m (fun i j => at2 w (bc_ix (nrow w) i) (bc_ix (ncol w) j))) else Err ValueError.
(** soapy/wfs/gradient.py:105-152  the slopes of sub-aperture (x, y) in a frame with phase [phase] *)
Definition grad_frame (amp : Qc) (P n pad : Z) (mask phase : arr Qc) (x y : Z) : result (option (Qc * Qc)) :=
  let* a := grad_subap P n (grad_pupil pad mask phase) x y in Ok (grad_slopes amp P a).
(** all active sub-apertures, in order; the first failing assignment ends the frame *)
Fixpoint grad_all (amp : Qc) (P n pad : Z) (mask phase : arr Qc) (subs : list (Z * Z)) : result (list (option (Qc * Qc))) :=
  match subs with
  | [] => Ok []
  | (x, y) :: r => let* s := grad_frame amp P n pad mask phase x y in
                   let* l := grad_all amp P n pad mask phase r in Ok (s :: l)
  end.

(** ** Frames and exposures of the sensors without an integrating detector *)
(** soapy/wfs/wfs.py:395-466 for Gradient and Pyramid: zeroData is the base class's no-op, calcFocalPlane replaces
    the image (gradient.py:126, pyramid.py:347-354) and slopes are made from it when read; a frame that is not read
    returns zeros(n_measurements). [image old phase] is everything up to the detector, [zero_data] zeroData, [slopes] calculateSlopes. *)
Section Overwriting.
  Context {Ph Im : Type}.
  Variables (image : Im -> Ph -> Im) (zero_data : Im -> Im) (slopes : Im -> vec) (nmeas : nat).
  Definition ow_frame (im : Im) (read : bool) (ph : Ph) : Im * vec :=
    let im1 := image (if read then zero_data im else im) ph in
    if read then (im1, slopes im1) else (im1, vzero nmeas).
  Fixpoint ow_run (im : Im) (fs : list (bool * Ph)) : list vec :=
    match fs with [] => [] | (read, ph) :: r => let (im', s) := ow_frame im read ph in s :: ow_run im' r end.
End Overwriting.
(** soapy/wfs/wfs.py:553-555  neither class overrides it *)
Definition base_zero_data {Im} (im : Im) : Im := im.
(** soapy/wfs/gradient.py:126, pyramid.py:347-354  the new image is written over the old one *)
Definition overwrite {Ph Im} (make : Ph -> Im) (old : Im) (ph : Ph) : Im := make ph.

(** ** What the simulation asks of a sensor class *)
Inductive wfs_class := CShackHartmann | CShackHartmannLegacy | CGradient | CPyramid | CZernike.
(** Attributes assigned by each class.  soapy/wfs/shackhartmann.py:100, 134; shackhartmann_legacy.py:82; pyramid.py:142; zernike.py:24;
    wfs.py:166 (commented out) and gradient.py (nowhere). *)
Definition has_n_measurements (c : wfs_class) : bool := match c with CGradient => false | _ => true end.
(** What the constructor raises for every configuration: zernike.py:39-43 uses the undefined name [base]. *)
Definition construct (c : wfs_class) : result unit := match c with CZernike => Err NameError | _ => Ok tt end.
(** Does calcFocalPlane accept [los]?  shackhartmann.py:319 and wfs.py:538 do; gradient.py:105,
    pyramid.py:302 and shackhartmann_legacy.py:267 do not. *)
Definition takes_los (c : wfs_class) : bool := match c with CGradient | CPyramid | CShackHartmannLegacy => false | _ => true end.
(** soapy/wfs/wfs.py:380-393  the call for each of the elongation layers *)
Fixpoint elong_calls (c : wfs_class) (layers : nat) : result unit :=
  match layers with O => Ok tt | S k => if takes_los c then elong_calls c k else Err TypeError end.
(** soapy/simulation.py:199-220  aoinit: every sensor is constructed, then totalWfsData += its n_measurements; the
    number in the list is what the attribute holds.  Other initialisation that may fail is left out. *)
Fixpoint init_wfss (ws : list (wfs_class * Z)) (acc : Z) : result Z :=
  match ws with
  | [] => Ok acc
  | (c, n) :: r => let* _ := construct c in
                   if has_n_measurements c then init_wfss r (acc + n) else Err AttributeError
  end.

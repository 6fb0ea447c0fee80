(** The science camera. *)
From Coq Require Import Reals.
From Coquelicot Require Import Complex.
From Verif.Base Require Import Vec CSum.
From Verif.Model Require Import Sh.
Open Scope Z_scope.

(** ** Sizes *)
Record geom := mkGeom {
  g_factor : Z;    (* crop_fov_factor *)
  g_fov : Z;       (* FOVPxlNo *)
  g_padfov : Z;    (* padFOVPxlNo *)
  g_simpad : Z;    (* fov_sim_pad *)
  g_os : Z;        (* fftOversamp, as left in the configuration *)
  g_fft : Z;       (* FFTPadding *)
  g_crop : Z;      (* fft_crop_elements *)
  g_focus : Z      (* size of focus_intensity *) }.
(** soapy/scienceinstrument.py:69-92, 119-132, 156  [ratio] is telescope_diameter * fov_rad / wavelength; [fuel] bounds the loop that
    raises the oversampling, [None] = still running *)
Definition sci_geometry (pupil sim nx os : Z) (ratio : Qc) (fuel : nat) : option (result geom) :=
  let F0 := qc_round ratio in
  if F0 =? 0 then Some (Err ZeroDivisionError)
  else
    let f := 1 + pupil / F0 in
    let F := F0 * f in
    let p := qc_round (qz F * qz sim / qz pupil)%Qc in
    let pF := if p mod 2 =? F mod 2 then p else p + 1 in
    match pad_loop nx F fuel os with
    | None => None
    | Some (os', P0) => Some (Ok (mkGeom f F pF ((pF - F) / 2) os' (P0 * f) ((P0 * f - P0) / 2) (P0 * f / f)))
    end.
(** number of elements of a[c:-c] for an array of n *)
Definition cut_len (n c : Z) : Z := if c =? 0 then 0 else Z.max 0 (n - 2 * c).
(** soapy/scienceinstrument.py:242-250  size of the focal plane handed on, and the check of the output array in abs_squared *)
Definition focal_size (g : geom) : Z := if g_crop g =? 0 then g_fft g else cut_len (g_fft g) (g_crop g).
Definition focal_check (g : geom) : result Z := if focal_size g =? g_focus g then Ok (focal_size g) else Err ValueError.
(** soapy/scienceinstrument.py:108-111, 232-237 *)
Definition slot_start (P F : Z) : Z := (P - F) / 2.
Definition slot_end (P F : Z) : Z := (P + F) / 2.
(** soapy/scienceinstrument.py:152-154  numpy.linspace(sim_pad, pupil + sim_pad, FOVPxlNo).clip(0, nx_out_pixels - 1.00001), without rounding *)
Definition phase_coord (pupil pad sim F k : Z) : Qc :=
  qc_min (qc_max (qz pad + (if F =? 1 then 0 else qz k * qz pupil / qz (F - 1))) 0) (qz sim - qfrac 100001 100000).
(** rounding to single precision of numbers of at least one *)
Definition f32 (x : Qc) : Qc := let s := 2 ^ (23 - Z.log2 (qc_floor x)) in (qz (qc_round (x * qz s)) / qz s)%Qc.
(** the same lines with the coordinates and the clipping bound in single precision, as they are stored; for sizes below 2^23 *)
Definition phase_coord32 (pupil pad sim F k : Z) : Qc :=
  qc_min (qc_max (f32 (qz pad + (if F =? 1 then 0 else qz k * qz pupil / qz (F - 1)))) 0) (f32 (qz sim - qfrac 100001 100000)).
(** soapy/scienceinstrument.py:113-117 with interp.zoom (soapy/interp.py:26-27): where the mask is sampled, counted like phase_coord *)
Definition mask_coord (pupil pad F k : Z) : Qc := (qz pad + (if F =? 1 then 0 else qz k * qz (pupil - 1) / qz (F - 1)))%Qc.

(** ** Images *)
Open Scope R_scope.
Definition image := Z -> Z -> R.
(** soapy/scienceinstrument.py:222-226  the field in the pupil; [phase] is the interpolated phase *)
Definition sci_field (mask phase : image) (i j : Z) : C := (RtoC (mask i j) * cis (phase i j))%C.
(** soapy/scienceinstrument.py:228-237 *)
Definition sci_place (P F : Z) (e : Z -> Z -> C) (i j : Z) : C :=
  if ((slot_start P F <=? i) && (i <? slot_end P F) && (slot_start P F <=? j) && (j <? slot_end P F))%Z%bool
  then e (i - slot_start P F)%Z (j - slot_start P F)%Z else RtoC 0.
(** soapy/numbalib/numbalib.py:217-231  fftshift_2d_inplace: for an odd size the last row and column stay where they are *)
Definition swap_half (n k : Z) : Z := (if k <? n / 2 then k + n / 2 else k - n / 2)%Z.
Definition fftshift_inplace (n : Z) (f : Z -> Z -> C) (i j : Z) : C :=
  if ((i <? 2 * (n / 2)) && (j <? 2 * (n / 2)))%Z%bool then f (swap_half n i) (swap_half n j) else f i j.
(** soapy/scienceinstrument.py:238-242 *)
Definition sci_focus (P F : Z) (e : Z -> Z -> C) : Z -> Z -> C :=
  fftshift_inplace P (dft2 P (fftshift_inplace P (sci_place P F e))).
Record cam := mkCam { k_geom : geom; k_nx : Z; k_mask : image }.
(** soapy/scienceinstrument.py:242-256  intensity in the field of view, binned to the detector (numbalib.py:154-167) *)
Definition sci_intensity (k : cam) (phase : image) (i j : Z) : R :=
  let g := k_geom k in cnorm2 (sci_focus (g_fft g) (g_fov g) (sci_field (k_mask k) phase) (i + g_crop g)%Z (j + g_crop g)%Z).
Definition sci_raw (k : cam) (phase : image) (i j : Z) : R :=
  let b := g_os (k_geom k) in rsum b (fun x => rsum b (fun y => sci_intensity k phase (i * b + x)%Z (j * b + y)%Z)).
Definition img_sum (n : Z) (d : image) : R := rsum n (fun i => rsum n (fun j => d i j)).
(** ndarray.max() of an n x n array, n >= 1 *)
Fixpoint rmaxn (n : nat) (f : Z -> R) : R := match n with O => f 0%Z | S m => Rmax (rmaxn m f) (f (Z.of_nat m)) end.
Definition img_max (n : Z) (d : image) : R := rmaxn (Z.to_nat n) (fun i => rmaxn (Z.to_nat n) (fun j => d i j)).
(** d / d.sum(); [None]: 0/0 *)
Definition normalised (n : Z) (d : image) : option image :=
  if Req_EM_T (img_sum n d) 0 then None else Some (fun i j => d i j / img_sum n d).
(** soapy/scienceinstrument.py:258-263  a frame: the accumulated image, and the frame and long exposure images shown *)
Definition sci_expose (n : Z) (raw acc : image) : image * (option image * option image) :=
  let acc' := fun i j => acc i j + raw i j in (acc', (normalised n raw, normalised n acc')).
(** frames one after the other since a reset (soapy/scienceinstrument.py:177-185) *)
Fixpoint sci_run (n : Z) (raws : list image) (acc : image) : image * list (option image * option image) :=
  match raws with
  | nil => (acc, nil)
  | r :: t => let (a, o) := sci_expose n r acc in let (a', os) := sci_run n t a in (a', o :: os)
  end.
(** soapy/scienceinstrument.py:164-168  the maximum of the image of a flat wavefront *)
Definition psf_max (k : cam) : option R := option_map (img_max (k_nx k)) (normalised (k_nx k) (sci_raw k (fun _ _ => 0))).
(** soapy/scienceinstrument.py:276-285 *)
Definition strehl_of (k : cam) (with_tt : bool) (img : image) : option R :=
  option_map (fun m => (if with_tt then img (k_nx k / 2)%Z (k_nx k / 2)%Z else img_max (k_nx k) img) / m) (psf_max k).
Definition inst_strehl (k : cam) (with_tt : bool) (phase : image) : option R :=
  match normalised (k_nx k) (sci_raw k phase) with Some i => strehl_of k with_tt i | None => None end.

(** ** Wavefront error *)
(** soapy/scienceinstrument.py:288-308  [None]: 0/0 *)
Definition wfe (physical : bool) (n : Z) (mask phase : image) (phs2Rad : R) : option R :=
  if physical then Some 0
  else if Req_EM_T (img_sum n mask) 0 then None
  else
    let res := fun i j => phase i j * mask i j / phs2Rad in
    let piston := img_sum n res / img_sum n mask in
    let res' := fun i j => res i j - piston * mask i j in
    Some (sqrt (img_sum n (fun i j => res' i j * res' i j) / img_sum n mask)).

(** The pyramid sensor.  Single precision is replaced by real numbers. *)
From Coq Require Import ZArith Reals List Bool.
From Coquelicot Require Import Complex.
From Verif.Base Require Import Py CSum.
From Verif.Model Require Import Numerics.
Import ListNotations.
Open Scope Z_scope.

(** ** Geometry *)
(** soapy/wfs/pyramid.py:116  int(pupil_size / nx_subaps) *)
Definition pyr_bin (P n : Z) : Z := P / n.
(** soapy/wfs/pyramid.py:118, 357  int(size_array / bin) *)
Definition pyr_ndet (N P n : Z) : Z := N / pyr_bin P n.
(** soapy/wfs/pyramid.py:202-203  rows of the quadrant filled by the pupil image; int() truncates, pupil_separation is a
    whole number here *)
Definition pyr_begin (half n sep : Z) : Z := trunc_div (2 * half - (2 * n + sep) + 1) 2.
Definition pyr_end (half n sep : Z) : Z := trunc_div (2 * half - sep + 1) 2.
(** soapy/wfs/pyramid.py:204  QuadMask1[begin:end, begin:end] = submask, with an n x n submask *)
Definition pyr_place (half n sep : Z) : result unit :=
  if bc_ok (slice_len half (pyr_begin half n sep) (pyr_end half n sep)) n then Ok tt else Err ValueError.
(** soapy/wfs/pyramid.py:60-63, 356-358  the reshape of rebin needs new_shape * (size // new_shape) = size *)
Definition pyr_rebin_ok (N b ns : Z) : result unit :=
  if b =? 1 then Ok tt else if ns =? 0 then Err ZeroDivisionError else if ns * (N / ns) =? N then Ok tt else Err ValueError.
(** soapy/wfs/pyramid.py:97-143  what calcInitParams checks, in order: the division by bin, the detector mask, the product
    with the (N//2 + N//2)-sized pyramid mask, the binning, and numpy.split in two. *)
Definition pyr_build (N P n sep : Z) : result Z :=
  if n =? 0 then Err ZeroDivisionError else if pyr_bin P n =? 0 then Err ZeroDivisionError else
  let ns := pyr_ndet N P n in let half := ns / 2 in
  let* _ := pyr_place half n sep in
  if negb (bc_ok N (2 * (N / 2))) then Err ValueError else
  let* _ := pyr_rebin_ok N (pyr_bin P n) ns in
  if negb (ns mod 2 =? 0) then Err ValueError else Ok ns.

(** ** Optics *)
Record pyr := mkPyr {
  y_N : Z;                          (** size_array *)
  y_P : Z;                          (** pupil_size *)
  y_n : Z;                          (** nx_subaps *)
  y_nmod : Z;                       (** nb_modulation *)
  y_sep : Z;                        (** pupil_separation *)
  y_ampl : R;                       (** modulation, radians per pixel *)
  y_mask : Z -> Z -> R;             (** pupil mask, size_array^2 *)
  y_sub : Z -> Z -> bool            (** aotools.circle(n/2, n), entries 0 or 1 *)
}.
Open Scope R_scope.
(** soapy/wfs/pyramid.py:65-88 on an n x n array *)
Definition tip_tilt (n : Z) (tip tilt : R) (i j : Z) : R :=
  tip * (IZR j - (IZR n - 1) / 2) - tilt * (IZR i - (IZR n - 1) / 2).
(** soapy/wfs/pyramid.py:258-270, 285-296 *)
Definition modulation (c : pyr) (k i j : Z) : R :=
  let t := 2 * PI * IZR k / IZR (y_nmod c) + PI / 4 in
  tip_tilt (y_N c) (y_ampl c * cos t) (- (y_ampl c * sin t)) i j.
(** soapy/wfs/pyramid.py:171-178 *)
Definition centring (c : pyr) (i j : Z) : R := tip_tilt (y_N c) (- (PI / IZR (y_N c))) (PI / IZR (y_N c)) i j.
(** soapy/wfs/pyramid.py:222-241 *)
Definition pyr_phase (c : pyr) (i j : Z) : R :=
  let h := (y_N c / 2)%Z in
  let apex := ((IZR (y_P c) / IZR (y_n c)) * IZR (y_sep c) + IZR (y_P c)) * (1 / IZR (y_N c)) * PI in
  if (i <? h)%Z then (if (j <? h)%Z then tip_tilt h (- apex) apex i j else tip_tilt h apex apex i (j - h))
  else (if (j <? h)%Z then tip_tilt h (- apex) (- apex) (i - h) j else tip_tilt h apex (- apex) (i - h) (j - h)).
(** soapy/wfs/pyramid.py:338-341, with intensity 1: the field written for modulation point k *)
Definition pyr_field (c : pyr) (phase : Z -> Z -> R) (k i j : Z) : C :=
  (RtoC (y_mask c i j) * cis ((phase i j + modulation c k i j + centring c i j) * y_mask c i j))%C.

(** soapy/wfs/pyramid.py:146-169  the transforms work on max(32, nb_modulation) planes *)
Definition pyr_slots (c : pyr) : Z := Z.max 32 (y_nmod c).
Definition memory := Z -> Z -> Z -> C.
(** soapy/wfs/pyramid.py:346  only the first nb_modulation planes are written *)
Definition pyr_write (c : pyr) (mem : memory) (phase : Z -> Z -> R) : memory :=
  fun k => if (k <? y_nmod c)%Z then pyr_field c phase k else mem k.
(** numpy.fft.fftshift: element k of the result is element k - n//2 of the argument *)
Definition shifted (n k : Z) : Z := ((k + (n - n / 2)) mod n)%Z.
(** soapy/wfs/pyramid.py:347-353  plane k after the Fourier filter; the shift acts on all three axes *)
Definition pyr_filter (c : pyr) (mem : memory) (k : Z) : Z -> Z -> C :=
  idft2 (y_N c) (fun u v =>
    (dft2 (y_N c) (mem (shifted (pyr_slots c) k)) (shifted (y_N c) u) (shifted (y_N c) v) * cis (pyr_phase c u v))%C).
(** soapy/wfs/pyramid.py:354 *)
Definition pyr_intensity (c : pyr) (mem : memory) (i j : Z) : R :=
  rsum (pyr_slots c) (fun k => cnorm2 (pyr_filter c mem k i j)).
(** soapy/wfs/pyramid.py:60-63  means over blocks *)
Definition rebin (N ns : Z) (f : Z -> Z -> R) (i j : Z) : R :=
  let b := (N / ns)%Z in
  rsum b (fun p => rsum b (fun q => f (i * b + p)%Z (j * b + q)%Z) / IZR b) / IZR b.
(** soapy/wfs/pyramid.py:354-360  the detector of a frame; read noise is left out *)
Definition pyr_detector (c : pyr) (maskd : bool) (mem : memory) (i j : Z) : R :=
  let binned := if (pyr_bin (y_P c) (y_n c) =? 1)%Z then pyr_intensity c mem else rebin (y_N c) (pyr_ndet (y_N c) (y_P c) (y_n c)) (pyr_intensity c mem) in
  if maskd then binned i j else binned i j / IZR (y_nmod c).

(** ** Slopes *)
Open Scope Z_scope.
(** soapy/wfs/pyramid.py:200-219  the mask of quadrant 1, and its mirror images *)
Definition quad_mask (half n sep : Z) (sub : Z -> Z -> bool) (a b : bool) (r c : Z) : bool :=
  let r' := if a then half - 1 - r else r in let c' := if b then half - 1 - c else c in
  let s := pyr_begin half n sep in
  (s <=? r') && (r' <? s + n) && (s <=? c') && (c' <? s + n) && sub (r' - s) (c' - s).
(** the pixels of a quadrant in the order of flatten() *)
Definition raster (h : Z) : list (Z * Z) := list_prod (zseq h) (zseq h).
(** soapy/wfs/pyramid.py:374-401  |detector * mask| at the lit pixels of one quadrant: [a] lower half, [b] right half *)
Definition quad_flux (c : pyr) (det : Z -> Z -> R) (a b : bool) : list R :=
  let h := pyr_ndet (y_N c) (y_P c) (y_n c) / 2 in
  map (fun rc => Rabs (det ((if a then h else 0) + fst rc) ((if b then h else 0) + snd rc)))
      (filter (fun rc => quad_mask h (y_n c) (y_sep c) (y_sub c) a b (fst rc) (snd rc)) (raster h)).
Open Scope R_scope.
Definition rlsum (l : list R) : R := fold_right Rplus 0 l.
Fixpoint zip4 (f : R -> R -> R -> R -> R) (a b c d : list R) : list R :=
  match a, b, c, d with x :: a', y :: b', z :: c', w :: d' => f x y z w :: zip4 f a' b' c' d' | _, _, _, _ => [] end.
(** soapy/wfs/pyramid.py:403-409  [None]: 0/0 *)
Definition raw_slopes (c : pyr) (det : Z -> Z -> R) : option (list R) :=
  let q1 := quad_flux c det false false in let q2 := quad_flux c det false true in
  let q3 := quad_flux c det true false in let q4 := quad_flux c det true true in
  let total := rlsum q1 + rlsum q2 + rlsum q3 + rlsum q4 in
  if Req_EM_T total 0 then None
  else Some (zip4 (fun x y z w => (x + z - (y + w)) / total) q1 q2 q3 q4 ++ zip4 (fun x y z w => (x + y - (z + w)) / total) q1 q2 q3 q4).
(** soapy/wfs/pyramid.py:220 *)
Definition slope_size (c : pyr) : nat :=
  let h := (pyr_ndet (y_N c) (y_P c) (y_n c) / 2)%Z in
  (length (filter (fun rc => quad_mask h (y_n c) (y_sep c) (y_sub c) false false (fst rc) (snd rc)) (raster h)) * 2)%nat.
(** soapy/wfs/pyramid.py:332-333, 436-439  the reference measured at initialisation, with the memory of that time *)
Definition flat_slopes (c : pyr) (mem : memory) : option (list R) :=
  raw_slopes c (pyr_detector c true (pyr_write c mem (y_mask c))).
(** soapy/wfs/pyramid.py:411-414 *)
Definition pyr_slopes (c : pyr) (flat : list R) (det : Z -> Z -> R) : option (list R) :=
  match raw_slopes c det with Some s => Some (map (fun p => fst p - snd p) (combine s flat)) | None => None end.
(** soapy/wfs/wfs.py:395-466 for the pyramid: a frame that is read, with the memory left by the earlier ones; the transforms
    may leave anything in their input (FFTW_DESTROY_INPUT), [destroy]. *)
Definition pyr_frame (c : pyr) (flat : list R) (destroy : memory -> memory) (mem : memory) (phase : Z -> Z -> R) : option (list R) * memory :=
  let m := pyr_write c mem phase in (pyr_slopes c flat (pyr_detector c false m), destroy m).

(** The array kernels: bilinear interpolation, zooming, binning, FFT shifts and the multi-process FFT.
    Floats are exact rationals; complex data are left polymorphic where only positions matter. *)
From Verif.Base Require Import Vec.

(** ** Reading an array element in numba-compiled code *)
(** a[i, j] in nopython mode: negative indices count from the end; there is no bounds check, so a read
    outside the array is undefined behaviour, modelled as [Err IndexError]. *)
Definition nb_index (n i : Z) : Z := if i <? 0 then i + n else i.
Definition nb_get {A} (a : arr A) (i j : Z) : result A :=
  let i' := nb_index (nrow a) i in
  let j' := nb_index (ncol a) j in
  if (0 <=? i') && (i' <? nrow a) && (0 <=? j') && (j' <? ncol a) then Ok (at2 a i' j') else Err IndexError.

(** ** Bilinear interpolation *)
(** soapy/numbalib/numbalib.py:62-75, 101-114  the value at one (x, y); numba.int32 truncates. *)
Definition bilinear_at (a : arr Qc) (x y : Qc) : result Qc :=
  let x1 := qc_int x in
  let y1 := qc_int y in
  let* d00 := nb_get a x1 y1 in
  let* d10 := nb_get a (x1 + 1) y1 in
  let* d01 := nb_get a x1 (y1 + 1) in
  let* d11 := nb_get a (x1 + 1) (y1 + 1) in
  let a1 := (d00 + (d10 - d00) * (x - qz x1))%Qc in
  let a2 := (d01 + (d11 - d01) * (x - qz x1))%Qc in
  Ok (a1 + (a2 - a1) * (y - qz y1))%Qc.

(** soapy/numbalib/numbalib.py:58-61, 64-67  coordinates at or beyond the last element are moved 1e-9 before it *)
Definition interp_eps : Qc := qfrac 1 1000000000.
Definition clamp_coord (n : Z) (x : Qc) : Qc := if qc_leb (qz (n - 1)) x then (qz (n - 1) - interp_eps)%Qc else x.

(** soapy/numbalib/numbalib.py:14-31  bilinear_interp at one pair of coordinates, with and without bounds_check *)
Definition bilinear_point (bounds_check : bool) (a : arr Qc) (x y : Qc) : result Qc :=
  if bounds_check then bilinear_at a (clamp_coord (nrow a) x) (clamp_coord (ncol a) y) else bilinear_at a x y.

(** soapy/numbalib/numbalib.py:55-76  the output array: element (i, j) from xCoords[i], yCoords[j]; the
    parallel loop writes distinct rows. *)
Definition bilinear_interp (bounds_check : bool) (a : arr Qc) (nx ny : Z) (xc yc : Z -> Qc) : arr (result Qc) :=
  mkArr nx ny (fun i j => bilinear_point bounds_check a (xc i) (yc j)).

(** ** Zoom *)
(** soapy/numbalib/numbalib.py:199, 202 and wfslib.py:26, 29: i * float32(n - 1) / (m - 0.99999999); the
    float32 conversion is exact below 2^24 and is left out. *)
Definition zoom_delta : Qc := qfrac 1 100000000.
Definition zoom_coord (n m i : Z) : Qc := (qz i * qz (n - 1) / (qz m - (1 - zoom_delta)))%Qc.
(** soapy/numbalib/numbalib.py:184-214  (wfslib.py:10-41 zoomtoefield takes exp(1j*.) of the same value) *)
Definition zoom (a : arr Qc) (mr mc : Z) : arr (result Qc) :=
  mkArr mr mc (fun i j => bilinear_at a (zoom_coord (nrow a) mr i) (zoom_coord (ncol a) mc j)).

(** The size argument of soapy/interp.py: an integer or a pair. *)
Inductive zsize := ZScalar (n : Z) | ZPair (a b : Z).
(** numpy.linspace(0, L, n)[i] *)
Definition linspace0 (L n i : Z) : Qc := if n =? 1 then 0%Qc else (qz i * qz L / qz (n - 1))%Qc.

Section Spline.
  (** RectBivariateSpline(arange, arange, array) as an evaluation function of the array; the spline itself
      is scipy's.  Its demand for more than [order] points per axis is left out. *)
  Variable spl : arr Qc -> Qc -> Qc -> Qc.

  (** soapy/interp.py:26-27 and 52, 94: coordsX spans axis 0, coordsY axis 1, but the interpolator is called
      as interpObj(coordsY, coordsX). *)
  Definition spl_zoom (a : arr Qc) (xs ys : Z) : arr Qc :=
    mkArr ys xs (fun i j => spl a (linspace0 (ncol a - 1) ys i) (linspace0 (nrow a - 1) xs j)).

  (** soapy/interp.py:4-52  zoom: the complex branch (30-43) has no return statement, so it gives None. *)
  Definition interp_zoom (is_complex : bool) (a : arr Qc) (sz : zsize) : option (arr Qc) :=
    let '(xs, ys) := match sz with ZScalar n => (n, n) | ZPair x y => (x, y) end in
    if is_complex then None else Some (spl_zoom a xs ys).

  (** soapy/interp.py:54-96  zoom_rbs on real data: newSize[0] of a Python int raises TypeError, and only
      IndexError is caught. *)
  Definition interp_zoom_rbs (a : arr Qc) (sz : zsize) : result (arr Qc) :=
    match sz with ZScalar _ => Err TypeError | ZPair x y => Ok (spl_zoom a x y) end.
End Spline.

(** ** Binning *)
(** soapy/numbalib/numbalib.py:154-166, 170-181 and, for each image of a stack, wfslib.py:139-151, 155-167 *)
Definition bin_img (a : arr Qc) (b nr nc : Z) : arr Qc :=
  mkArr nr nc (fun i j => zsum b (fun x => zsum b (fun y => at2 a (i * b + x) (j * b + y)))).

(** len(x[i::n]) for len(x) = N, n > 0, i >= 0 *)
Definition stride_len (N i n : Z) : Z := if i <? N then (N - i + n - 1) / n else 0.
(** In-place addition of an axis of length [src] into one of length [tgt]: equal, or broadcast from 1. *)
Definition bc_ok (tgt src : Z) : bool := (src =? tgt) || (src =? 1).
Definition bc_ix (src i : Z) : Z := if src =? 1 then 0 else i.
(** the loop  for i in range(n): out += data[:, i::n] *)
Fixpoint all_bc (tgt N n : Z) (k : nat) : bool :=
  match k with O => true | S k' => all_bc tgt N n k' && bc_ok tgt (stride_len N (Z.of_nat k') n) end.
(** soapy/interp.py:114-125  the 2-d case, columns first *)
Definition bin_cols (a : arr Qc) (n : Z) : result (arr Qc) :=
  let w := ncol a / n in
  if all_bc w (ncol a) n (Z.to_nat n)
  then Ok (mkArr (nrow a) w (fun i j => zsum n (fun k => at2 a i (k + n * bc_ix (stride_len (ncol a) k n) j))))
  else Err ValueError.
Definition bin_rows (a : arr Qc) (n : Z) : result (arr Qc) :=
  let w := nrow a / n in
  if all_bc w (nrow a) n (Z.to_nat n)
  then Ok (mkArr w (ncol a) (fun i j => zsum n (fun k => at2 a (k + n * bc_ix (stride_len (nrow a) k n) i) j)))
  else Err ValueError.
(** soapy/interp.py:99-125  binImgs of one image *)
Definition binImgs (a : arr Qc) (n : Z) : result (arr Qc) := let* t := bin_cols a n in bin_rows t n.

(** ** In-place FFT shift *)
Definition upd2 {A} (f : Z -> Z -> A) (x y : Z) (v : A) : Z -> Z -> A :=
  fun i j => if (i =? x) && (j =? y) then v else f i j.
(** soapy/numbalib/numbalib.py:223-229  the body of the loops: two swaps *)
Definition shift_step {A} (h k : Z) (f : Z -> Z -> A) (p : Z * Z) : Z -> Z -> A :=
  let '(x, y) := p in
  let tmp := f x y in
  let f1 := upd2 f x y (f (x + h) (y + k)) in
  let f2 := upd2 f1 (x + h) (y + k) tmp in
  let tmp2 := f2 (x + h) y in
  let f3 := upd2 f2 (x + h) y (f2 x (y + k)) in
  upd2 f3 x (y + k) tmp2.
Definition zseq (n : Z) : list Z := map Z.of_nat (seq 0 (Z.to_nat n)).
(** soapy/numbalib/numbalib.py:217-231  [xs] is the order in which the parallel outer loop executes its
    iterations; one iteration runs its inner loop in order. *)
Definition fftshift_inplace {A} (a : arr A) (xs : list Z) : arr A :=
  let h := nrow a / 2 in
  let k := ncol a / 2 in
  mkArr (nrow a) (ncol a)
        (fold_left (shift_step h k) (flat_map (fun x => map (fun y => (x, y)) (zseq k)) xs) (at2 a)).

(** ** ftShift2d *)
(** x[...][::-1] of the index range lo..hi-1 *)
Definition rev_ix (lo hi i : Z) : Z := lo + (hi - 1 - i).
Definition quad_ix (n i : Z) : Z := let s := round_div n 2 in if i <? s then rev_ix 0 s i else rev_ix s n i.
(** soapy/AOFFT.py:303-323  on the last two axes; numpy buffers the overlapping right-hand sides.  A given
    output array makes [not outputData] raise ValueError unless it has at most one element. *)
Definition ftShift2d {A} (output_given : bool) (a : arr A) : result (arr A) :=
  if output_given && (1 <? nrow a * ncol a) then Err ValueError
  else Ok (mkArr (nrow a) (ncol a) (fun i j => at2 a (quad_ix (nrow a) i) (quad_ix (ncol a) j))).

(** ** Multi-process FFT *)
Section MpFFT.
  Context {A B : Type}.
  (** the transform of one row (the FFT axes exclude axis 0), by the FFT library *)
  Variable F : A -> B.
  (** inputData: [n] rows; [p] processes *)
  Variable data : Z -> A.
  Variables n p : Z.

  (** soapy/AOFFT.py:277  inputData[i::processes] *)
  Definition chunk (i : Z) : list A := map (fun k => data (i + k * p)) (zseq (stride_len n i p)).
  (** soapy/AOFFT.py:296-301  doMpFFT: the transform of the rows of a chunk *)
  Definition worker (i : Z) : list B := map F (chunk i).
  (** soapy/AOFFT.py:289  outputData[i::processes] = vals *)
  Definition put_stride (out : Z -> option B) (i : Z) (vals : list B) : Z -> option B :=
    fun r => if (r <? n) && (i <=? r) && ((r - i) mod p =? 0) then nth_error vals (Z.to_nat ((r - i) / p)) else out r.

  (** queues (one per process), the main process's loop counter, and outputData *)
  Record mp := mkMp { mp_q : Z -> option (list B); mp_pc : Z; mp_out : Z -> option B }.
  (** soapy/AOFFT.py:270-294  the processes run concurrently: a step is one worker putting its result, or the
      main process taking the next queue's result (get blocks while it is empty). *)
  Inductive mp_step : mp -> mp -> Prop :=
  | StepPut : forall s i, 0 <= i < p -> mp_q s i = None ->
      mp_step s (mkMp (fun j => if j =? i then Some (worker i) else mp_q s j) (mp_pc s) (mp_out s))
  | StepGet : forall s v, mp_pc s < p -> mp_q s (mp_pc s) = Some v ->
      mp_step s (mkMp (mp_q s) (mp_pc s + 1) (put_stride (mp_out s) (mp_pc s) v)).
  Inductive mp_run : nat -> mp -> mp -> Prop :=
  | RunNil : forall s, mp_run 0 s s
  | RunStep : forall m s t u, mp_step s t -> mp_run m t u -> mp_run (S m) s u.
  (** all queues empty; outputData holds whatever an earlier call left there *)
  Definition mp_init (out : Z -> option B) : mp := mkMp (fun _ => None) 0 out.
End MpFFT.

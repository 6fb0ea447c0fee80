(** Index computations in the floats of Python and numba: interpolation, zoom, edges of sub-apertures, and the window on a moving
    screen.  (The exact-arithmetic models are in Model/Numerics.v, Model/Sh.v and Model/Atmos.v.) *)
From Coq Require Import ZArith List.
From Flocq Require Import Core BinarySingleNaN.
From Verif.Base Require Import Float64.
Import ListNotations.
Open Scope Z_scope.

(** a decimal literal a / b, correctly rounded *)
Definition dec64 (a b : Z) : b64 := div64 (ofZ64 a) (ofZ64 b).

(** soapy/numbalib/numbalib.py:59-60, 64-65  x >= data.shape[0] - 1: x = data.shape[0] - 1 - 1e-9 *)
Definition clamp64 (n : Z) (x : b64) : b64 := if ge64 x (ofZ64 (n - 1)) then sub64 (ofZ64 (n - 1)) (dec64 1 (10 ^ 9)) else x.
(** soapy/numbalib/numbalib.py:61, 66  numba.int32(x).  None: not a number; the conversion of numbers beyond 32 bits is not modelled
    (the sizes in the theorems are smaller). *)
Definition interp_index64 (n : Z) (x : b64) : option Z := int64 (clamp64 n x).

(** numpy's clip(0, n - c), c a literal *)
Definition clip64 (n : Z) (c x : b64) : b64 :=
  let y := if lt64 x (ofZ64 0) then ofZ64 0 else x in
  let hi := sub64 (ofZ64 n) c in if lt64 hi y then hi else y.
(** soapy/lineofsight.py:181, 189  clip(0, nx_scrn_size - 1.000000001); then interpolation without a bounds check (273, 335;
    soapy/numbalib/numbalib.py:102, 105) *)
Definition los_index64 (n : Z) (x : b64) : option Z := int64 (clip64 n (dec64 1000000001 (10 ^ 9)) x).
(** soapy/scienceinstrument.py:154  clip(0, nx_out_pixels - 1.00001); then interpolation without a bounds check (224-226) *)
Definition sci_index64 (n : Z) (x : b64) : option Z := int64 (clip64 n (dec64 100001 (10 ^ 5)) x).

(** numba.float32(k), as a float64: k with a mantissa of 24 bits *)
Definition f32_of_Z (k : Z) : b64 :=
  match @binary_normalize 24 128 eq_refl eq_refl mode_NE k 0 false with
  | B754_finite s m e _ => lit64 (SpecFloat.cond_Zopp s (Zpos m)) e
  | B754_zero _ => ofZ64 0
  | B754_infinity s => B754_infinity s
  | B754_nan => B754_nan
  end.
(** soapy/numbalib/numbalib.py:199, 202; soapy/numbalib/wfslib.py:26, 29  i*float32(data.shape[0]-1) / (zoomArray.shape[0] - 0.99999999);
    numba multiplies an int64 and a float32 in float64 *)
Definition zoom_coord64 (m n i : Z) : b64 := div64 (mul64 (ofZ64 i) (f32_of_Z (m - 1))) (sub64 (ofZ64 n) (dec64 99999999 (10 ^ 8))).
(** soapy/numbalib/numbalib.py:200, 203 *)
Definition zoom_index64 (m n i : Z) : option Z := int64 (zoom_coord64 m n i).

(** numpy.round (ties to even), then int() *)
Definition rint64 (x : b64) : option Z := int64 (@Bnearbyint 53 1024 emax64 mode_NE x).
(** soapy/wfs/shackhartmann.py:502-503, 520-521  int(numpy.round(x * x_spacing)), x_spacing = mask.shape[0] / float(nx_subaps) *)
Definition edge64 (pupil nx x : Z) : option Z := rint64 (mul64 (ofZ64 x) (div64 (ofZ64 pupil) (ofZ64 nx))).
(** soapy/wfs/shackhartmann.py:525, 559  the pupil coordinate of a sub-aperture, truncated by astype('int32') *)
Definition coord64 (pupil nx x : Z) : option Z := int64 (mul64 (ofZ64 x) (div64 (ofZ64 pupil) (ofZ64 nx))).

(** One axis of the window on a moving screen: scrnPos and the first and the j-th of the coordinates, which are kept and moved separately. *)
Record win64 := mkWin { wn_pos : b64; wn_x : b64 }.
(** soapy/atmosphere.py:242-249, 263  the start; [j]: which coordinate *)
Definition win_at64 (W s j : Z) (far : bool) : win64 :=
  let p := if far then ofZ64 (W - s) else ofZ64 0 in mkWin p (add64 (ofZ64 j) p).
Definition win_start64 (W s j : Z) (v : b64) : win64 := win_at64 W s j (lt64 v (ofZ64 0)).
(** soapy/atmosphere.py:316-338 (or 340-361)  the window at an end of the screen is put back (the screen is rolled) *)
Definition win_check64 (W s j : Z) (w : win64) : win64 :=
  let w := if ge64 (add64 (wn_pos w) (ofZ64 s)) (ofZ64 W) then mkWin (ofZ64 0) (ofZ64 j) else w in
  if lt64 (wn_pos w) (ofZ64 0) then win_at64 W s j true else w.
(** soapy/atmosphere.py:366-368 *)
Definition win_move64 (v : b64) (w : win64) : win64 := mkWin (add64 (wn_pos w) v) (add64 (wn_x w) v).
Fixpoint win_before64 (W s j : Z) (v : b64) (n : nat) : win64 :=
  match n with O => win_start64 W s j v | S m => win_move64 v (win_check64 W s j (win_before64 W s j v m)) end.
(** The window of frame n (counted from 0), as it is used on line 363. *)
Definition win_frame64 (W s j : Z) (v : b64) (n : nat) : win64 := win_check64 W s j (win_before64 W s j v n).

(** How far an infinite screen has moved: the rows added so far, and float_position. *)
Record roll64 := mkRoll { rl_rows : Z; rl_frac : b64 }.
(** soapy/atmosphere.py:489-495, 503-514  [v]: n_move_pixels.  None: int() of something that is not a number raises *)
Definition roll_step64 (v : b64) (s : roll64) : option roll64 :=
  match int64 v with
  | None => None
  | Some int_move =>
      let f := add64 (rl_frac s) (sub64 v (ofZ64 int_move)) in
      if ge64 f (ofZ64 1) then Some (mkRoll (rl_rows s + Z.max 0 (int_move + 1)) (sub64 f (ofZ64 1)))
      else Some (mkRoll (rl_rows s + Z.max 0 int_move) f)
  end.
Fixpoint roll64_after (v : b64) (n : nat) : option roll64 :=
  match n with O => Some (mkRoll 0 (ofZ64 0)) | S m => match roll64_after v m with Some s => roll_step64 v s | None => None end end.

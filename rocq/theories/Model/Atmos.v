(** The atmosphere: finite screens moved by rolling, infinite screens extended row by row. *)
From Verif.Base Require Import Vec.
From Verif.Model Require Import Numerics.

(** ** Finite screens *)
(** A stored square screen of size W is its index function on 0..W-1 in both axes. *)
Definition screen := Z -> Z -> Qc.
(** numpy.roll(a, k, axis): element i of the result is element (i - k) mod W of [a]. *)
Definition roll_x (W k : Z) (f : screen) : screen := fun i j => f ((i - k) mod W) j.
Definition roll_y (W k : Z) (f : screen) : screen := fun i j => f i ((j - k) mod W).

(** One axis of one layer: scrnPos and the first of the sample coordinates (xCoords[0] or yCoords[0]; the
    others follow in steps of one, as in arange). *)
Record axis := mkAxis { ax_pos : Qc; ax_off : Qc }.

(** soapy/atmosphere.py:243-250  the initial position is 0, or the far end for a negative wind; the
    coordinates start at the position (263-264). *)
Definition axis_init (W s : Z) (v : Qc) : axis :=
  let p := if qc_ltb v 0 then qz (W - s) else 0%Qc in mkAxis p p.

(** soapy/atmosphere.py:316-338 (x) and 340-361 (y): the two tests in order; each rolls the screen by an
    int() of the position and restarts the position and the coordinates.  [rl] is the roll along this axis. *)
Definition wrap_axis (W s : Z) (rl : Z -> screen -> screen) (f : screen) (a : axis) : screen * axis :=
  let '(f1, a1) :=
    if qc_leb (qz W) (ax_pos a + qz s) then (rl (qc_int (- ax_pos a)) f, mkAxis 0%Qc 0%Qc) else (f, a) in
  if qc_ltb (ax_pos a1) 0 then
    (rl (qc_int (qz W - ax_pos a1 - qz s)) f1, mkAxis (qz (W - s)) (qz (W - s)))
  else (f1, a1).

Record layer := mkLayer { ly_scr : screen; ly_x : axis; ly_y : axis }.
(** soapy/atmosphere.py:316-361 *)
Definition wrap_layer (W s : Z) (l : layer) : layer :=
  let '(f1, ax) := wrap_axis W s (roll_x W) (ly_scr l) (ly_x l) in
  let '(f2, ay) := wrap_axis W s (roll_y W) f1 (ly_y l) in
  mkLayer f2 ax ay.
(** soapy/atmosphere.py:366-368  position and coordinates advance by the wind (pixels per frame). *)
Definition advance (v : Qc) (a : axis) : axis := mkAxis (ax_pos a + v)%Qc (ax_off a + v)%Qc.
Definition move_layer (vx vy : Qc) (l : layer) : layer := mkLayer (ly_scr l) (advance vx (ly_x l)) (advance vy (ly_y l)).
(** soapy/atmosphere.py:243-264  the layer before the first frame *)
Definition layer_init (W s : Z) (f : screen) (vx vy : Qc) : layer := mkLayer f (axis_init W s vx) (axis_init W s vy).
(** The state from which frame n is sampled (line 363): n earlier calls of moveScrns, then the wrap tests. *)
Fixpoint before_frame (W s : Z) (f : screen) (vx vy : Qc) (n : nat) : layer :=
  match n with
  | O => layer_init W s f vx vy
  | S m => move_layer vx vy (wrap_layer W s (before_frame W s f vx vy m))
  end.
Definition sampled (W s : Z) (f : screen) (vx vy : Qc) (n : nat) : layer := wrap_layer W s (before_frame W s f vx vy n).

Section Interp.
  (** RectBivariateSpline over the stored screen, as an evaluation function *)
  Variable spl : screen -> Qc -> Qc -> Qc.
  (** soapy/atmosphere.py:363  the unscaled phase of frame n at pixel (i, j); the scaling of lines 371-378 is
      a constant factor per layer, see [layer_scale] in Model/AtmosReal.v. *)
  Definition frame_of (l : layer) (i j : Z) : Qc := spl (ly_scr l) (ax_off (ly_x l) + qz i)%Qc (ax_off (ly_y l) + qz j)%Qc.
  Definition atmos_frame (W s : Z) (f : screen) (vx vy : Qc) (n : nat) (i j : Z) : Qc := frame_of (sampled W s f vx vy n) i j.
End Interp.

(** ** Infinite screens *)
(** Rows of the stored screen, newest first; each is an index function over the columns. *)
Definition irow := Z -> Qc.
Record inf := mkInf { i_scr : list irow; i_frac : Qc; i_made : nat }.
Section Infinite.
  (** the row produced by the k-th call of get_new_row (aotools) *)
  Variable row : nat -> irow.
  (** n_move_pixels (line 489) and stencil_length, nx_size (aotools) *)
  Variables (v : Qc) (stencil : nat).

  (** soapy/atmosphere.py:513-517  for i in range(n): _scrn = append(new_row, _scrn) *)
  Fixpoint add_rows (n : nat) (made : nat) (sc : list irow) : list irow :=
    match n with O => sc | S m => add_rows m (S made) (row made :: sc) end.
  (** soapy/atmosphere.py:505-519  move_screen up to the crop; range(n) of a negative n is empty *)
  Definition inf_move (s : inf) : inf :=
    let im := qc_int v in
    let f1 := (i_frac s + (v - qz im))%Qc in
    let '(k, f2) := if qc_leb 1 f1 then (im + 1, (f1 - 1)%Qc) else (im, f1) in
    let n := Z.to_nat k in
    mkInf (firstn stencil (add_rows n (i_made s) (i_scr s))) f2 (i_made s + n).
  Fixpoint inf_run (n : nat) (s : inf) : inf := match n with O => s | S m => inf_move (inf_run m s) end.
End Infinite.

(** The stored rows as an array with nx columns *)
Definition inf_arr (nx : Z) (s : inf) : arr Qc :=
  mkArr (Z.of_nat (length (i_scr s))) nx (fun i j => match nth_error (i_scr s) (Z.to_nat i) with Some r => r j | None => 0%Qc end).
(** soapy/atmosphere.py:498, 521-522  output_screen: coordinates 1..nx less the sub-pixel offset in x, 1..nx in y *)
Definition inf_output (nx : Z) (s : inf) : arr (result Qc) :=
  bilinear_interp true (inf_arr nx s) nx nx (fun i => qz (i + 1) - i_frac s)%Qc (fun j => qz (j + 1)).

(** ** Orientation of infinite screens *)
(** soapy/atmosphere.py:528-548  the wind directions handled without interpolation: 0, 90, 180, 270 degrees *)
Inductive quarter := D0 | D90 | D180 | D270.
(** numpy.rot90(m)[i, j] = m[j, n-1-i]; flipud; rot90 with k=3 *)
Definition orient {A} (d : quarter) (a : arr A) : arr A :=
  match d with
  | D0 => a
  | D90 => mkArr (ncol a) (nrow a) (fun i j => at2 a j (ncol a - 1 - i))
  | D180 => mkArr (nrow a) (ncol a) (fun i j => at2 a (nrow a - 1 - i) j)
  | D270 => mkArr (ncol a) (nrow a) (fun i j => at2 a (nrow a - 1 - j) i)
  end.
(** soapy/numbalib/numbalib.py:117-133  the coordinates at which output (i, j) of size m reads a screen of size
    n; [c], [s] are the cosine and sine of the wind direction. *)
Definition rot_x (n m : Z) (c s : Qc) (i j : Z) : Qc :=
  let i1 := (qz i - (qz m / qz 2 - qfrac 1 2))%Qc in
  let j1 := (qz j - (qz m / qz 2 - qfrac 1 2))%Qc in
  (i1 * c - j1 * s + (qz n / qz 2 - qfrac 1 2))%Qc.
Definition rot_y (n m : Z) (c s : Qc) (i j : Z) : Qc :=
  let i1 := (qz i - (qz m / qz 2 - qfrac 1 2))%Qc in
  let j1 := (qz j - (qz m / qz 2 - qfrac 1 2))%Qc in
  (i1 * s + j1 * c + (qz n / qz 2 - qfrac 1 2))%Qc.
(** soapy/numbalib/numbalib.py:129-145  coordinates at or beyond the last element are moved 0.1 before it *)
Definition rot_clamp (n : Z) (x : Qc) : Qc := if qc_leb (qz (n - 1)) x then (qz n - qfrac 11 10)%Qc else x.
Definition rotate (a : arr Qc) (m : Z) (c s : Qc) : arr (result Qc) :=
  mkArr m m (fun i j => bilinear_at a (rot_clamp (nrow a) (rot_x (nrow a) m c s i j)) (rot_clamp (ncol a) (rot_y (ncol a) m c s i j))).

(** ** Layer strengths *)
(** soapy/atmosphere.py:109-113  normScrnStrengths = scrnStrengths / scrnStrengths[:scrnNo].sum() *)
Definition norm_strengths (scrnNo : nat) (st : list Qc) : list Qc :=
  map (fun x => x / lsum (firstn scrnNo st))%Qc st.

(** Property theorems C26-C29, C70-C73: the atmosphere. *)
From Coq Require Import Reals.
From Verif.Base Require Import Vec.
From Verif.Model Require Import Numerics Atmos AtmosReal.
From Verif.Spec Require Import AtmosSpec.
From Verif.Proofs Require Import AtmosProofs AtmosRealProofs AtmosForms.
Open Scope Z_scope.

(** C26: on every frame, whatever the wind, the window sampled on each axis lies inside the stored screen. *)
Theorem C26_window_inside_partial :
  forall (W s : Z) (f : screen) (vx vy : Qc) (n : nat), 1 <= s -> s <= W ->
    inside W s (ax_off (ly_x (sampled W s f vx vy n))) /\ inside W s (ax_off (ly_y (sampled W s f vx vy n))).
Proof. exact sampled_inside. Qed.
Print Assumptions C26_window_inside_partial.
Example C26_instance :
  ax_off (ly_x (sampled 8 3 (fun i j => qz (i + j)) (qfrac (-7) 2) (qz 11) 2)) = qfrac 3 2 /\
  ax_off (ly_y (sampled 8 3 (fun i j => qz (i + j)) (qfrac (-7) 2) (qz 11) 2)) = 0%Qc /\
  ax_off (ly_x (sampled 8 3 (fun i j => qz (i + j)) (qfrac (-7) 2) (qz 11) 3)) = qz 5.
Proof. qc_compute; repeat constructor. Qed.

(** C27, whole-pixel winds: for any number of frames, frame n shows the stored screen displaced by exactly n
    times the wind, continued cyclically. *)
Theorem C27_whole_pixels_partial :
  forall (W s : Z) (f : screen) (mx my : Z), 1 <= s -> s <= W ->
  forall (spl : screen -> Qc -> Qc -> Qc) (n : nat) (i j : Z), spl_exact W spl -> 0 <= i < s -> 0 <= j < s ->
    atmos_frame spl W s f (qz mx) (qz my) n i j =
    f ((start W s (qz mx) + Z.of_nat n * mx + i) mod W) ((start W s (qz my) + Z.of_nat n * my + j) mod W).
Proof. exact int_frame. Qed.
Print Assumptions C27_whole_pixels_partial.

(** C27, any wind, between wraps: as long as the window touches no end, k frames later the same screen is
    sampled at coordinates displaced by exactly k times the wind. *)
Theorem C27_between_wraps_partial :
  forall (spl : screen -> Qc -> Qc -> Qc) (W s : Z) (f : screen) (vx vy : Qc) (m k : nat) (i j : Z),
  let l := sampled W s f vx vy m in
  (forall t, (t <= k)%nat -> (t <> 0)%nat ->
     strictly_inside W s (ax_off (ly_x l) + qz (Z.of_nat t) * vx)%Qc /\
     strictly_inside W s (ax_off (ly_y l) + qz (Z.of_nat t) * vy)%Qc) ->
  atmos_frame spl W s f vx vy (m + k) i j =
  spl (ly_scr l) (ax_off (ly_x l) + qz (Z.of_nat k) * vx + qz i)%Qc (ax_off (ly_y l) + qz (Z.of_nat k) * vy + qz j)%Qc.
Proof. exact between_frames. Qed.
Print Assumptions C27_between_wraps_partial.

(** C27, any wind, any frame: from one frame to the next the window moves over the (cyclically rolled)
    turbulence by the wind up to an error of less than one pixel. *)
Theorem C27_step_within_a_pixel_partial :
  forall (W s : Z) (f : screen) (vx vy : Qc) (n : nat), 1 <= s -> s <= W ->
  let l := sampled W s f vx vy n in let r := sampled W s f vx vy (S n) in
  exists kx ky ex ey, rolled W kx ky (ly_scr l) (ly_scr r) /\
    ax_off (ly_x r) = (ax_off (ly_x l) + vx + qz kx + ex)%Qc /\ (qc_abs ex < 1)%Qc /\
    ax_off (ly_y r) = (ax_off (ly_y l) + vy + qz ky + ey)%Qc /\ (qc_abs ey < 1)%Qc.
Proof. exact flow_step. Qed.
Print Assumptions C27_step_within_a_pixel_partial.

(** C27 is FALSE of the code for fractional winds: at the first wrap the frame jumps back to the displacement
    floor((n+1) v) instead of (n+1) v; and a screen exactly as large as the window never moves under a wind
    of less than one pixel per frame. *)
Theorem C27_frozen_flow_refuted :
  (forall (spl : screen -> Qc -> Qc -> Qc) (W s : Z) (f : screen) (v : Qc) (n : nat) (i j : Z),
     spl_exact W spl -> 1 <= s -> (0 < v)%Qc ->
     (qz (Z.of_nat n) * v + qz s < qz W)%Qc -> (qz W <= qz (Z.of_nat (S n)) * v + qz s)%Qc -> 0 <= i < s -> 0 <= j < s ->
     atmos_frame spl W s f v 0 n i j = spl f (qz (Z.of_nat n) * v + qz i)%Qc (qz j) /\
     atmos_frame spl W s f v 0 (S n) i j = f ((qc_floor (qz (Z.of_nat (S n)) * v) + i) mod W) j) /\
  (forall (spl : screen -> Qc -> Qc -> Qc) (W : Z) (f : screen) (vx vy : Qc) (n : nat) (i j : Z),
     spl_exact W spl -> (qc_abs vx < 1)%Qc -> (qc_abs vy < 1)%Qc -> 1 <= W -> 0 <= i < W -> 0 <= j < W ->
     atmos_frame spl W W f vx vy n i j = f i j).
Proof. exact (conj forward_wrap stuck). Qed.
Print Assumptions C27_frozen_flow_refuted.

(** An interpolator meeting the hypotheses: nearest lower grid point. *)
Definition ex_spl (f : screen) (x y : Qc) : Qc := f (qc_floor x mod 8) (qc_floor y mod 8).
Example C27_instance :
  spl_exact 8 ex_spl /\
  map (fun n => atmos_frame ex_spl 8 3 (fun i j => qz (10 * i + j)) (qz 3) (qz (-2)) n 1 0) [0; 1; 2; 3]%nat
  = [qz 15; qz 43; qz 71; qz 27] /\
  map (fun n => ax_off (ly_x (sampled 8 3 (fun i j => qz (10 * i + j)) (qfrac 3 2) 0 n))) [2; 3; 4; 5]%nat
  = [qz 3; qfrac 9 2; 0; qfrac 3 2]%Qc /\
  (qz 3 * qfrac 3 2 + qz 3 < qz 8)%Qc /\ (qz 8 <= qz 4 * qfrac 3 2 + qz 3)%Qc.
Proof.
  split; [|qc_compute; repeat constructor; discriminate].
  split; unfold ex_spl; intros.
  - rewrite !qc_floor_qz, !Z.mod_small by lia. reflexivity.
  - apply H; apply Z.mod_pos_bound; lia.
Qed.

(** C28: with a wind of v >= 0 pixels per frame, after n frames floor(n v) rows have been added, the sub-pixel
    offset is in [0, 1) and rows plus offset make n v; the stored rows are the newest ones, in order. *)
Theorem C28_rows_partial :
  forall (row : nat -> irow) (v : Qc) (L : nat) (init : list irow) (n : nat), (0 <= v)%Qc -> length init = L ->
  let t := inf_run row v L n (mkInf init 0%Qc 0) in
  i_made t = Z.to_nat (qc_floor (qz (Z.of_nat n) * v)) /\
  (0 <= i_frac t)%Qc /\ (i_frac t < 1)%Qc /\ (qz (Z.of_nat (i_made t)) + i_frac t = qz (Z.of_nat n) * v)%Qc /\
  i_scr t = firstn L (map row (rev (seq 0 (i_made t))) ++ init).
Proof. exact inf_rows. Qed.
Print Assumptions C28_rows_partial.

(** C28: so the frames are frozen flow: pixel (i, j) of frame n is the linear interpolation, at position
    n v - (i + 2), of the sequence of all rows (those at the start and those ever added). *)
Theorem C28_flow_partial :
  forall (row : nat -> irow) (v : Qc) (L : nat) (init : list irow), (0 <= v)%Qc -> length init = L ->
  forall (nx : Z) (n : nat) (i j : Z), 0 <= i -> i + 2 < Z.of_nat L -> 0 <= j < nx - 2 ->
    at2 (inf_output nx (inf_run row v L n (mkInf init 0%Qc 0))) i j
    = Ok (lin_rows (all_rows row init) (qz (Z.of_nat n) * v - qz (i + 2))%Qc (j + 1)%Z).
Proof. exact inf_flow. Qed.
Print Assumptions C28_flow_partial.

(** C28 is FALSE of the code for negative wind speeds: no row is ever added and the offset runs away. *)
Theorem C28_negative_wind_refuted :
  forall (row : nat -> irow) (v : Qc) (L : nat) (s : inf) (n : nat), (v < 0)%Qc -> (i_frac s <= 0)%Qc ->
    i_made (inf_run row v L n s) = i_made s /\
    i_frac (inf_run row v L n s) = (i_frac s + qz (Z.of_nat n) * (v - qz (qc_int v)))%Qc.
Proof. exact inf_negative. Qed.
Print Assumptions C28_negative_wind_refuted.

Definition ex_row (k : nat) : irow := fun j => qz (100 * (Z.of_nat k + 1) + j).
Definition ex_init : list irow := map (fun k => fun j => qz (j - 100 * Z.of_nat k)) (seq 0 5).
Example C28_instance :
  let t := inf_run ex_row (qfrac 5 4) 5 3 (mkInf ex_init 0%Qc 0) in
  i_made t = 3%nat /\ i_frac t = qfrac 3 4 /\ at2 (inf_output 5 t) 0 1 = Ok (qz 277) /\
  i_frac (inf_run ex_row (qfrac (-5) 4) 5 8 (mkInf ex_init 0%Qc 0)) = qz (-2).
Proof. qc_compute; repeat constructor. Qed.

(** C29: the strengths used sum to one over the layers in use and are proportional to the configured ones. *)
Theorem C29_normalised :
  forall (k : nat) (st : list Qc), lsum (firstn k st) <> 0%Qc ->
    length (norm_strengths k st) = length st /\ lsum (firstn k (norm_strengths k st)) = 1%Qc /\
    (forall i x, nth_error st i = Some x ->
       exists y, nth_error (norm_strengths k st) i = Some y /\ (y * lsum (firstn k st) = x)%Qc).
Proof. exact norm_prop. Qed.
Print Assumptions C29_normalised.
(** C29: and the layers together have the configured r0: their r0^(-5/3) add up to it. *)
Theorem C29_integrated_r0 :
  (forall (r0 : R) (k : nat) (st : list R), (0 < r0)%R -> Forall (fun x => 0 < x)%R st -> (0 < k)%nat -> st <> [] ->
    rsum (map (fun n => Rpower (layer_r0 r0 n) (-5/3)) (firstn k (rnorm k st))) = Rpower r0 (-5/3))%R.
Proof. exact integrated_r0. Qed.
Print Assumptions C29_integrated_r0.
(** C29: the factor applied to a unit-r0 finite screen scales its variance by its layer's share. *)
Theorem C29_screen_variance :
  (forall r0 n : R, 0 < r0 -> 0 < n -> layer_scale r0 n * layer_scale r0 n = Rpower r0 (-5/3) * n)%R.
Proof. exact layer_scale_sq. Qed.
Print Assumptions C29_screen_variance.
Example C29_instance :
  norm_strengths 2 [qz 3; qz 1; qz 8] = [qfrac 3 4; qfrac 1 4; qz 2] /\ lsum (firstn 2 [qz 3; qz 1; qz 8]) = qz 4 /\
  Forall (fun x => 0 < x)%R [3; 1; 8]%R.
Proof. split; [qc_compute; repeat constructor|]. split; [qc_compute; repeat constructor|]. repeat constructor; Lra.lra. Qed.

(** C70 is FALSE of the code: on every frame the last two columns of an infinite screen are identical (both
    are read at the clamped coordinate), so the last column never shows its own turbulence. *)
Theorem C70_last_columns_refuted :
  forall (nx : Z) (s : inf) (i : Z), at2 (inf_output nx s) i (nx - 1) = at2 (inf_output nx s) i (nx - 2).
Proof. exact inf_last_columns. Qed.
Print Assumptions C70_last_columns_refuted.
(** C70, the part that holds: every column but the last two shows one stored column (that of the next index). *)
Theorem C70_inner_columns_partial :
  forall (row : nat -> irow) (v : Qc) (L : nat) (init : list irow), (0 <= v)%Qc -> length init = L ->
  forall (nx : Z) (n : nat) (i j : Z), 0 <= i -> i + 2 < Z.of_nat L -> 0 <= j < nx - 2 ->
  forall row' init', (forall k, row' k (j + 1) = row k (j + 1)) ->
    map (fun r : irow => r (j + 1)) init' = map (fun r : irow => r (j + 1)) init ->
    at2 (inf_output nx (inf_run row' v L n (mkInf init' 0%Qc 0))) i j
    = at2 (inf_output nx (inf_run row v L n (mkInf init 0%Qc 0))) i j.
Proof. exact inf_own_column. Qed.
Print Assumptions C70_inner_columns_partial.
Example C70_instance :
  let t := inf_run ex_row (qfrac 5 4) 5 3 (mkInf ex_init 0%Qc 0) in
  map (at2 (inf_output 5 t) 0) [2; 3] = [Ok (qz 278); Ok (qz 279 - interp_eps)%Qc] /\
  at2 (inf_output 5 t) 0 4 = Ok (qz 279 - interp_eps)%Qc.
Proof. qc_compute; repeat constructor. Qed.

(** C71 is FALSE of the code: with the same wind of m pixels per frame in direction 0, a finite screen's
    pattern moves towards smaller row indices and an infinite screen's towards larger ones; and a pattern
    rising along an infinite screen's flow rises along the columns at 90 degrees but falls along them at
    every other direction with positive sine. *)
Theorem C71_direction_refuted :
  (forall (W s : Z) (f : screen) (m : Z) (spl : screen -> Qc -> Qc -> Qc) (n : nat) (i j : Z),
     1 <= s -> s <= W -> 0 <= m -> spl_exact W spl -> 0 <= i -> i + m < s -> 0 <= j < s ->
     atmos_frame spl W s f (qz m) 0 (S n) i j = atmos_frame spl W s f (qz m) 0 n (i + m) j) /\
  (forall (row : nat -> irow) (m : Z) (L : nat) (init : list irow) (nx : Z) (n : nat) (i j : Z),
     0 <= m -> length init = L -> 0 <= i -> i + m + 2 < Z.of_nat L -> 0 <= j < nx - 2 ->
     at2 (orient D0 (inf_output nx (inf_run row (qz m) L (S n) (mkInf init 0%Qc 0)))) (i + m) j
     = at2 (orient D0 (inf_output nx (inf_run row (qz m) L n (mkInf init 0%Qc 0)))) i j) /\
  (forall (n : Z) (i j : Z), 0 <= i < n -> 0 <= j < n ->
     at2 (orient D90 (mkArr n n (fun x _ => qz x))) i j = qz j) /\
  (forall (n m : Z) (c s : Qc) (i j : Z), 1 <= m -> 2 * m <= n -> (c * c + s * s = 1)%Qc -> 0 <= i < m -> 0 <= j < m - 1 ->
     exists u w, at2 (rotate (mkArr n n (fun x _ => qz x)) m c s) i j = Ok u /\
                 at2 (rotate (mkArr n n (fun x _ => qz x)) m c s) i (j + 1) = Ok w /\ (w - u = - s)%Qc).
Proof. exact directions. Qed.
Print Assumptions C71_direction_refuted.
(** C71, the part that holds: among infinite screens the four cardinal directions move the pattern by the
    same m pixels per frame towards larger rows, larger columns, smaller rows and smaller columns. *)
Theorem C71_cardinal_partial :
  forall (row : nat -> irow) (m : Z) (L : nat) (init : list irow) (nx : Z) (n : nat) (i j : Z),
  0 <= m -> length init = L -> nx <= Z.of_nat L - 1 -> 0 <= i -> i + m < nx - 2 -> 0 <= j < nx - 2 ->
  let now := inf_output nx (inf_run row (qz m) L n (mkInf init 0%Qc 0)) in
  let next := inf_output nx (inf_run row (qz m) L (S n) (mkInf init 0%Qc 0)) in
  let r := nx - 1 - i in
  at2 (orient D0 next) (i + m) j = at2 (orient D0 now) i j /\
  at2 (orient D90 next) (nx - 1 - j) (i + m) = at2 (orient D90 now) (nx - 1 - j) i /\
  at2 (orient D180 next) (r - m) j = at2 (orient D180 now) r j /\
  at2 (orient D270 next) j (r - m) = at2 (orient D270 now) j r.
Proof. exact quarters. Qed.
Print Assumptions C71_cardinal_partial.
Example C71_instance :
  (qfrac 3 5 * qfrac 3 5 + qfrac 4 5 * qfrac 4 5 = 1)%Qc /\
  at2 (rotate (mkArr 12 12 (fun x _ => qz x)) 4 (qfrac 3 5) (qfrac 4 5)) 1 1 = Ok (qfrac 28 5) /\
  at2 (rotate (mkArr 12 12 (fun x _ => qz x)) 4 (qfrac 3 5) (qfrac 4 5)) 1 2 = Ok (qfrac 24 5).
Proof. qc_compute; repeat constructor. Qed.

(** C72: an oblique wind direction reads inside the enlarged screen and returns values within its range. *)
Theorem C72_rotation_in_bounds :
  forall (a : arr Qc) (n m : Z) (c s lo hi : Qc) (i j : Z),
    nrow a = n -> ncol a = n -> 1 <= m -> 2 * m <= n -> (c * c + s * s = 1)%Qc ->
    (forall p q, 0 <= p < n -> 0 <= q < n -> (lo <= at2 a p q <= hi)%Qc) -> 0 <= i < m -> 0 <= j < m ->
    exists u, at2 (rotate a m c s) i j = Ok u /\ (lo <= u <= hi)%Qc.
Proof. exact rotate_within. Qed.
Print Assumptions C72_rotation_in_bounds.
(** C72: and whatever the sizes, coordinates beyond the far edges are brought back inside. *)
Theorem C72_far_edges :
  forall (a : arr Qc) (n m : Z) (c s lo hi : Qc) (i j : Z),
    nrow a = n -> ncol a = n -> 2 <= n -> (0 <= rot_x n m c s i j)%Qc -> (0 <= rot_y n m c s i j)%Qc ->
    (forall p q, 0 <= p < n -> 0 <= q < n -> (lo <= at2 a p q <= hi)%Qc) ->
    exists u, at2 (rotate a m c s) i j = Ok u /\ (lo <= u <= hi)%Qc.
Proof. exact rotate_clamped. Qed.
Print Assumptions C72_far_edges.
Example C72_far_edges_instance : (qz 3 < rot_x 4 6 1 0 5 5)%Qc /\ at2 (rotate (mkArr 4 4 (fun x y => qz (x + y))) 6 1 0) 5 5 = Ok (qfrac 29 5).
Proof. qc_compute; repeat constructor. Qed.
Example C72_instance :
  2 * 4 <= 12 /\ at2 (rotate (mkArr 12 12 (fun x y => qz (x * y))) 4 (qfrac 3 5) (qfrac (-4) 5)) 3 0 = Ok (qfrac 442 25).
Proof. split; [lia|]. qc_compute; repeat constructor. Qed.

(** C73: the wind speeds scaled for a requested coherence time give exactly that coherence time. *)
Theorem C73_requested_tau0 :
  (forall (r0 : R) (speeds norms : list R) (req : R),
    0 < r0 -> 0 < req -> Forall (fun x => 0 < x) speeds -> Forall (fun x => 0 < x) norms ->
    length speeds = length norms -> norms <> [] ->
    tau0_of r0 (scale_speeds r0 speeds norms req) norms = req)%R.
Proof. exact tau0_requested. Qed.
Print Assumptions C73_requested_tau0.
Example C73_instance :
  (Forall (fun x => 0 < x) [10; 20] /\ Forall (fun x => 0 < x) [1/4; 3/4] /\ length [10; 20] = length [1/4; 3/4])%R.
Proof. repeat constructor; Lra.lra. Qed.

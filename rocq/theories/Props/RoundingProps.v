(** Property theorems C156, and C26, C76, C77 in the floats the code computes with. *)
From Coq Require Import ZArith Reals List Bool Lia Lra.
From Flocq Require Import Core BinarySingleNaN.
From Verif.Base Require Import Float64.
From Verif.Model Require Import Rounding64.
From Verif.Spec Require Import ReadoutSpec.
From Verif.Proofs Require Import ReadoutProofs RoundingProofs.
Open Scope R_scope.

(** C156: interpolating at any coordinate that is not negative, the kernel reads element i and element i + 1, and both exist. *)
Theorem C156_interpolation_inside :
  forall (n : Z) (x : b64), (2 <= n <= 2 ^ 24 + 1)%Z -> is_finite x = true -> 0 <= B2R x ->
  exists i, interp_index64 n x = Some i /\ (0 <= i)%Z /\ (i + 1 <= n - 1)%Z.
Proof. intros n x Hn F P. destruct (interp_inside n x Hn F P) as (i & E & B). exists i. split; [exact E|lia]. Qed.
Print Assumptions C156_interpolation_inside.
Example C156_interpolation_instance : exists x, is_finite x = true /\ 0 <= B2R x /\ interp_index64 (2 ^ 24 + 1) x = Some (2 ^ 24 - 1)%Z.
Proof. exists (ofZ64 (2 ^ 24)). destruct (ofZ_correct (2 ^ 24) ltac:(lia)) as [F E]. split; [exact F|]. split; [rewrite E; apply IZR_le; lia|]. vm_compute. reflexivity. Qed.

(** C156: a line of sight, and a science camera, interpolate without a bounds check.  Whatever the coordinate, negative ones included, both elements exist
    after the clipping. *)
Theorem C156_clipped_inside :
  forall (n : Z) (x : b64), (2 <= n <= 2 ^ 24)%Z -> is_finite x = true ->
  (exists i, los_index64 n x = Some i /\ (0 <= i)%Z /\ (i + 1 <= n - 1)%Z) /\ (exists i, sci_index64 n x = Some i /\ (0 <= i)%Z /\ (i + 1 <= n - 1)%Z).
Proof.
  intros n x Hn F. destruct (los_inside n x Hn F) as (i & E & B). destruct (sci_inside n x Hn F) as (k & E' & B'). split; [exists i|exists k]; split; auto; lia.
Qed.
Print Assumptions C156_clipped_inside.
Example C156_clipped_instance : los_index64 (2 ^ 24) (ofZ64 (2 ^ 24)) = Some (2 ^ 24 - 2)%Z /\ los_index64 128 (ofZ64 (-5)) = Some 0%Z /\ sci_index64 128 (ofZ64 127) = Some 126%Z.
Proof. vm_compute. repeat split. Qed.

(** C156: zooming an array of m elements to n elements, every output element i reads elements k and k + 1, and both exist. *)
Theorem C156_zoom_inside :
  forall m n i : Z, (2 <= m <= 2 ^ 24 + 1)%Z -> (0 <= i < n)%Z -> (n <= 2 ^ 24)%Z ->
  exists k, zoom_index64 m n i = Some k /\ (0 <= k)%Z /\ (k + 1 <= m - 1)%Z.
Proof. intros m n i Hm Hi Hn. destruct (zoom_inside m n i Hm Hi Hn) as (k & E & B). exists k. split; [exact E|lia]. Qed.
Print Assumptions C156_zoom_inside.
Example C156_zoom_instance : zoom_index64 (2 ^ 24 + 1) (2 ^ 24) (2 ^ 24 - 1) = Some (2 ^ 24 - 1)%Z.
Proof. vm_compute. reflexivity. Qed.

(** C156: the sizes in the two theorems above cannot be dropped.  One more element, and interpolating at the last coordinate reads past
    the end; so do the zooms of a slightly longer array, of a short array to 2^28 elements, and a line of sight on 2^25. *)
Theorem C156_sizes_needed :
  interp_index64 (2 ^ 24 + 2) (ofZ64 (2 ^ 24 + 1)) = Some (2 ^ 24 + 1)%Z /\
  zoom_index64 (2 ^ 24 + 4) 100 99 = Some (2 ^ 24 + 3)%Z /\ zoom_index64 200 (2 ^ 28) (2 ^ 28 - 1) = Some 199%Z /\
  los_index64 (2 ^ 25) (ofZ64 (2 ^ 25)) = Some (2 ^ 25 - 1)%Z.
Proof. vm_compute. repeat split. Qed.
Print Assumptions C156_sizes_needed.

(** C77, in floats: the rounded edges of the sub-apertures start at the first pixel of the pupil, end at its last and increase strictly, and each is
    within half a pixel, and the rounding error, of where it should be. *)
Theorem C77_rounded_edges :
  forall P N : Z, (1 <= N <= P)%Z -> (P <= 2 ^ 20)%Z -> exists e : Z -> Z,
  (forall x, (0 <= x <= N)%Z -> edge64 P N x = Some (e x)) /\ e 0%Z = 0%Z /\ e N = P /\
  (forall x, (0 <= x < N)%Z -> (e x < e (x + 1))%Z) /\
  (forall x, (0 <= x <= N)%Z -> Rabs (IZR (e x) - IZR x * IZR P / IZR N) <= / 2 + bpow radix2 (-31)).
Proof. exact edges. Qed.
Print Assumptions C77_rounded_edges.
(** C77, in floats: along each axis, every pixel of the pupil is in exactly one sub-aperture. *)
Theorem C77_rounded_cells :
  forall P N p : Z, (1 <= N <= P)%Z -> (P <= 2 ^ 20)%Z -> (0 <= p < P)%Z ->
  exists! x, (0 <= x < N)%Z /\ exists a b, edge64 P N x = Some a /\ edge64 P N (x + 1) = Some b /\ (a <= p < b)%Z.
Proof. exact one_cell. Qed.
Print Assumptions C77_rounded_cells.
Example C77_rounded_instance : edge64 101 7 0 = Some 0%Z /\ edge64 101 7 1 = Some 14%Z /\ edge64 101 7 6 = Some 87%Z /\ edge64 101 7 7 = Some 101%Z.
Proof. vm_compute. repeat split. Qed.

(** C76, in floats: the pupil coordinate of a sub-aperture is the whole part of x * P / N, except that it may be one less where x * P / N is whole. *)
Theorem C76_rounded_partial :
  forall P N x : Z, (1 <= N <= P)%Z -> (P <= 2 ^ 20)%Z -> (0 <= x <= N)%Z ->
  exists c, coord64 P N x = Some c /\ (c = x * P / N \/ (c = x * P / N - 1 /\ (N | x * P)))%Z.
Proof. exact coord. Qed.
Print Assumptions C76_rounded_partial.
(** C76, in floats: and one less it is: with 22 sub-apertures on 30 pixels the one that starts at pixel 15 is cut from pixel 14. *)
Theorem C76_rounding_refuted : exists P N x c : Z, (1 <= N <= P)%Z /\ (0 <= x < N)%Z /\ (x * P = N * (c + 1))%Z /\ coord64 P N x = Some c.
Proof. exists 30%Z, 22%Z, 11%Z, 14%Z. split; [lia|]. split; [lia|]. split; [lia|]. vm_compute. reflexivity. Qed.
Print Assumptions C76_rounding_refuted.

(** C26, in floats: every coordinate at which frame n samples a screen of at most 2^e pixels lies inside the screen, but for at most n rounding errors. *)
Theorem C26_rounded_partial :
  forall (W s j e : Z) (v : b64) (n : nat),
  (1 <= s <= W)%Z -> (0 <= j < s)%Z -> (0 <= e <= 50)%Z -> (W <= 2 ^ e)%Z ->
  is_finite v = true -> Rabs (B2R v) <= bpow radix2 900 -> (Z.of_nat n <= 2 ^ 40)%Z ->
  is_finite (wn_x (win_frame64 W s j v n)) = true /\
  - (INR n * bpow radix2 (e - 52)) <= B2R (wn_x (win_frame64 W s j v n)) <= IZR (W - 1) + INR n * bpow radix2 (e - 52).
Proof. intros W s j e v n Hs Hj He HW Fv Bv Hn. exact (window_bounds W s j e Hs Hj He HW v Fv Bv n Hn). Qed.
Print Assumptions C26_rounded_partial.
(** C26, in floats: it does leave the screen.  A window of 64 pixels on a screen of 128, with 0.4 pixels of wind per frame: after 160 frames its last
    coordinate is greater than 127, the last pixel there is. *)
Theorem C26_rounding_refuted : forall v : b64, nearest v (4 / 10) -> lt64 (ofZ64 127) (wn_x (win_frame64 128 64 63 v 160)) = true.
Proof. exact strays. Qed.
Print Assumptions C26_rounding_refuted.
Example C26_rounding_instance : nearest (div64 (ofZ64 4) (ofZ64 10)) (4 / 10) /\ lt64 (wn_x (win_frame64 128 64 63 (div64 (ofZ64 4) (ofZ64 10)) 161)) (ofZ64 127) = true.
Proof. split; [apply (nearest_div 4 10); lia|]. vm_compute. reflexivity. Qed.

(** C28, in floats: with a wind of v >= 0 pixels per frame, v at most 2^52, the offset stays in [0, 1) and after n frames the rows added and the offset
    make up n v, but for one rounding error per frame. *)
Theorem C28_rounded_partial :
  forall (v : b64) (n : nat), is_finite v = true -> 0 <= B2R v <= bpow radix2 52 ->
  exists s, roll64_after v n = Some s /\ is_finite (rl_frac s) = true /\ 0 <= B2R (rl_frac s) < 1 /\ Rabs (IZR (rl_rows s) + B2R (rl_frac s) - INR n * B2R v) <= INR n * bpow radix2 (-53).
Proof. exact roll_bounds. Qed.
Print Assumptions C28_rounded_partial.
(** C28, in floats: so the rows are not always floor(n v).  With 0.1 pixels of wind per frame, ten frames have moved the screen a whole pixel, and no row
    has been added. *)
Theorem C28_rounding_refuted : forall v : b64, nearest v (1 / 10) -> 1 <= 10 * B2R v /\ exists s, roll64_after v 10 = Some s /\ rl_rows s = 0%Z.
Proof. exact slow_tenth. Qed.
Print Assumptions C28_rounding_refuted.
Example C28_rounding_instance : nearest (div64 (ofZ64 1) (ofZ64 10)) (1 / 10) /\ option_map rl_rows (roll64_after (div64 (ofZ64 1) (ofZ64 10)) 11) = Some 1%Z /\ option_map rl_rows (roll64_after (lit64 5 (-1)) 7) = Some 17%Z.
Proof. split; [apply (nearest_div 1 10); lia|]. vm_compute. split; reflexivity. Qed.

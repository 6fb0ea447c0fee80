(** Property theorems C35-C40: the array kernels. *)
From Coq Require Import Permutation.
From Verif.Base Require Import Vec.
From Verif.Model Require Import Numerics.
From Verif.Spec Require Import NumericsSpec.
From Verif.Proofs Require Import NumericsProofs.

(** C35: with bounds checking, any coordinates >= 0 read inside the array, and the value lies between any
    lower and upper bound of the data. *)
Theorem C35_bounded_checked :
  forall (a : arr Qc) (x y lo hi : Qc),
    2 <= nrow a -> 2 <= ncol a -> (0 <= x)%Qc -> (0 <= y)%Qc -> within a lo hi ->
    exists v, bilinear_point true a x y = Ok v /\ (lo <= v <= hi)%Qc.
Proof. exact checked_within. Qed.
Print Assumptions C35_bounded_checked.

(** C35: without bounds checking the same holds strictly below the last element of each axis. *)
Theorem C35_bounded_unchecked :
  forall (a : arr Qc) (x y lo hi : Qc),
    (0 <= x)%Qc -> (x < qz (nrow a - 1))%Qc -> (0 <= y)%Qc -> (y < qz (ncol a - 1))%Qc -> within a lo hi ->
    exists v, bilinear_point false a x y = Ok v /\ (lo <= v <= hi)%Qc.
Proof. exact bilinear_within. Qed.
Print Assumptions C35_bounded_unchecked.

(** C35: both variants agree there. *)
Theorem C35_variants_agree :
  forall (a : arr Qc) (x y : Qc), (x < qz (nrow a - 1))%Qc -> (y < qz (ncol a - 1))%Qc ->
    bilinear_point false a x y = bilinear_point true a x y.
Proof. exact unchecked_agrees. Qed.
Print Assumptions C35_variants_agree.

(** C35: bilinear functions are reproduced exactly (strictly below the last element of each axis). *)
Theorem C35_bilinear_exact :
  forall (bc : bool) (a : arr Qc) (x y c0 cx cy cxy : Qc),
    (forall i j, 0 <= i < nrow a -> 0 <= j < ncol a -> at2 a i j = c0 + cx * qz i + cy * qz j + cxy * qz i * qz j)%Qc ->
    (0 <= x)%Qc -> (x < qz (nrow a - 1))%Qc -> (0 <= y)%Qc -> (y < qz (ncol a - 1))%Qc ->
    bilinear_point bc a x y = Ok (c0 + cx * x + cy * y + cxy * x * y)%Qc.
Proof. exact point_exact. Qed.
Print Assumptions C35_bilinear_exact.

(** C35: grid points strictly before the last row and column return the data. *)
Theorem C35_grid_points_partial :
  forall (bc : bool) (a : arr Qc) (i j : Z), 0 <= i < nrow a - 1 -> 0 <= j < ncol a - 1 ->
    bilinear_point bc a (qz i) (qz j) = Ok (at2 a i j).
Proof. exact point_grid. Qed.
Print Assumptions C35_grid_points_partial.

(** C35, what happens on the last row: the checked variant is off by 1e-9 of the last step. *)
Theorem C35_last_row_error :
  forall (a : arr Qc) (i j : Z), 2 <= nrow a -> i = nrow a - 1 -> 0 <= j < ncol a - 1 ->
    bilinear_point true a (qz i) (qz j) = Ok (at2 a i j - qfrac 1 1000000000 * (at2 a i j - at2 a (i - 1)%Z j))%Qc.
Proof. exact last_row. Qed.
Print Assumptions C35_last_row_error.

(** C35 is FALSE of the code at the last row: the checked variant does not return the data there when the
    last two rows differ, and the unchecked variant reads outside the array. *)
Theorem C35_grid_points_refuted :
  (forall (a : arr Qc) (i j : Z), 2 <= nrow a -> i = nrow a - 1 -> 0 <= j < ncol a - 1 -> at2 a i j <> at2 a (i - 1)%Z j ->
     bilinear_point true a (qz i) (qz j) <> Ok (at2 a i j)) /\
  (forall (a : arr Qc) (y : Qc), 1 <= nrow a -> bilinear_point false a (qz (nrow a - 1)) y = Err IndexError).
Proof. exact (conj last_row_wrong unchecked_last). Qed.
Print Assumptions C35_grid_points_refuted.

Definition ex_ramp : arr Qc := mkArr 3 4 (fun i j => qz (10 * i + j * j)).
Example C35_instance :
  within ex_ramp 0%Qc (qz 29) /\
  bilinear_point true ex_ramp (qfrac 3 2) (qfrac 3 2) = Ok (qfrac 35 2) /\
  bilinear_point false ex_ramp (qz 1) (qz 2) = Ok (qz 14) /\
  bilinear_point true ex_ramp (qz 2) (qz 1) = Ok (qz 21 - qfrac 1 100000000)%Qc /\
  bilinear_point false ex_ramp (qz 2) (qz 1) = Err IndexError.
Proof.
  split; [|qc_compute; repeat constructor].
  intros i j Hi Hj. cbn [ex_ramp nrow ncol at2] in *. rewrite <- qz_0. split; apply qz_le; nia.
Qed.

(** C36: the fast zoom is defined for every output size and its values lie between the bounds of the data
    (so constants are preserved: take lo = hi). *)
Theorem C36_bounded :
  forall (a : arr Qc) (mr mc : Z) (lo hi : Qc) (i j : Z),
    2 <= nrow a -> 2 <= ncol a -> within a lo hi -> 0 <= i < mr -> 0 <= j < mc ->
    exists v, at2 (zoom a mr mc) i j = Ok v /\ (lo <= v <= hi)%Qc.
Proof. exact zoom_within. Qed.
Print Assumptions C36_bounded.

(** C36: zooming to the same size returns the array up to 2e-8 of the largest step between neighbours. *)
Theorem C36_same_size_partial :
  forall (a : arr Qc) (G : Qc) (i j : Z),
    2 <= nrow a -> 2 <= ncol a -> slope_le a G -> 0 <= i < nrow a -> 0 <= j < ncol a ->
    exists v, at2 (zoom a (nrow a) (ncol a)) i j = Ok v /\ (qc_abs (v - at2 a i j) <= qfrac 2 100000000 * G)%Qc.
Proof. exact zoom_same_lit. Qed.
Print Assumptions C36_same_size_partial.

(** C36: the spline zoom of a square array to a square size, for any interpolator that reproduces the data at
    grid points: its own size is the identity, and the corners are kept at every size. *)
Theorem C36_spline_square_partial :
  forall (spl : arr Qc -> Qc -> Qc -> Qc) (a : arr Qc) (n m : Z),
    interpolates spl -> nrow a = n -> ncol a = n -> 1 <= n -> 2 <= m ->
    (exists z, interp_zoom spl false a (ZScalar n) = Some z /\ arr_eq z a) /\
    (exists z, interp_zoom spl false a (ZScalar m) = Some z /\ nrow z = m /\ ncol z = m /\
       at2 z 0 0 = at2 a 0 0 /\ at2 z (m - 1) 0 = at2 a (n - 1) 0 /\
       at2 z 0 (m - 1) = at2 a 0 (n - 1) /\ at2 z (m - 1) (m - 1) = at2 a (n - 1) (n - 1)).
Proof. exact spline_square. Qed.
Print Assumptions C36_spline_square_partial.

(** C36 is FALSE of the code: zooming to the same size changes the array (2x2 already); the spline zoom of a
    non-square array to its own size has the wrong shape; zooming complex data returns nothing; the second
    spline zoom cannot take a single integer. *)
Theorem C36_consistent_refuted :
  (exists (a : arr Qc) (v : Qc), nrow a = 2 /\ ncol a = 2 /\ at2 (zoom a 2 2) 1 0 = Ok v /\ v <> at2 a 1 0) /\
  (forall spl (a : arr Qc) z, nrow a <> ncol a -> interp_zoom spl false a (ZPair (nrow a) (ncol a)) = Some z -> ~ arr_eq z a) /\
  (forall spl (a : arr Qc) sz, interp_zoom spl true a sz = None) /\
  (forall spl (a : arr Qc) n, interp_zoom_rbs spl a (ZScalar n) = Err TypeError).
Proof. exact zoom_bad. Qed.
Print Assumptions C36_consistent_refuted.

Example C36_instance :
  slope_le ex_ramp (qz 10) /\
  at2 (zoom (mkArr 2 2 (fun i j => qz 7)) 5 3) 4 2 = Ok (qz 7) /\
  match at2 (zoom ex_ramp 3 4) 1 2 with Ok v => qc_ltb v (qz 14) && qc_ltb (qfrac 139999999 10000000) v | _ => false end = true.
Proof.
  split; [|qc_compute; repeat constructor].
  split; intros i j Hi Hj; cbn [ex_ramp nrow ncol at2] in *; rewrite <- qz_sub, qc_abs_pos;
    try (apply qz_le; nia); rewrite <- qz_0; apply qz_le; nia.
Qed.

(** C37: binning conserves the total, and a lit input pixel (p, q) lights exactly output pixel (p/b, q/b). *)
Theorem C37_flux :
  forall (a : arr Qc) (b nr nc : Z), 0 <= b -> 0 <= nr -> 0 <= nc -> nrow a = nr * b -> ncol a = nc * b ->
    flux (bin_img a b nr nc) = flux a.
Proof. exact bin_flux. Qed.
Print Assumptions C37_flux.
Theorem C37_one_output_pixel :
  forall (b nr nc p q : Z) (v : Qc), 0 < b -> 0 <= p < nr * b -> 0 <= q < nc * b ->
    arr_eq (bin_img (lit (nr * b) (nc * b) p q v) b nr nc) (lit nr nc (p / b) (q / b) v).
Proof. exact bin_lit. Qed.
Print Assumptions C37_one_output_pixel.
(** C37: the array version returns the same image and conserves flux; a factor not dividing the width raises. *)
Theorem C37_array_version :
  forall (a : arr Qc) (n : Z), 0 < n ->
    (forall nr nc, 0 <= nr -> 0 <= nc -> nrow a = nr * n -> ncol a = nc * n ->
       exists r, binImgs a n = Ok r /\ arr_eq r (bin_img a n nr nc) /\ flux r = flux a) /\
    (n <= ncol a -> ncol a mod n <> 0 -> binImgs a n = Err ValueError).
Proof. exact binImgs_all. Qed.
Print Assumptions C37_array_version.
Example C37_instance :
  flux (bin_img (mkArr 4 6 (fun i j => qz (i * i + j))) 2 2 3) = qz 144 /\
  at2 (bin_img (lit 4 6 3 2 (qz 5)) 2 2 3) 1 1 = qz 5 /\
  match binImgs (mkArr 4 6 (fun i j => qz (i * i + j))) 2 with Ok r => at2 r 1 2 = qz 44 | Err _ => False end /\
  binImgs (mkArr 4 7 (fun i j => qz (i * i + j))) 2 = Err ValueError.
Proof. qc_compute; repeat constructor. Qed.

(** C38: for even sizes, whatever order the parallel rows run in, the in-place shift is numpy's fftshift. *)
Theorem C38_fftshift_even_partial :
  forall (A : Type) (a : arr A) (order : list Z),
    Z.even (nrow a) = true -> Z.even (ncol a) = true -> Permutation order (zseq (nrow a / 2)) ->
    arr_eq (fftshift_inplace a order) (fftshift a).
Proof. exact @fftshift_even. Qed.
Print Assumptions C38_fftshift_even_partial.
(** C38: for every size, twice is the identity. *)
Theorem C38_involutive :
  forall (A : Type) (a : arr A) (o1 o2 : list Z),
    Permutation o1 (zseq (nrow a / 2)) -> Permutation o2 (zseq (nrow a / 2)) ->
    arr_eq (fftshift_inplace (fftshift_inplace a o1) o2) a.
Proof. exact @fftshift_twice. Qed.
Print Assumptions C38_involutive.
(** C38 is FALSE of the code for odd sizes: the last row stays in place, where fftshift puts the middle row. *)
Theorem C38_odd_refuted :
  forall (A : Type) (a : arr A) (order : list Z) (j : Z),
    Z.odd (nrow a) = true -> 3 <= nrow a -> 0 <= j < ncol a -> Permutation order (zseq (nrow a / 2)) ->
    at2 (fftshift_inplace a order) (nrow a - 1) j = at2 a (nrow a - 1) j /\
    at2 (fftshift a) (nrow a - 1) j = at2 a (nrow a / 2) ((j - ncol a / 2) mod ncol a).
Proof. exact @fftshift_odd_last. Qed.
Print Assumptions C38_odd_refuted.
Definition ex_ids (r c : Z) : arr Z := mkArr r c (fun i j => 10 * i + j).
Definition rows_of {A} (a : arr A) : list (list A) := map (fun i => map (at2 a i) (zseq (ncol a))) (zseq (nrow a)).
Example C38_instance :
  rows_of (fftshift_inplace (ex_ids 4 2) [1; 0]) = [[21; 20]; [31; 30]; [1; 0]; [11; 10]] /\
  rows_of (fftshift (ex_ids 4 2)) = [[21; 20]; [31; 30]; [1; 0]; [11; 10]] /\
  Permutation [1; 0] (zseq (4 / 2)) /\
  rows_of (fftshift_inplace (ex_ids 3 3) [0]) = [[11; 10; 2]; [1; 0; 12]; [20; 21; 22]] /\
  rows_of (fftshift (ex_ids 3 3)) = [[22; 20; 21]; [2; 0; 1]; [12; 10; 11]].
Proof. vm_compute. repeat constructor. Qed.

(** C39: whatever the number of processes and the order in which they finish, and whatever the output array
    held before, when the call returns every row holds the transform of the same input row. *)
Theorem C39_rows_in_place :
  forall (A B : Type) (F : A -> B) (data : Z -> A) (n p : Z), 1 <= p ->
  forall (m : nat) (out : Z -> option B) (t : mp),
    mp_run F data n p m (mp_init out) t -> mp_pc t = p ->
    forall r, 0 <= r < n -> mp_out t r = Some (F (data r)).
Proof. exact @mp_finished. Qed.
Print Assumptions C39_rows_in_place.
(** C39: the call never deadlocks and every schedule ends: at most two steps per process. *)
Theorem C39_terminates :
  forall (A B : Type) (F : A -> B) (data : Z -> A) (n p : Z), 1 <= p ->
  forall (m : nat) (out : Z -> option B) (t : mp),
    mp_run F data n p m (mp_init out) t ->
    (m <= 2 * Z.to_nat p)%nat /\ (mp_pc t < p -> exists u, mp_step F data n p t u).
Proof. exact @mp_terminates. Qed.
Print Assumptions C39_terminates.
Example C39_instance :
  exists t, mp_run (fun x => x * x) (fun r => r + 1) 5 2 4 (mp_init (fun _ => None)) t /\ mp_pc t = 2 /\
            map (mp_out t) [0; 1; 2; 3; 4] = [Some 1; Some 4; Some 9; Some 16; Some 25].
Proof.
  eexists. split; [|split].
  - eapply RunStep; [apply (StepPut _ _ _ _ _ 1); [lia | reflexivity]|].
    eapply RunStep; [apply (StepPut _ _ _ _ _ 0); [lia | reflexivity]|].
    eapply RunStep; [eapply StepGet; [reflexivity | reflexivity]|].
    eapply RunStep; [eapply StepGet; [reflexivity | reflexivity]|]. apply RunNil.
  - reflexivity.
  - vm_compute. reflexivity.
Qed.

(** C40, what the helper does do: for even sizes (and 3, 7, 11, ...) it is fftshift followed by a point
    reflection of the array. *)
Theorem C40_flipped_shift_partial :
  forall (A : Type) (a : arr A), shiftable (nrow a) -> shiftable (ncol a) ->
    exists r, ftShift2d false a = Ok r /\ arr_eq r (flip2 (fftshift a)).
Proof. exact @ftShift2d_ok. Qed.
Print Assumptions C40_flipped_shift_partial.
(** C40 is FALSE of the code: for even sizes and sizes 5, 9, 13, ... the zero frequency goes to one before
    the centre and the centre holds the last frequency; a supplied output array raises. *)
Theorem C40_centre_refuted :
  (forall (A : Type) (a : arr A) r, ftShift2d false a = Ok r ->
     (Z.even (nrow a) = true /\ 2 <= nrow a \/ nrow a mod 4 = 1 /\ 5 <= nrow a) ->
     (Z.even (ncol a) = true /\ 2 <= ncol a \/ ncol a mod 4 = 1 /\ 5 <= ncol a) ->
     at2 r (nrow a / 2 - 1) (ncol a / 2 - 1) = at2 a 0 0 /\
     at2 r (nrow a / 2) (ncol a / 2) = at2 a (nrow a - 1) (ncol a - 1) /\
     at2 (fftshift a) (nrow a / 2) (ncol a / 2) = at2 a 0 0) /\
  (forall (A : Type) (a : arr A), 1 < nrow a * ncol a -> ftShift2d true a = Err ValueError).
Proof. exact ftShift2d_bad. Qed.
Print Assumptions C40_centre_refuted.
Example C40_instance :
  shiftable 4 /\ shiftable 3 /\ ~ shiftable 5 /\
  match ftShift2d false (ex_ids 4 3) with
  | Ok r => rows_of r = [[11; 10; 12]; [1; 0; 2]; [31; 30; 32]; [21; 20; 22]]
  | Err _ => False
  end.
Proof.
  split; [left; reflexivity|]. split; [right; reflexivity|]. split; [intros [H|H]; discriminate H|].
  vm_compute. reflexivity.
Qed.

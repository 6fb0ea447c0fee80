(** Property theorem C192: the values of the interpolation kernels in floating-point arithmetic. *)
From Coq Require Import ZArith List.
From Flocq Require Import Core BinarySingleNaN.
From Verif.Base Require Import Float64.
From Verif.Model Require Import Rounding64.
From Verif.Spec Require Import FloatLoopSpec.
From Verif.Model Require Import FloatInterp.
From Verif.Spec Require Import FloatInterpSpec.
From Verif.Proofs Require Import FloatInterpCoords.
From Coq Require Import Reals Bool Lia Lra.
Local Open Scope R_scope.

(** C192, part 1: at coordinates below the last element the kernel returns a number, and it is the straight-line interpolation of the data up to 20 roundings of the largest of them. *)
Theorem C192_kernel :
  forall (a : farr) (A : R) (x y : b64), fits a -> bounded_by a A -> A <= bpow radix2 800 ->
    is_finite x = true -> is_finite y = true -> 0 <= B2R x < IZR (fa_rows a - 1) -> 0 <= B2R y < IZR (fa_cols a - 1) ->
    exists r, kernel64 a x y = Some r /\ is_finite r = true /\ Rabs (B2R r - bilinear (numbers a) (B2R x) (B2R y)) <= 20 * unit_roundoff * A + 9 * smallest.
Proof. intros a A x y HF HA HB. exact (kernel_inside a A HF HA HB x y). Qed.
Print Assumptions C192_kernel.

(** C192, part 2: bilinear_interp at any coordinates that are not negative; beyond the last element the value there is returned, to 1e-8 of the largest element. *)
Theorem C192_interp :
  forall (a : farr) (A : R) (x y : b64), fits a -> bounded_by a A -> A <= bpow radix2 800 ->
    is_finite x = true -> is_finite y = true -> 0 <= B2R x -> 0 <= B2R y ->
    exists r, interp64 a x y = Some r /\ is_finite r = true /\
      Rabs (B2R r - bilinear (numbers a) (nearest_on (fa_rows a) (B2R x)) (nearest_on (fa_cols a) (B2R y))) <= A / 10 ^ 8 + 9 * smallest.
Proof. intros a A x y HF HA HB. exact (interp_value a A HF HA HB x y). Qed.
Print Assumptions C192_interp.

(** C192, part 3: the same for a line of sight on a screen, negative coordinates included. *)
Theorem C192_los :
  forall (a : farr) (A : R) (x y : b64), fits a -> bounded_by a A -> A <= bpow radix2 800 ->
    is_finite x = true -> is_finite y = true ->
    exists r, los_interp64 a x y = Some r /\ is_finite r = true /\
      Rabs (B2R r - bilinear (numbers a) (nearest_on (fa_rows a) (B2R x)) (nearest_on (fa_cols a) (B2R y))) <= A / 10 ^ 8 + 9 * smallest.
Proof. intros a A x y HF HA HB. exact (los_value a A HF HA HB x y). Qed.
Print Assumptions C192_los.

(** C192, part 4: zoom puts the first and last elements of the array on those of the result, and those in between at equal distances px (py) of each other. *)
Theorem C192_zoom :
  forall (a : farr) (A : R) (rows cols i j : Z), fits a -> bounded_by a A -> A <= bpow radix2 800 ->
    (2 <= rows <= 2 ^ 20)%Z -> (2 <= cols <= 2 ^ 20)%Z -> (0 <= i < rows)%Z -> (0 <= j < cols)%Z ->
    let px := IZR (fa_rows a - 1) / IZR (rows - 1) in let py := IZR (fa_cols a - 1) / IZR (cols - 1) in
    exists r, zoom64 a rows cols i j = Some r /\ is_finite r = true /\
      Rabs (B2R r - bilinear (numbers a) (IZR i * px) (IZR j * py)) <= 4 * A * (px + py) / 10 ^ 8 + 20 * unit_roundoff * A + 9 * smallest.
Proof. intros a A rows cols i j HF HA HB. exact (zoom_value a A HF HA HB rows cols i j). Qed.
Print Assumptions C192_zoom.

(** C192, part 5: none of them leaves the range of the data by more than rounding. *)
Theorem C192_range :
  forall (a : farr) (A lo hi : R), fits a -> bounded_by a A -> A <= bpow radix2 800 ->
    (forall p q, (0 <= p < fa_rows a)%Z -> (0 <= q < fa_cols a)%Z -> lo <= numbers a p q <= hi) ->
    let between r := exists v, r = Some v /\ let tol := 20 * unit_roundoff * A + 9 * smallest in lo - tol <= B2R v <= hi + tol in
    (forall x y, is_finite x = true -> is_finite y = true -> 0 <= B2R x -> 0 <= B2R y -> between (interp64 a x y)) /\
    (forall x y, is_finite x = true -> is_finite y = true -> between (los_interp64 a x y)) /\
    (forall rows cols i j, (2 <= rows <= 2 ^ 20)%Z -> (2 <= cols <= 2 ^ 20)%Z -> (0 <= i < rows)%Z -> (0 <= j < cols)%Z -> between (zoom64 a rows cols i j)).
Proof. intros a A lo hi HF HA HB. exact (all_range a A HF HA HB lo hi). Qed.
Print Assumptions C192_range.

(** A 3 x 4 array with elements 10 i + j^2. *)
Definition fz_arr : farr := mkFarr 3 4 (fun i j => ofZ64 (10 * i + j * j)).
Lemma fz_bounds p q : (0 <= p < fa_rows fz_arr)%Z -> (0 <= q < fa_cols fz_arr)%Z -> is_finite (fa_at fz_arr p q) = true /\ numbers fz_arr p q = IZR (10 * p + q * q) /\ (0 <= 10 * p + q * q <= 29)%Z.
Proof. cbn [fa_rows fa_cols fz_arr]. intros Hp Hq. assert (0 <= 10 * p + q * q <= 29)%Z by nia. destruct (ofZ_correct (10 * p + q * q) ltac:(lia)) as [F E]. auto. Qed.
Lemma fz_at p q : (0 <= p < 3)%Z -> (0 <= q < 4)%Z -> numbers fz_arr p q = IZR (10 * p + q * q).
Proof. intros Hp Hq. exact (proj1 (proj2 (fz_bounds p q Hp Hq))). Qed.
Example C192_instance :
  fits fz_arr /\ bounded_by fz_arr 29 /\ 29 <= bpow radix2 800 /\ bilinear (numbers fz_arr) (3 / 2) (3 / 2) = 35 / 2 /\
  option_map B2SF (interp64 fz_arr (lit64 3 (-1)) (lit64 3 (-1))) = Some (B2SF (lit64 35 (-1))) /\
  option_map B2SF (los_interp64 fz_arr (ofZ64 (-5)) (lit64 3 (-1))) = Some (B2SF (lit64 5 (-1))) /\
  (exists r, zoom64 fz_arr 5 7 4 6 = Some r /\ Rabs (B2R r - 29) <= / 10 ^ 5).
Proof.
  assert (FT : fits fz_arr) by (split; cbn; lia).
  assert (BD : bounded_by fz_arr 29).
  { intros i j Hi Hj. destruct (fz_bounds i j Hi Hj) as (F & E & B). split; [exact F|]. rewrite E, Rabs_pos_eq; apply IZR_le; lia. }
  assert (BG : 29 <= bpow radix2 800) by (apply Rle_trans with (bpow radix2 5); [cbn; lra|apply bpow_le; lia]).
  split; [exact FT|]. split; [exact BD|]. split; [exact BG|]. split.
  { unfold bilinear, straight. rewrite (Zfloor_imp 1) by (cbn; lra). rewrite !fz_at by lia. cbn. lra. }
  split; [vm_compute; reflexivity|]. split; [vm_compute; reflexivity|].
  destruct (C192_zoom fz_arr 29 5 7 4 6 FT BD BG ltac:(lia) ltac:(lia) ltac:(lia) ltac:(lia)) as (r & E & _ & D). exists r. split; [exact E|].
  assert (V : bilinear (numbers fz_arr) (IZR 4 * (IZR (fa_rows fz_arr - 1) / IZR (5 - 1))) (IZR 6 * (IZR (fa_cols fz_arr - 1) / IZR (7 - 1))) = 29).
  { cbn [fa_rows fa_cols fz_arr]. replace (IZR 4 * (IZR (3 - 1) / IZR (5 - 1))) with (IZR 2) by (cbn; lra). replace (IZR 6 * (IZR (4 - 1) / IZR (7 - 1))) with (IZR 3) by (cbn; lra).
    unfold bilinear, straight. rewrite !Zfloor_IZR. rewrite (fz_at 2 3) by lia. replace (IZR 2 - IZR 2) with 0 by ring. replace (IZR 3 - IZR 3) with 0 by ring. cbn. lra. }
  rewrite V in D. eapply Rle_trans; [exact D|]. cbn [fa_rows fa_cols fz_arr]. assert (U : unit_roundoff = / 9007199254740992) by (unfold unit_roundoff; cbn; lra).
  assert (S : smallest <= unit_roundoff) by (apply bpow_le; lia). rewrite U in *. replace (10 ^ 8) with 100000000 by ring. replace (10 ^ 5) with 100000 by ring. cbn [Z.sub Z.add Z.opp Z.pos_sub Pos.pred_double Pos.add]. lra.
Qed.

(** Property theorem C205: the gradient sensor in floating-point arithmetic. *)
From Coq Require Import ZArith List Permutation.
From Flocq Require Import Core BinarySingleNaN.
From Verif.Base Require Import Float64.
From Verif.Model Require Import FloatLos FloatFootprint FloatDot.
From Coq Require Import Reals Bool Lia Lra.
From Verif.Model Require Import FloatGrad.
From Verif.Spec Require Import FloatGradSpec.
From Verif.Proofs Require Import FloatGradProofs.
From Verif.Proofs Require Import FloatGradFrame.
Import ListNotations.
Local Open Scope R_scope.

(** C205: whatever the order in which numpy adds up, both slopes of a sub-aperture are numbers, and miss the tilts of exact arithmetic (arcsec) by no more than 2e-5 of the largest phase
    over that of a tilt of one arcsec over the sub-aperture. *)
Theorem C205_slopes :
  forall (step X : R) (amp : b64) (P : Z) (w : nat) (ph : nat -> nat -> b64) (rx ry : b64),
    tilted step amp P w -> bpow radix2 (-100) <= X <= bpow radix2 100 ->
    (forall i j, (i < w)%nat -> (j < w)%nat -> is_finite (ph i j) = true /\ Rabs (B2R (ph i j)) <= X) -> grad_slopes64 amp P w ph rx ry ->
    is_finite rx = true /\ is_finite ry = true /\
    Rabs (B2R rx - best_x step w (fun i j => B2R (ph i j))) <= 2 / 10 ^ 5 * X / (step * INR w) /\
    Rabs (B2R ry - best_y step w (fun i j => B2R (ph i j))) <= 2 / 10 ^ 5 * X / (step * INR w).
Proof. intros step X amp P w ph rx ry HT HX HP HG. destruct (slopes_ok step amp P w X ph rx ry HT HX HP HG) as [[A B] [C D]]. repeat split; assumption. Qed.
Print Assumptions C205_slopes.

(** C205: and those tilts are, with the mean phase, the plane that fits the phase best; a phase that is a plane gives its own tilts, whatever its piston. *)
Theorem C205_best :
  forall (step : R) (w : nat), 0 < step -> (2 <= w)%nat ->
    (forall p a bx by_, misfit step w p (mean_of w p) (best_x step w p) (best_y step w p) <= misfit step w p a bx by_) /\
    (forall a bx by_, let p := fun i j => a + bx * minus_tilt step w j + by_ * minus_tilt step w i in best_x step w p = bx /\ best_y step w p = by_).
Proof.
  intros step w HS HW. split; [intros p a bx by_; exact (best_ok step w p HS HW a bx by_)|]. intros a bx by_. exact (plane_ok step w a bx by_ HS HW).
Qed.
Print Assumptions C205_best.

(** 128 pixels over which a tilt of one arcsec is 406 radians (8 m at 600 nm), 8 sub-apertures of 16 pixels: every phase gives slopes. *)
Example C205_instance : tilted (406 / 127) (ofZ64 406) 128 16 /\ (forall ph, exists rx ry, grad_slopes64 (ofZ64 406) 128 16 ph rx ry) /\
  is_finite (ofZ64 3) = true /\ Rabs (B2R (ofZ64 3)) <= 4 /\ bpow radix2 (-100) <= 4 <= bpow radix2 100.
Proof.
  destruct (ofZ_correct 406) as [F E]; [lia|]. destruct (ofZ_correct 3) as [F3 E3]; [lia|].
  assert (B : bpow radix2 (-100) <= 1 /\ 4 <= bpow radix2 100) by (change 1 with (bpow radix2 0); change 4 with (bpow radix2 2); split; apply bpow_le; lia).
  split. { split; [exact F|]. split; [rewrite E; cbn; field|]. split; [lra|]. split; lia. }
  split; [|split; [exact F3|split; [rewrite E3, Rabs_pos_eq; lra|lra]]]. intro ph.
  assert (SM : forall l, exists r, summed l r).
  { induction l as [|[a b] l (r & H)]; [eexists; apply sum_zero|]. exists (fma64 a b r). eapply sum_fma; [exact H|apply Permutation_refl]. }
  assert (S32 : forall l, l <> nil -> exists r, summed32 l r).
  { induction l as [|a l IH]; intro N; [contradiction N; reflexivity|]. destruct l as [|b l]; [eexists; apply sum32_one|]. destruct IH as (r & H); [discriminate|].
    eexists. apply (sum32_two (a :: b :: l) [a] (b :: l) _ _ (sum32_one a) H (Permutation_refl _)). }
  destruct (SM (map (fun x => (x, ofZ64 1)) (map (fun k => linspace64 (ofZ64 0) (ofZ64 406) 128 (Z.of_nat k)) (seq 0 16)))) as [t Ht].
  set (c := sub_coord64 (ofZ64 406) 128 (div64 t (ofZ64 (Z.of_nat 16)))).
  destruct (SM (gridded 16 (fun i j => (c j, c j)))) as [Sx Hx]. destruct (SM (gridded 16 (fun i j => (c i, c i)))) as [Sy Hy].
  destruct (S32 (gridded 16 (fun i j => single (ph i j)))) as [s Hs]; [discriminate|].
  set (d := fun i j => single (sub64 (single (ph i j)) (single (div64 s (ofZ64 (Z.of_nat 16 * Z.of_nat 16)))))).
  destruct (SM (gridded 16 (fun i j => (d i j, div64 (c j) Sx)))) as [rx Rx]. destruct (SM (gridded 16 (fun i j => (d i j, div64 (c i) Sy)))) as [ry Ry].
  exists rx, ry, t, Sx, Sy, s. split; [exact Ht|]. split; [exact Hx|]. split; [exact Hy|]. split; [exact Hs|]. split; [exact Rx|exact Ry].
Qed.

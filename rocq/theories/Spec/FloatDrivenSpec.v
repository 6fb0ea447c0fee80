(** What the theorem on the way from commands to slopes talks about. *)
From Coq Require Import ZArith List Reals.
From Flocq Require Import Core BinarySingleNaN.
From Verif.Base Require Import Float64.
From Verif.Model Require Import FloatInterp FloatLos FloatFootprint FloatGradChain.
From Verif.Spec Require Import FloatLoopSpec FloatInterpSpec FloatLosSpec FloatFootprintSpec FloatGradSpec FloatGradChainSpec FloatMirrorSpec.
From Verif.Model Require Import FloatDriven.
Import ListNotations.
Local Open Scope R_scope.

(** What is seen of the mirrors through pixel (p, q) of the line of sight, in exact arithmetic *)
Definition exact_mirrors (g : grad_sensor) (p q : Z) (ms : list (mirror64 * list b64)) : R :=
  fold_right Rplus 0 (map (fun mc => let m := fst mc in let n := (Z.of_nat (mm_nx m) + 2 * Z.of_nat (mm_pad m))%Z in
    bilinear (exact_screen (mm_nx m) (mm_pad m) (mm_infl m) (snd mc)) (nearest_on n (footprint (gs_geo g) (B2R (gs_posx g)) (B2R (mm_alt m)) p))
      (nearest_on n (footprint (gs_geo g) (B2R (gs_posy g)) (B2R (mm_alt m)) q))) ms).
(** The phase (radians) in pixel (i, j) of the sub-aperture, where the mask lets light through: what is seen of the screens less what is seen of the mirrors *)
Definition exact_residual (g : grad_sensor) (screens : list (farr * b64)) (ms : list (mirror64 * list b64)) (i j : nat) : R :=
  B2R (gs_mask g i j) * (B2R (gs_c g) * (exact_seen (gs_geo g) (gs_posx g) (gs_posy g) (gs_row g + Z.of_nat i) (gs_col g + Z.of_nat j) screens
    - exact_mirrors g (gs_row g + Z.of_nat i) (gs_col g + Z.of_nat j) ms)).
(** What rounding does to a surface (C209); the same for all mirrors; the largest values on all mirrors *)
Definition miss (m : mirror64) (A : R) : R := (4 * INR (length (mm_infl m)) + 8 * (INR (mm_nx m) * INR (mm_nx m))) * unit_roundoff * A + bpow radix2 (-1000).
Definition missed (ms : list (mirror64 * list b64)) (As : list R) : R := total (map (fun p => miss (fst (fst p)) (snd p)) (combine ms As)).
Definition shown (ms : list (mirror64 * list b64)) (As : list R) : R := total (map (fun p => 2 * snd p + miss (fst (fst p)) (snd p)) (combine ms As)).
(** Screens and mirrors without extreme numbers; the commands of mirror k times its influence functions are at most the k-th of the second bounds (see [driven]). *)
Definition command_within (g : grad_sensor) (theta h : R) (f : list (farr * b64) * list (mirror64 * list b64)) (b : list R * list R) : Prop :=
  fine (gs_geo g) theta h (gs_posx g) (gs_posy g) (fst f) (fst b) /\
  Forall2 (fun mc A => let m := fst mc in driven (mm_nx m) (mm_infl m) (snd mc) A /\ (2 <= Z.of_nat (mm_nx m) + 2 * Z.of_nat (mm_pad m) <= 2 ^ 20)%Z /\
    within (gs_geo g) theta h (gs_posx g) (mm_alt m) /\ within (gs_geo g) theta h (gs_posy g) (mm_alt m)) (snd f) (snd b) /\
  (Z.of_nat (length (fst f)) <= 2 ^ 20)%Z /\ (Z.of_nat (length (snd f)) <= 2 ^ 20)%Z /\ total (fst b) <= bpow radix2 50 /\ shown (snd f) (snd b) <= bpow radix2 50.

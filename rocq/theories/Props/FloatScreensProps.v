(** Property theorems C201: frozen flow on finite screens in floating-point arithmetic. *)
From Coq Require Import ZArith.
From Flocq Require Import Core BinarySingleNaN.
From Verif.Base Require Import Float64.
From Coq Require Import Reals Bool Lia Lra.
From Verif.Model Require Import FloatScreens.
From Verif.Spec Require Import FloatScreensSpec.
From Verif.Proofs Require Import FloatScreensProofs.
Local Open Scope R_scope.

(** C201: a window of s pixels on a stored screen of W, a wind of v pixels per frame, |v| between W 2^-49 and W.  The first frame is read at the
    end of the screen the wind comes from.  On every frame, m frames after the window was last set back to an end of the screen, pixel k is read
    within m W 2^-50 of base + k + m v, and no further than twice that outside the screen; m |v| is at most twice the way the window has, so the
    error does not depend on the number of frames.  From each frame to the next the window moves over the turbulence by v within W 2^-50, unless
    it reaches an end of the screen, where the step may be wrong by a pixel (C27). *)
Theorem C201_window : forall (W s : Z) (v : b64) (n : nat), (1 <= s <= W)%Z -> (W <= 2 ^ 40)%Z -> is_finite v = true ->
  2 * slip W <= Rabs (B2R v) <= IZR W ->
  (exists a, sampled64 W s v 0 = Some a /\ forall k, (0 <= k < s)%Z -> place a k = IZR ((if lt64 v (ofZ64 0) then W - s else 0) + k)) /\
  exists a b m base, sampled64 W s v n = Some a /\ sampled64 W s v (S n) = Some b /\
    (m <= n)%nat /\ INR m * Rabs (B2R v) <= 2 * IZR (W - s) /\ (base = 0 \/ base = W - s)%Z /\
    forall k, (0 <= k < s)%Z ->
      is_finite (x_co a k) = true /\
      Rabs (B2R (x_co a k) - (IZR base + IZR k + INR m * B2R v)) <= INR m * slip W /\
      - (2 * INR m * slip W) <= B2R (x_co a k) <= IZR (W - 1) + 2 * INR m * slip W /\
      ((x_roll b = x_roll a /\ Rabs (place b k - (place a k + B2R v)) <= slip W) \/
       ((B2R (x_pos a) + B2R v < slip W \/ IZR (W - s) - 2 * slip W <= B2R (x_pos a) + B2R v) /\
        Rabs (place b k - (place a k + B2R v)) <= 1 + (2 * INR m + 3) * slip W)).
Proof.
  intros W s v n Hs HW Fv [V1 V2]. split; [apply start_place; assumption|].
  destruct (frames W s v Hs HW Fv V2 V1 n) as (a & base & m & Ea & Mn & Si & Wi).
  destruct (next W s v Hs HW Fv V2 V1 n a Ea base m Si Wi) as (b & Eb & Nx).
  destruct (count W s v Hs base m a V1 Si Wi) as [C1 C2].
  exists a, b, m, base. split; [exact Ea|]. split; [exact Eb|]. split; [exact Mn|]. split; [exact C1|]. split; [apply Si|].
  intros k K. destruct (proj2 (proj2 (proj2 Si)) k K) as [Fk Ek]. split; [exact Fk|]. split; [exact Ek|]. split; [|apply Nx; exact K].
  destruct (co_range W s v base m a k Si Wi C2 K) as (_ & D & _). apply Rabs_le_inv in D. destruct Wi as [L U].
  assert (Bk : 0 <= IZR k <= IZR (s - 1)) by (split; apply IZR_le; lia).
  assert (S1 : IZR (W - s) + IZR (s - 1) = IZR (W - 1)) by (rewrite <- plus_IZR; f_equal; lia). lra.
Qed.
Print Assumptions C201_window.

(** Without wind nothing moves, for ever. *)
Theorem C201_still : forall (W s : Z) (v : b64) (n : nat), (1 <= s <= W)%Z -> (W <= 2 ^ 40)%Z -> is_finite v = true -> B2R v = 0 ->
  exists a, sampled64 W s v n = Some a /\ forall k, (0 <= k < s)%Z -> B2R (x_co a k) = IZR k /\ place a k = IZR k.
Proof.
  intros W s v n Hs HW Fv Z0. destruct (still W s v n Hs HW Fv Z0) as (a & Ea & _ & _ & R0 & C). exists a. split; [exact Ea|].
  intros k K. destruct (C k K) as [_ Ek]. split; [exact Ek|]. unfold place. rewrite R0, Ek. ring.
Qed.
Print Assumptions C201_still.

(** A window of 3 on a screen of 8, against the wind: -7/4 pixels per frame; after 3 frames it is read from 3/2, after 4 it is set back to the end;
    and a wind of 0.1 at frame 3, where the sum of the floats is not the float of the sum. *)
Example C201_instance :
  2 * slip 8 <= Rabs (B2R (lit64 (-7) (-2))) <= IZR 8 /\
  option_map (fun a => (B2SF (x_co a 0), x_roll a)) (sampled64 8 3 (lit64 (-7) (-2)) 3) = Some (B2SF (lit64 3 (-1)), 1%Z) /\
  option_map (fun a => (B2SF (x_co a 0), x_roll a)) (sampled64 8 3 (lit64 (-7) (-2)) 4) = Some (B2SF (lit64 5 0), 6%Z) /\
  option_map (fun a => B2SF (x_co a 0)) (sampled64 8 3 (div64 (ofZ64 1) (ofZ64 10)) 3) <> Some (B2SF (div64 (ofZ64 3) (ofZ64 10))).
Proof.
  assert (BW : bpow radix2 (-2) = / 4) by (cbn; lra).
  split; [|split; [|split]].
  - destruct (lit_correct (-7) (-2)) as [_ E].
    + rewrite BW. rewrite Rabs_left by lra. apply Rle_trans with (bpow radix2 1); [change (bpow radix2 1) with 2; lra|apply bpow_le; lia].
    + rewrite E, rnd_rep by (apply rep_F2R; cbn; lia). rewrite BW, Rabs_left by lra. unfold slip.
      assert (Q : bpow radix2 (-50) <= / 1024) by (replace (/ 1024) with (bpow radix2 (-10)) by (cbn; lra); apply bpow_le; lia). lra.
  - vm_compute. reflexivity.
  - vm_compute. reflexivity.
  - vm_compute. discriminate.
Qed.

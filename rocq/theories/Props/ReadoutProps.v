(** Property theorems C05 in the floats of Python: the read-out schedule with rounding. *)
From Coq Require Import ZArith Reals List Bool Lia Lra.
From Flocq Require Import Core BinarySingleNaN.
From Verif.Base Require Import Float64.
From Verif.Model Require Import Readout64.
From Verif.Spec Require Import ReadoutSpec.
From Verif.Proofs Require Import ReadoutProofs.
Import ListNotations.
Open Scope R_scope.

(** C05 is FALSE of the code: with loopTime 0.0025 s (sh_8x8.yaml and most shipped configurations) and the default exposureTime, one
    loop period, the sensor is not read on the 29th frame of a run: int(0.0025 * 29 / 0.0025) = 28.  It is read on every other
    frame. *)
Theorem C05_rounding_refuted :
  forall (lt : b64) (n j : nat), nearest lt (1 / 400) -> (Z.of_nat n <= 2 ^ 50)%Z -> (j < n)%nat ->
    exists l, readout64 lt lt n = Some l /\ nth_error l j = Some (negb (j =? 28)%nat).
Proof. exact loop400. Qed.
Print Assumptions C05_rounding_refuted.

(** With an exposure of two such periods the 29th exposure lasts three frames and the 30th lasts one. *)
Theorem C05_two_periods_refuted :
  forall lt e : b64, nearest lt (1 / 400) -> nearest e (1 / 200) ->
    readout64 lt e 60 = Some (concat (repeat [false; true] 28) ++ [false; false; true; true]).
Proof. exact exposure200. Qed.
Print Assumptions C05_two_periods_refuted.
Example C05_two_periods_instance : exists lt e : b64, nearest lt (1 / 400) /\ nearest e (1 / 200) /\ readout64 lt e 4 = Some [false; true; false; true].
Proof.
  exists (div64 (ofZ64 1) (ofZ64 400)), (div64 (ofZ64 1) (ofZ64 200)). split; [apply (nearest_div 1 400); lia|]. split; [apply (nearest_div 1 200); lia|].
  vm_compute. reflexivity.
Qed.

(** What rounding leaves of it: the number of reads after n frames is never more than one away from floor(n * loopTime / exposureTime).
    _partial: C05 asks for equality. *)
Theorem C05_rounded_count_partial :
  forall (lt e : b64) (n : nat), time64 lt -> time64 e -> B2R lt <= B2R e -> (Z.of_nat n <= 2 ^ 50)%Z ->
    exists l, readout64 lt e n = Some l /\ length l = n /\ (Z.abs (reads l - Zfloor (IZR (Z.of_nat n) * B2R lt / B2R e)) <= 1)%Z.
Proof. exact readout_bounds. Qed.
Print Assumptions C05_rounded_count_partial.

(** The default exposure: at most one frame of a run is without a measurement. *)
Theorem C05_rounded_default_partial :
  forall (lt : b64) (n : nat), time64 lt -> (Z.of_nat n <= 2 ^ 50)%Z ->
    exists l, readout64 lt lt n = Some l /\ length l = n /\ (Z.of_nat n - 1 <= reads l)%Z.
Proof. exact default_reads. Qed.
Print Assumptions C05_rounded_default_partial.

(** An exposure shorter than the loop period by at least one part in 2^52: read on every frame. *)
Theorem C05_rounded_short_partial :
  forall (lt e : b64) (n : nat), time64 lt -> time64 e -> B2R e <= B2R lt * (1 - bpow radix2 (-52)) -> (Z.of_nat n <= 2 ^ 50)%Z ->
    readout64 lt e n = Some (repeat true n).
Proof. intros lt e n T1 T2 L H. apply (flags_short lt e T1 T2 L n 0); lia. Qed.
Print Assumptions C05_rounded_short_partial.

(** A loop period of few bits, for example 1/512 s: no rounding, and the sensor is read on exactly every p-th frame. *)
Theorem C05_rounded_exact_partial :
  forall (lt e : b64) (p : Z) (n : nat), time64 lt -> time64 e -> short_time lt n -> (1 <= p <= 2 ^ 50)%Z -> (Z.of_nat n <= 2 ^ 50)%Z ->
    B2R e = IZR p * B2R lt ->
    exists l, readout64 lt e n = Some l /\ length l = n /\ forall j, (j < n)%nat -> nth_error l j = Some ((Z.of_nat j + 1) mod p =? 0)%Z.
Proof. exact readout_exact. Qed.
Print Assumptions C05_rounded_exact_partial.
Example C05_rounded_instance :
  (exists lt, time64 lt /\ short_time lt 4000 /\ B2R lt = / 512) /\
  (exists lt, nearest lt (1 / 400) /\ time64 lt /\ readout64 lt lt 30 = Some (repeat true 28 ++ [false; true])) /\
  (exists lt e, nearest lt (1 / 400) /\ nearest e (1 / 800) /\ time64 e /\ readout64 lt e 30 = Some (repeat true 30)).
Proof.
  split; [exact loop512|]. split.
  - exists (div64 (ofZ64 1) (ofZ64 400)). pose proof (nearest_div 1 400 ltac:(lia) ltac:(lia)) as N. split; [exact N|]. split; [apply (nearest_time _ 1 400); [lia|lia|exact N]|].
    vm_compute. reflexivity.
  - exists (div64 (ofZ64 1) (ofZ64 400)), (div64 (ofZ64 1) (ofZ64 800)). pose proof (nearest_div 1 800 ltac:(lia) ltac:(lia)) as N.
    split; [apply (nearest_div 1 400); lia|]. split; [exact N|]. split; [apply (nearest_time _ 1 800); [lia|lia|exact N]|]. vm_compute. reflexivity.
Qed.

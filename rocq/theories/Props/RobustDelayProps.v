(** C181: the closed loop with inexact sensors and a loop delay. *)
From Verif.Base Require Import Vec.
From Verif.Model Require Import Recon Loop.
From Verif.Spec Require Import ReconSpec LoopSpec.
From Verif.Proofs Require Import LoopProofs.
From Verif.Spec Require Import RobustSpec.
From Verif.Proofs Require Import RobustProofs.
From Verif.Props Require Import RobustProps.
From Verif.Proofs Require Import RobustDelay.

(** As C178, with commands applied [loop_delay] frames late and gains between [g] and [G]: if loop_delay G^2 (1 + delta) < g (1 - delta), the error
    that was there at first falls by at least the difference of the two every 2 loop_delay + 1 frames, and what is left is proportional to the
    noise [eta] and the change per frame [v]. *)
Theorem C181_robust_delay (fit : nat -> vec -> vec) (npix npx nmeas : nat) (ds : list dm) (ctrl : mat)
    (g G range delta eta v first : Qc) (loop_delay : nat) (wanted : nat -> vec) (senses : list (list vec -> vec)) :
  let dl := qz (Z.of_nat loop_delay) in
  let rate := (g * (1 - delta) - dl * (G * G) * (1 + delta))%Qc in
  let left := ((v + G * (eta + delta * (dl * v) + dl * (G * (eta + (1 + delta) * (dl * v))))) / rate)%Qc in
  Forall (driven npix) ds -> (forall k v, length v = npix -> length (fit k v) = npx) -> length ctrl = actuators ds ->
  Forall (fun d => closed d = true /\ (g <= gain d)%Qc /\ (gain d <= G)%Qc) ds ->
  (0 < g)%Qc -> (g <= G)%Qc -> (G <= 1)%Qc -> (0 <= delta)%Qc -> (delta < 1)%Qc -> (0 <= eta)%Qc -> (0 <= v)%Qc -> (0 <= first)%Qc -> (0 < rate)%Qc ->
  (first + left + dl * v <= range)%Qc ->
  (forall n f, nth_error senses n = Some f ->
     (forall s, stack_ok (length ds) npx s -> length (f s) = nmeas) /\ accurate fit ds ctrl range delta eta (wanted n) f) ->
  (forall n x, (x < actuators ds)%nat -> (qc_abs (elem (wanted (S n)) x - elem (wanted n) x) <= v)%Qc) ->
  within ds (wanted 0%nat) (vzero (actuators ds)) first ->
  exists L outs, loop_run fit ds nmeas (actuators ds) ctrl (Z.of_nat loop_delay) (loop_init (length ds) npx nmeas) senses = Ok (L, outs) /\
    length outs = length senses /\
    forall n o, nth_error outs n = Some o ->
      within ds (wanted n) (applied o) ((1 - rate) ^ ((n - loop_delay) / (2 * loop_delay + 1)) * first + left + dl * v)%Qc.
Proof.
  intros dl rate left H1 H2 H3 HC Hg HG HG1 D1 D2 N V HM Hr.
  apply (robust_delay fit npix npx nmeas ds ctrl H1 H2 H3 g G range delta eta v first left loop_delay wanted senses HC Hg HG HG1 D1 D2 N V HM Hr).
  unfold left. apply rate_inv. exact Hr.
Qed.
Print Assumptions C181_robust_delay.

(** In particular a calibrated system whose sensors then report [a] times the slopes they were calibrated with: for [a] = 1 and one gain, any gain
    below 1 / loop_delay will do. *)
Theorem C181_scaled_delay (fit : nat -> vec -> vec) (npix npx nmeas : nat) (wfss : list (list vec -> vec)) (ds0 ds : list dm) (imat ctrl : mat)
    (g G a first : Qc) (base : vec) (N loop_delay : nat) :
  let rate := (g * (1 - qc_abs (a - 1)) - qz (Z.of_nat loop_delay) * (G * G) * (1 + qc_abs (a - 1)))%Qc in
  calibrated_system fit npix npx nmeas wfss ds0 ds imat ctrl -> length base = nmeas ->
  Forall (fun d => closed d = true /\ (g <= gain d)%Qc /\ (gain d <= G)%Qc) ds ->
  (0 < g)%Qc -> (g <= G)%Qc -> (G <= 1)%Qc -> (0 < a)%Qc -> (a < 1 + 1)%Qc -> (0 < rate)%Qc -> (0 <= first)%Qc ->
  (forall x, (x < actuators ds)%nat -> (qc_abs (elem (mvm ctrl base) x) <= first)%Qc) ->
  exists L outs, loop_run fit ds nmeas (actuators ds) ctrl (Z.of_nat loop_delay) (loop_init (length ds) npx nmeas)
      (repeat (fun s => vscale a (with_turbulence wfss base s)) N) = Ok (L, outs) /\ length outs = N /\
    forall n o, nth_error outs n = Some o ->
      within ds (mvm ctrl base) (applied o) ((1 - rate) ^ ((n - loop_delay) / (2 * loop_delay + 1)) * first)%Qc.
Proof. exact (scaled_delay fit npix npx nmeas wfss ds0 ds imat ctrl g G a first base N loop_delay). Qed.
Print Assumptions C181_scaled_delay.

(** The sensor of C178 that saturates, with gain 1/4 and commands applied one frame late: the first error of 3 falls at least like (11/12)^(n/3). *)
Definition rd_dms : list dm := [ mkDm 1 [[1%Qc]] [true] (Some 1%nat) true (qfrac 1 4) ].
Example C181_instance :
  (0 < qfrac 1 4 * (1 - qfrac 1 3) - qz (Z.of_nat 1) * (qfrac 1 4 * qfrac 1 4) * (1 + qfrac 1 3))%Qc /\
  Forall (driven 1) rd_dms /\ length rx_ctrl = actuators rd_dms /\
  accurate rx_fit rd_dms rx_ctrl (qz 3) (qfrac 1 3) 0%Qc [qz 3] rx_sense /\
  within rd_dms [qz 3] (vzero (actuators rd_dms)) (qz 3) /\
  match loop_run rx_fit rd_dms 1 1 rx_ctrl 1 (loop_init 1 1 1) (repeat rx_sense 6) with
  | Ok (_, outs) => map applied outs = [[qz 0]; [qz 0]; [qfrac 1 2]; [qz 1]; [qfrac 3 2]; [qz 2]]
  | Err _ => False
  end.
Proof.
  split; [vm_compute; reflexivity|]. split; [repeat constructor; discriminate|]. split; [reflexivity|].
  split; [exact rx_accurate|].
  split; [intros y Hy; change (actuators rd_dms) with 1%nat in Hy; assert (y = 0%nat) by lia; subst y; vm_compute; discriminate|].
  qc_compute; reflexivity.
Qed.
(** And one calibrated exactly whose sensor then reports 5/4 of the slopes, with gain 1/2 *)
Example C181_scaled_instance :
  let ds := fst (make_imat rx_fit1 1 [rx_wfs] rx_fresh) in
  (0 < qfrac 1 2 * (1 - qc_abs (qfrac 5 4 - 1)) - qz (Z.of_nat 1) * (qfrac 1 2 * qfrac 1 2) * (1 + qc_abs (qfrac 5 4 - 1)))%Qc /\
  Forall (fun d => closed d = true /\ (qfrac 1 2 <= gain d)%Qc /\ (gain d <= qfrac 1 2)%Qc) ds /\ elem (mvm rx_ctrl [qz (-8)]) 0 = qz 8 /\
  match loop_run rx_fit1 ds 1 (actuators ds) rx_ctrl 1 (loop_init 1 1 1) (repeat (fun s => vscale (qfrac 5 4) (with_turbulence [rx_wfs] [qz (-8)] s)) 5) with
  | Ok (_, outs) => map applied outs = [[qz 0]; [qz 0]; [qz 5]; [qz 10]; [qfrac 95 8]]
  | Err _ => False
  end.
Proof. split; [vm_compute; reflexivity|]. split; [repeat constructor; vm_compute; discriminate|]. split; qc_compute; reflexivity. Qed.

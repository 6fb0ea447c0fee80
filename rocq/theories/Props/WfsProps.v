(** Property theorems C05-C10: read-out schedule, integration, measurement vector. *)
From Verif.Base Require Import Vec.
From Verif.Model Require Import Wfs.
From Verif.Spec Require Import WfsSpec.
From Verif.Proofs Require Import WfsProofs.

(** C05 in exact arithmetic (_partial: the program computes in floats, see Props.ReadoutProps): exposureTime = p loop periods: WFS w
    is read on exactly every p-th frame. *)
Theorem C05_every_pth_frame_partial :
  forall (lt : Qc) (ets : list Qc) (w : nat) (p : Z) (n k : nat),
    (0 < lt)%Qc -> 0 < p -> nth_error ets w = Some (qz p * lt)%Qc -> (k < n)%nat ->
    flag (sched_run sched_noMP lt ets (sched_init ets) (repeat SFrame n)) k w
    = Some ((Z.of_nat k + 1) mod p =? 0).
Proof. exact schedule_every_kth. Qed.
Print Assumptions C05_every_pth_frame_partial.

(** C05: any rational exposure at least as long as the loop period: after m frames the WFS has been
    read floor(m*loopTime/exposureTime) times. *)
Theorem C05_number_of_reads_partial :
  forall (lt : Qc) (ets : list Qc) (w : nat) (et : Qc) (n m : nat),
    (0 < lt)%Qc -> (lt <= et)%Qc -> nth_error ets w = Some et -> (m <= n)%nat ->
    reads (sched_run sched_noMP lt ets (sched_init ets) (repeat SFrame n)) w m
    = exposures_completed lt et (Z.of_nat m).
Proof. exact schedule_count. Qed.
Print Assumptions C05_number_of_reads_partial.

(** C05: an exposure not longer than the loop period: read on every frame. *)
Theorem C05_short_exposure_every_frame_partial :
  forall (lt : Qc) (ets : list Qc) (w : nat) (et : Qc) (n k : nat),
    (0 < et)%Qc -> (et <= lt)%Qc -> nth_error ets w = Some et -> (k < n)%nat ->
    flag (sched_run sched_noMP lt ets (sched_init ets) (repeat SFrame n)) k w = Some true.
Proof. exact schedule_fast. Qed.
Print Assumptions C05_short_exposure_every_frame_partial.

(** Three WFSs: exposure 3 periods, 2.5 periods and half a period (loopTime 1/400). *)
Example C05_instance :
  let lt := qfrac 1 400 in
  sched_run sched_noMP lt [(qz 3 * lt)%Qc; qfrac 1 160; qfrac 1 800]
            (sched_init [(qz 3 * lt)%Qc; qfrac 1 160; qfrac 1 800]) (repeat SFrame 6)
  = [[false; false; true]; [false; false; true]; [true; true; true];
     [false; false; true]; [false; true; true]; [true; false; true]].
Proof. vm_compute. reflexivity. Qed.

(** C06 is FALSE of the code: reset_loop zeroes the iteration counter but not the per-WFS frame
    counter, so once a WFS with a long exposure has been read, after the reset it is read on EVERY
    frame. *)
Theorem C06_schedule_restart_refuted :
  forall (lt : Qc) (ets : list Qc) (w : nat) (et : Qc) (m n k : nat),
    (0 < lt)%Qc -> (lt < et)%Qc -> nth_error ets w = Some et ->
    1 <= exposures_completed lt et (Z.of_nat m) -> (k < n)%nat ->
    flag (sched_run sched_noMP lt ets (sched_init ets) (repeat SFrame m ++ SReset :: repeat SFrame n)) (m + k) w
    = Some true.
Proof. exact reset_reads_every_frame. Qed.
Print Assumptions C06_schedule_restart_refuted.

(** With equal exposure and loop time the schedule after a reset that follows exactly one frame
    skips a read. *)
Theorem C06_default_exposure_refuted :
  exists (lt : Qc) (m k : nat), (0 < lt)%Qc /\
    flag (sched_run sched_noMP lt [lt] (sched_init [lt]) (repeat SFrame m ++ SReset :: repeat SFrame (S k))) (m + k) 0
    <> flag (sched_run sched_noMP lt [lt] (sched_init [lt]) (repeat SFrame (S k))) k 0.
Proof. exists 1%Qc, 1%nat, 0%nat. split; [reflexivity|]. vm_compute. congruence. Qed.
Print Assumptions C06_default_exposure_refuted.

(** C06, what does hold: a reset before the first read restarts the schedule; with the default
    exposureTime (= loopTime) the WFS is read on every frame after the reset unless exactly one frame
    was run before it. *)
Theorem C06_schedule_restart_partial :
  forall (lt : Qc) (ets : list Qc) (w : nat) (et : Qc) (m n k : nat),
    (0 < lt)%Qc -> (lt <= et)%Qc -> nth_error ets w = Some et ->
    exposures_completed lt et (Z.of_nat m) = 0 -> (k < n)%nat ->
    flag (sched_run sched_noMP lt ets (sched_init ets) (repeat SFrame m ++ SReset :: repeat SFrame n)) (m + k) w
    = flag (sched_run sched_noMP lt ets (sched_init ets) (repeat SFrame n)) k w.
Proof. exact reset_same_when_unread. Qed.
Print Assumptions C06_schedule_restart_partial.

Theorem C06_default_exposure_partial :
  forall (lt : Qc) (ets : list Qc) (w m n k : nat),
    (0 < lt)%Qc -> nth_error ets w = Some lt -> m <> 1%nat -> (k < n)%nat ->
    flag (sched_run sched_noMP lt ets (sched_init ets) (repeat SFrame m ++ SReset :: repeat SFrame n)) (m + k) w
    = Some true.
Proof. exact reset_same_default. Qed.
Print Assumptions C06_default_exposure_partial.

Example C06_instance :
  let lt := qfrac 1 400 in let et := qfrac 3 400 in
  1 <= exposures_completed lt et 4 /\ exposures_completed lt et 2 = 0 /\
  sched_run sched_noMP lt [et] (sched_init [et]) (repeat SFrame 4 ++ SReset :: repeat SFrame 4)
  = [[false]; [false]; [true]; [false]; [true]; [true]; [true]; [true]].
Proof. split; [|split]; vm_compute; congruence. Qed.

(** C07 is FALSE of the code.  (1) On frame 0 of a WFS with an exposure longer than the loop period
    the multi-process version reads and the other one does not. *)
Theorem C07_first_frame_refuted :
  forall (lt : Qc) (ets : list Qc) (w : nat) (et : Qc) (n : nat),
    (0 < lt)%Qc -> (lt < et)%Qc -> nth_error ets w = Some et -> (0 < n)%nat ->
    flag (sched_run sched_MP lt ets (sched_init ets) (repeat SFrame n)) 0 w = Some true /\
    flag (sched_run sched_noMP lt ets (sched_init ets) (repeat SFrame n)) 0 w = Some false.
Proof. exact mp_differs_first. Qed.
Print Assumptions C07_first_frame_refuted.

(** C07 (2): whatever the sensors compute, the multi-process version waits for ever: the child dies
    with AttributeError on the missing attribute LGS before it puts anything into the queue. *)
Theorem C07_multi_process_blocks_refuted :
  forall rs : list (nat * result vec), rs <> [] -> run_wfs_MP rs = BlocksForever.
Proof. exact mp_blocks. Qed.
Print Assumptions C07_multi_process_blocks_refuted.

(** C07, what does hold: the read decisions agree on all frames but the first. *)
Theorem C07_read_decisions_partial :
  forall (lt : Qc) (ets : list Qc) (w : nat) (et : Qc) (n k : nat),
    (0 < lt)%Qc -> (0 < et)%Qc -> nth_error ets w = Some et -> (0 < k < n)%nat ->
    flag (sched_run sched_MP lt ets (sched_init ets) (repeat SFrame n)) k w
    = flag (sched_run sched_noMP lt ets (sched_init ets) (repeat SFrame n)) k w.
Proof. exact mp_agree_later. Qed.
Print Assumptions C07_read_decisions_partial.
(** An exposure of two and a half periods: the first frame is read with processes only. *)
Example C07_instance :
  map (fun k => flag (sched_run sched_MP 1%Qc [qfrac 5 2] (sched_init [qfrac 5 2]) (repeat SFrame 6)) k 0) (seq 0 6)
  = [Some true; Some false; Some true; Some false; Some true; Some false] /\
  map (fun k => flag (sched_run sched_noMP 1%Qc [qfrac 5 2] (sched_init [qfrac 5 2]) (repeat SFrame 6)) k 0) (seq 0 6)
  = [Some false; Some false; Some true; Some false; Some true; Some false] /\
  run_wfs_MP [(2%nat, Ok [qz 1; qz 2])] = BlocksForever.
Proof. repeat split; vm_compute; reflexivity. Qed.

(** C08: without LGS uplink, the image centroided at a read on frame k is the binned sum of the
    intensities of exactly the frames since the previous read. *)
Theorem C08_image_is_one_exposure :
  forall (nfoc ndet nmeas : nat) (to_detector read_out centroid : vec -> vec),
    (forall x, length x = nfoc -> length (to_detector x) = ndet) ->
    forall (fs : list (bool * frame_in)) (k : nat) (i : frame_in) (first : nat),
    Forall (fun p => length (fi_intensity (snd p)) = nfoc /\ fi_uplink (snd p) = None) fs ->
    nth_error fs k = Some (true, i) ->
    exposure_start (fun j => match nth_error fs j with Some (r, _) => r | None => false end) first k ->
    let image := to_detector (image_sum nfoc
        (map (fun p => fi_intensity (snd p)) (firstn (S k - first) (skipn first fs)))) in
    nth_error (wfs_run nfoc ndet nmeas to_detector read_out centroid (wfs_init nfoc ndet nmeas) fs) k
    = Some (centroid (read_out image), Some image).
Proof. exact image_is_exposure. Qed.
Print Assumptions C08_image_is_one_exposure.

Example C08_instance :
  let f (r : bool) (x : Z) := (r, mkIn [qz x; qz (2 * x)] None) in
  let fs := [f false 1; f true 2; f false 4; f false 8; f true 16] in
  Forall (fun p => length (fi_intensity (snd p)) = 2%nat /\ fi_uplink (snd p) = None) fs /\
  exposure_start (fun j => match nth_error fs j with Some (r, _) => r | None => false end) 2 4 /\
  map snd (wfs_run 2 2 2 (fun x => x) (fun x => x) (fun x => x) (wfs_init 2 2 2) fs)
  = [None; Some [qz 3; qz 6]; None; None; Some [qz 28; qz 56]].
Proof.
  split; [repeat constructor|]. split.
  - split; [lia|]. split.
    + intros j Hj. assert (j = 2 \/ j = 3)%nat as [-> | ->] by lia; reflexivity.
    + right. exists 1%nat. split; reflexivity.
  - reflexivity.
Qed.

(** C08 with LGS uplink is FALSE: the uplink convolution is applied to the accumulated intensity on
    every frame, so the light of the first frame of a two-frame exposure is convolved twice. *)
Theorem C08_uplink_refuted :
  exists (blur : vec -> vec) (i1 i2 : vec),
    length i1 = 3%nat /\ length i2 = 3%nat /\
    (forall x y, length x = length y -> blur (vadd x y) = vadd (blur x) (blur y)) /\
    nth_error (wfs_run 3 3 3 (fun x => x) (fun x => x) (fun x => x) (wfs_init 3 3 3)
       [(false, mkIn i1 (Some blur)); (true, mkIn i2 (Some blur))]) 1
    = Some (vadd (blur (blur i1)) (blur i2), Some (vadd (blur (blur i1)) (blur i2))) /\
    vadd (blur (blur i1)) (blur i2) <> vadd (blur i1) (blur i2).
Proof.
  exists (mvm [[qz 1; qz 1; qz 0]; [qz 0; qz 1; qz 1]; [qz 1; qz 0; qz 1]]), [qz 1; qz 0; qz 0], [qz 0; qz 0; qz 1].
  split; [reflexivity|]. split; [reflexivity|]. split; [intros; apply mvm_add; assumption|].
  split; [vm_compute; reflexivity|]. vm_compute. congruence.
Qed.
Print Assumptions C08_uplink_refuted.

(** C09 is FALSE of the code: a frame without a read returns zeros, whatever the last slopes are. *)
Theorem C09_old_slopes_refuted :
  forall (nfoc ndet nmeas : nat) (to_detector read_out centroid : vec -> vec)
         (fs : list (bool * frame_in)) (k : nat) (i : frame_in),
    nth_error fs k = Some (false, i) -> forall s,
    nth_error (wfs_run nfoc ndet nmeas to_detector read_out centroid s fs) k
    = Some (vzero nmeas, None).
Proof. exact unread_zero. Qed.
Print Assumptions C09_old_slopes_refuted.

(** A run in which the previous slopes were not zero. *)
Theorem C09_old_slopes_witness_refuted :
  exists (fs : list (bool * frame_in)) k s_prev s_now,
    map fst (wfs_run 1 1 1 (fun x => x) (fun x => x) (fun x => x) (wfs_init 1 1 1) fs) = [s_prev; s_now] /\
    nth_error (map fst fs) k = Some false /\ k = 1%nat /\ s_now <> s_prev.
Proof.
  exists [(true, mkIn [qz 5] None); (false, mkIn [qz 5] None)], 1%nat, [qz 5], [qz 0].
  repeat split; try reflexivity. vm_compute. congruence.
Qed.
Print Assumptions C09_old_slopes_witness_refuted.

(** C09, what does hold: after any history the sensor object still has the slopes returned at the last read.
    Missing: the value handed to the simulation (refuted above). *)
Theorem C09_sensor_keeps_slopes_partial :
  forall (nfoc ndet nmeas : nat) (to_detector read_out centroid : vec -> vec) (fs1 : list (bool * frame_in)) (i : frame_in)
         (fs2 : list (bool * frame_in)) s (sl : vec) (im : option vec),
    Forall (fun p => fst p = false) fs2 ->
    nth_error (wfs_run nfoc ndet nmeas to_detector read_out centroid s (fs1 ++ (true, i) :: fs2)) (length fs1) = Some (sl, im) ->
    last_slopes (wfs_after nfoc ndet nmeas to_detector read_out centroid s (fs1 ++ (true, i) :: fs2)) = sl.
Proof. exact read_kept. Qed.
Print Assumptions C09_sensor_keeps_slopes_partial.
Example C09_instance :
  let fs := [(true, mkIn [qz 5] None); (false, mkIn [qz 6] None); (true, mkIn [qz 7] None); (false, mkIn [qz 8] None)] in
  map fst (wfs_run 1 1 1 (fun x => x) (fun x => x) (fun x => x) (wfs_init 1 1 1) fs) = [[qz 5]; [qz 0]; [qz 13]; [qz 0]] /\
  last_slopes (wfs_after 1 1 1 (fun x => x) (fun x => x) (fun x => x) (wfs_init 1 1 1) fs) = [qz 13].
Proof. split; qc_compute. Qed.

(** C10: when every WFS returns a vector of its announced length, the measurement vector has the
    announced total length and the range announced for WFS i holds exactly WFS i's vector. *)
Theorem C10_measurement_layout :
  forall (rs : list (nat * result vec)) (vs : list vec),
    Forall2 (fun p v => snd p = Ok v /\ length v = fst p) rs vs ->
    exists out, run_wfs_slopes rs = Ok out /\
      Z.of_nat (length out) = total_data (map fst rs) /\
      forall i v, nth_error vs i = Some v ->
        exists st, nth_error (data_starts 0 (map fst rs)) i = Some st /\
                   pyslice out st (st + Z.of_nat (length v)) = v.
Proof. exact layout. Qed.
Print Assumptions C10_measurement_layout.

(** C10: each range starts where the previous one ends, the last one ends at the total. *)
Theorem C10_ranges_contiguous :
  forall (ns : list nat) (i : nat) (s : Z) (n : nat),
    nth_error (data_starts 0 ns) i = Some s -> nth_error ns i = Some n ->
    match nth_error (data_starts 0 ns) (S i) with
    | Some s' => s' = s + Z.of_nat n
    | None => s + Z.of_nat n = total_data ns
    end.
Proof. exact (fun ns => data_starts_contiguous ns 0). Qed.
Print Assumptions C10_ranges_contiguous.

(** C10: a WFS returning a vector of another length (other than a single number, which numpy
    broadcasts) is reported, not silently misplaced. *)
Theorem C10_wrong_length_raises :
  forall (rs : list (nat * result vec)),
    Exists (fun p => exists v, snd p = Ok v /\ length v <> fst p /\ length v <> 1%nat) rs ->
    (forall p, In p rs -> exists v, snd p = Ok v) -> run_wfs_slopes rs = Err ValueError.
Proof. exact (fun rs => fill_slopes_mismatch rs _ _). Qed.
Print Assumptions C10_wrong_length_raises.

Example C10_instance :
  run_wfs_slopes [(2%nat, Ok [qz 1; qz 2]); (0%nat, Ok []); (3%nat, Ok [qz 3; qz 4; qz 5])]
  = Ok [qz 1; qz 2; qz 3; qz 4; qz 5] /\
  data_starts 0 [2%nat; 0%nat; 3%nat] = [0; 2; 2].
Proof. split; reflexivity. Qed.

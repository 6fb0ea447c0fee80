(** Read-out schedule of the wavefront sensors, integration on the detector, and the layout of the
    measurement vector. *)
From Verif.Base Require Import Vec.

(** ** Read-out decision *)

(** soapy/simulation.py:393-396  [int(float(loopTime*(loopIter+1))/exposureTime) != wfsFrameNo[nwfs]].
    Floats are exact rationals; [exposureTime] is never 0 (confParse.py replaces a falsy value by
    loopTime). *)
Definition due (loopTime exposureTime : Qc) (loopIter frameNo : Z) : bool :=
  negb (qc_int (loopTime * qz (loopIter + 1) / exposureTime)%Qc =? frameNo).

(** soapy/simulation.py:393-400  Sim.runWfs_noMP: the flag [read] and the new wfsFrameNo[nwfs]. *)
Definition sched_noMP (loopTime exposureTime : Qc) (loopIter frameNo : Z) : bool * Z :=
  if due loopTime exposureTime loopIter frameNo then (true, frameNo + 1) else (false, frameNo).

(** soapy/simulation.py:446-455  Sim.runWfs_MP: the same with [if loopIter:], false for 0. *)
Definition sched_MP (loopTime exposureTime : Qc) (loopIter frameNo : Z) : bool * Z :=
  if loopIter =? 0 then (true, frameNo) else sched_noMP loopTime exposureTime loopIter frameNo.

Definition scheduler := Qc -> Qc -> Z -> Z -> bool * Z.

(** The two counters the decision depends on: Sim.iters and Sim.wfsFrameNo. *)
Record sched_state := mkSched { iters : Z; frameNos : list Z }.

(** soapy/simulation.py:200, 309  aoinit: wfsFrameNo = zeros(nGS), iters = 0. *)
Definition sched_init (ets : list Qc) : sched_state := mkSched 0 (map (fun _ => 0) ets).

(** soapy/simulation.py:391-400 and 578  one loopFrame: decision of every WFS, iters += 1. *)
Definition sched_frame (sched : scheduler) (loopTime : Qc) (ets : list Qc) (s : sched_state)
  : list bool * sched_state :=
  let r := map (fun p => sched loopTime (fst p) (iters s) (snd p)) (combine ets (frameNos s)) in
  (map fst r, mkSched (iters s + 1) (map snd r)).

Inductive sched_op := SFrame | SReset.

(** The read flags of every frame of a history of frames and resets.
    soapy/simulation.py:650-674  reset_loop sets iters = 0 and does not mention wfsFrameNo. *)
Fixpoint sched_run (sched : scheduler) (loopTime : Qc) (ets : list Qc) (s : sched_state)
    (ops : list sched_op) : list (list bool) :=
  match ops with
  | [] => []
  | SFrame :: r => let '(f, s') := sched_frame sched loopTime ets s in f :: sched_run sched loopTime ets s' r
  | SReset :: r => sched_run sched loopTime ets (mkSched 0 (frameNos s)) r
  end.

(** ** Integration on the detector (Shack-Hartmann) *)

(** The arrays that live across frames: ShackHartmann.subap_focus_intensity, .detector, .slopes,
    flattened. *)
Record wfs_state := mkWfs { focus : vec; detector : vec; last_slopes : vec }.

(** What one call of WFS.frame observes: the frame's own focal plane intensity
    (ShackHartmann.temp_subap_intensity) and the LGS uplink convolution if there is one. *)
Record frame_in := mkIn { fi_intensity : vec; fi_uplink : option (vec -> vec) }.

Section Detector.
  (** Number of focal-plane samples, detector pixels and measurements. *)
  Variables nfoc ndet nmeas : nat.
  (** Binning, fill factor scaling and placing onto a zeroed detector
      (soapy/wfs/shackhartmann.py:369-381); the flux scaling and noise of readDetectorPlane (384-396);
      chop_subaps and centroiding (427-458). *)
  Variable to_detector : vec -> vec.
  Variable read_out : vec -> vec.
  Variable centroid : vec -> vec.

  (** soapy/wfs/wfs.py:395-466 WFS.frame with ShackHartmann.zeroData (shackhartmann.py:301-316),
      calcFocalPlane (319-351: subap_focus_intensity += ...), integrateDetectorPlane (354-381: the
      detector is added to by place_subaps_on_detector, wfslib.py:112-123).
      Returns the new state, the returned measurements, and at a read the detector image just before
      readDetectorPlane.  Not modelled: the line of sight, LGS elongation (several calcFocalPlane
      calls per frame, i.e. an intensity that is itself a sum), the replacement of NaN. *)
  Definition wfs_frame (s : wfs_state) (read : bool) (i : frame_in) : wfs_state * vec * option vec :=
    let d0 := if read then vzero ndet else detector s in
    let f1 := vadd (focus s) (fi_intensity i) in
    let f2 := match fi_uplink i with None => f1 | Some u => u f1 end in
    let d1 := vadd d0 (to_detector f2) in
    if read then
      let d2 := read_out d1 in
      let sl := centroid d2 in
      (mkWfs (vzero nfoc) d2 sl, sl, Some d1)
    else (mkWfs f2 d1 (last_slopes s), vzero nmeas, None).

  (** soapy/wfs/shackhartmann.py:225-259 allocDataArrays *)
  Definition wfs_init : wfs_state := mkWfs (vzero nfoc) (vzero ndet) (vzero nmeas).

  Fixpoint wfs_run (s : wfs_state) (fs : list (bool * frame_in)) : list (vec * option vec) :=
    match fs with
    | [] => []
    | (r, i) :: rest => let '(s', sl, im) := wfs_frame s r i in (sl, im) :: wfs_run s' rest
    end.

  Fixpoint wfs_after (s : wfs_state) (fs : list (bool * frame_in)) : wfs_state :=
    match fs with
    | [] => s
    | (r, i) :: rest => wfs_after (fst (fst (wfs_frame s r i))) rest
    end.
End Detector.

(** ** Measurement vector *)

(** soapy/simulation.py:199, 218-219  aoinit: dataStart of each WFS, given n_measurements of each. *)
Fixpoint data_starts (total : Z) (ns : list nat) : list Z :=
  match ns with
  | [] => []
  | n :: r => total :: data_starts (total + Z.of_nat n) r
  end.
(** config.sim.totalWfsData *)
Definition total_data (ns : list nat) : Z := fold_left (fun t n => t + Z.of_nat n) ns 0.

(** soapy/simulation.py:383-386, 402-404  slopes = zeros(sum), then slopes[s:s+n] = frame(...), s += n.
    A returned vector of length 1 is broadcast by numpy; any other wrong length raises ValueError. *)
Fixpoint fill_slopes (buf : vec) (s : nat) (rs : list (nat * result vec)) : result vec :=
  match rs with
  | [] => Ok buf
  | (n, r) :: rest =>
      let* v := r in
      if (length v =? n)%nat then fill_slopes (splice buf s v) (s + n) rest
      else match v with
           | [x] => fill_slopes (splice buf s (repeat x n)) (s + n) rest
           | _ => Err ValueError
           end
  end.
Definition run_wfs_slopes (rs : list (nat * result vec)) : result vec :=
  fill_slopes (vzero (fold_left (fun t p => (t + fst p)%nat) rs 0%nat)) 0 rs.

(** ** Multi-process mode *)

(** Outcome of a call that may wait for ever. *)
Inductive outcome (A : Type) := Returns (r : result A) | BlocksForever.
Arguments Returns {A} r.
Arguments BlocksForever {A}.

(** The attribute names of a WFS object.  soapy/wfs/wfs.py:213-222: initLGS sets [lgs]; no class in
    soapy/wfs defines [LGS] nor __getattr__. *)
Definition wfs_has_LGS : bool := false.

(** soapy/simulation.py:1207-1229 multiWfs, run in a child process: what it puts into the queue.
    An exception in the child puts nothing. *)
Definition multi_wfs (frame_result : result vec) : option vec :=
  match frame_result with
  | Err _ => None
  | Ok slopes => if wfs_has_LGS then Some slopes else None   (* wfsObj.LGS raises AttributeError *)
  end.

(** soapy/simulation.py:465-478 the parent: queue.get() without timeout for each WFS in turn. *)
Fixpoint mp_collect (buf : vec) (s : nat) (rs : list (nat * option vec)) : outcome vec :=
  match rs with
  | [] => Returns (Ok buf)
  | (n, None) :: _ => BlocksForever
  | (n, Some v) :: rest =>
      if (length v =? n)%nat then mp_collect (splice buf s v) (s + n) rest
      else match v with
           | [x] => mp_collect (splice buf s (repeat x n)) (s + n) rest
           | _ => Returns (Err ValueError)
           end
  end.
Definition run_wfs_MP (rs : list (nat * result vec)) : outcome vec :=
  mp_collect (vzero (fold_left (fun t p => (t + fst p)%nat) rs 0%nat)) 0
             (map (fun p => (fst p, multi_wfs (snd p))) rs).

(** The read-out schedule of one sensor in the floats of Python (Model.Wfs has the same schedule in exact arithmetic). *)
From Coq Require Import ZArith List.
From Verif.Base Require Import Float64.
Import ListNotations.
Open Scope Z_scope.

(** soapy/simulation.py:394-395  int(float(loopTime * (loopIter + 1)) / exposureTime); both times are floats.  None: int() of an
    infinity or NaN, which raises. *)
Definition due64 (loopTime exposureTime : b64) (loopIter : Z) : option Z := int64 (div64 (mul64 loopTime (ofZ64 (loopIter + 1))) exposureTime).
(** soapy/simulation.py:394-400  whether the sensor is read, and wfsFrameNo after the frame *)
Definition sched64 (loopTime exposureTime : b64) (loopIter frameNo : Z) : option (bool * Z) :=
  match due64 loopTime exposureTime loopIter with
  | Some d => Some (if negb (d =? frameNo) then (true, frameNo + 1) else (false, frameNo))
  | None => None
  end.
(** The flags of n frames from loopIter on. *)
Fixpoint flags64 (loopTime exposureTime : b64) (n : nat) (loopIter frameNo : Z) : option (list bool) :=
  match n with
  | O => Some []
  | S m => match sched64 loopTime exposureTime loopIter frameNo with
           | Some (f, no) => match flags64 loopTime exposureTime m (loopIter + 1) no with Some l => Some (f :: l) | None => None end
           | None => None
           end
  end.
(** A run from aoinit (wfsFrameNo = 0 and iters = 0; simulation.py:200, 303). *)
Definition readout64 (loopTime exposureTime : b64) (n : nat) : option (list bool) := flags64 loopTime exposureTime n 0 0.

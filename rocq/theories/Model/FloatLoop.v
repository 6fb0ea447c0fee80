(** The reconstructor's integrator in IEEE binary64 arithmetic (actuator_values is an array of Python floats), with everything from the mirrors to the product of
    control matrix and measurements left open. *)
From Coq Require Import ZArith List.
From Verif.Base Require Import Float64 Py.
From Verif.Model Require Import Delay.
Import ListNotations.

(** A mirror: n_valid_actuators, dmConfig.closed, dmConfig.gain. *)
Record fmirror := mkFm { fm_acts : nat; fm_closed : bool; fm_gain : b64 }.
Definition fzero : b64 := ofZ64 0.

(** soapy/reconstruction.py:421-426  one actuator: a += gain * new, or a = gain * new + (1. - gain) * a *)
Definition fl_law (m : fmirror) (a new : b64) : b64 :=
  if fm_closed m then add64 a (mul64 (fm_gain m) new) else add64 (mul64 (fm_gain m) new) (mul64 (sub64 (ofZ64 1) (fm_gain m)) a).
(** soapy/reconstruction.py:409-428  apply_gain; [new] has as many elements as [a] (no broadcasting) *)
Fixpoint fl_apply_gain (ms : list fmirror) (a new : list b64) : list b64 :=
  match ms with
  | [] => a
  | m :: r => map (fun p => fl_law m (fst p) (snd p)) (combine (firstn (fm_acts m) a) (firstn (fm_acts m) new))
              ++ fl_apply_gain r (skipn (fm_acts m) a) (skipn (fm_acts m) new)
  end.
(** soapy/confParse.py  totalActs *)
Definition fl_total (ms : list fmirror) : nat := fold_right (fun m n => (fm_acts m + n)%nat) 0%nat ms.

(** soapy/simulation.py:1248  value*0.0 *)
Definition fl_zero_like (v : list b64) : list b64 := map (fun x => mul64 x fzero) v.

(** actuator_values, the delay buffer, and control_matrix.T.dot(slopes) *)
Record fstate := mkFs { fs_cmds : list b64; fs_buf : list (list b64); fs_new : list b64 }.
(** soapy/simulation.py:532-571 with soapy/reconstruction.py:431-442.  [respond]: from the commands on the mirrors to the product of the control matrix and the
    slopes measured with them in this frame (mirror surfaces, lines of sight, sensors, turbulence, noise and the product, in whatever precision). *)
Definition fl_frame (ms : list fmirror) (count : Z) (s : fstate) (respond : list b64 -> list b64) : result (fstate * list b64) :=
  let a := fl_apply_gain ms (fs_cmds s) (fs_new s) in
  let '(b, r) := delay fl_zero_like (fs_buf s) a count in
  let* c := r in
  Ok (mkFs a b (respond c), c).
(** soapy/simulation.py:596-604; returns the commands on the mirrors in each frame *)
Fixpoint fl_run (ms : list fmirror) (count : Z) (s : fstate) (responds : list (list b64 -> list b64)) : result (fstate * list (list b64)) :=
  match responds with
  | [] => Ok (s, [])
  | f :: r => let* x := fl_frame ms count s f in let* y := fl_run ms count (fst x) r in Ok (fst y, snd x :: snd y)
  end.
(** soapy/reconstruction.py:434-435 (zeros), soapy/simulation.py:296-303: the slopes are zero before the first frame, and so is their product with the control matrix *)
Definition fl_init (ms : list fmirror) : fstate := mkFs (repeat fzero (fl_total ms)) [] (repeat fzero (fl_total ms)).

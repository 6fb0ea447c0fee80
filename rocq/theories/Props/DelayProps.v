(** Property theorems C01-C04: the loop delay. *)
From Verif.Base Require Import Py.
From Verif.Model Require Import Delay.
From Verif.Spec Require Import DelaySpec.
From Verif.Proofs Require Import DelayProofs.

(** C01: with a constant loopDelay of d frames the applied commands are the controller's output
    delayed by exactly d frames, zeros before. *)
Theorem C01_constant_delay_exact :
  forall (V : Type) (zero_like : V -> V) (d : nat) (xs : list V),
    delayed_by zero_like d xs
      (run_delay zero_like new_buffer (map (fun x => (x, Z.of_nat d)) xs)).
Proof. exact @run_delay_const. Qed.
Print Assumptions C01_constant_delay_exact.

Example C01_instance :
  run_delay (fun _ => 0) new_buffer (map (fun x => (x, 2)) [11; 12; 13; 14])
  = [Ok 0; Ok 0; Ok 11; Ok 12].
Proof. reflexivity. Qed.

(** C02: a setting that changes between frames. *)
Theorem C02_changing_delay :
  forall (V : Type) (zero_like : V -> V) (calls : list (V * Z)),
    Forall (fun p => 0 <= snd p) calls ->
    delay_history zero_like calls (run_delay zero_like new_buffer calls).
Proof. exact @run_delay_history. Qed.
Print Assumptions C02_changing_delay.

(** C02, order: of two deliveries the later one delivers the newer item. *)
Theorem C02_delivery_in_order :
  forall (V : Type) (calls : list (V * Z)) n1 n2 v1 c1 v2 c2,
    (n1 < n2)%nat ->
    nth_error calls n1 = Some (v1, c1) -> nth_error calls n2 = Some (v2, c2) ->
    0 <= c1 -> 0 <= c2 ->
    available calls n1 (Z.to_nat c1) -> available calls n2 (Z.to_nat c2) ->
    (n1 - Z.to_nat c1 < n2 - Z.to_nat c2)%nat.
Proof. exact @available_order. Qed.
Print Assumptions C02_delivery_in_order.

(** C02, the excluded case: a negative setting raises IndexError. *)
Theorem C02_negative_setting_raises :
  forall (V : Type) (zero_like : V -> V) (b : list V) v c,
    c < 0 -> delay zero_like b v c = ([], Err IndexError).
Proof. exact @delay_negative. Qed.
Print Assumptions C02_negative_setting_raises.

(** Hypotheses are satisfiable; the second and fifth calls find nothing that old. *)
Example C02_instance :
  let calls := [(11, 0); (12, 2); (13, 1); (14, 1); (15, 3); (16, 2)] in
  Forall (fun p => 0 <= snd p) calls /\
  run_delay (fun _ => 0) new_buffer calls = [Ok 11; Ok 0; Ok 12; Ok 13; Ok 0; Ok 14].
Proof. split; [repeat constructor; simpl; lia | reflexivity]. Qed.

(** C03: with object identity: whatever mixture of frames and resets is run, what is applied is what
    was enqueued (the history specification of C02 on the values at the time they were enqueued). *)
Theorem C03_delivered_contents :
  forall (V : Type) (zero_like : V -> V) (dflt z : V) (ops : list (lop V)) (calls : list (V * Z)),
    frames_of ops = Some calls ->
    Forall (fun p => 0 <= snd p) calls ->
    delay_history zero_like calls (lrun zero_like dflt (linit z) ops).
Proof. exact @history_heap. Qed.
Print Assumptions C03_delivered_contents.

(** C03: in every reachable state no operation modifies an array waiting in the buffer. *)
Theorem C03_waiting_arrays_unmodified :
  forall (V : Type) (zero_like : V -> V) (dflt z : V) (ops : list (lop V)) s o s' v,
    lexec zero_like dflt (linit z) ops = Some s ->
    lstep zero_like dflt s o = Ok (s', v) ->
    forall l, In l (buf s) -> deref (hp s') l dflt = deref (hp s) l dflt.
Proof. exact @waiting_unmodified. Qed.
Print Assumptions C03_waiting_arrays_unmodified.

Example C03_instance :
  let ops := [LFrame 7 2; LFrame 8 2; LReset; LFrame 9 2] in
  frames_of ops = Some [(7, 2); (8, 2); (9, 2)] /\
  lrun (fun _ => 0) 0 (linit 0) ops = [Ok 0; Ok 0; Ok 7].
Proof. split; reflexivity. Qed.

(** C04 is FALSE of the code: reset_loop does not clear the delay buffer.  For every delay d >= 1 and
    every earlier run of at least d frames, the first d command vectors applied after the reset are
    the last d ones of the run before the reset. *)
Theorem C04_reset_forgets_refuted :
  forall (V : Type) (zero_like : V -> V) (dflt z : V) (d : nat) (xs ys : list V) (k : nat) (x : V),
    (k < d)%nat -> (k < length ys)%nat -> (d <= length xs)%nat ->
    nth_error xs (length xs - d + k) = Some x ->
    nth_error (lrun zero_like dflt (linit z)
       (map (fun x => LFrame x (Z.of_nat d)) xs ++ [LReset] ++ map (fun x => LFrame x (Z.of_nat d)) ys))
       (length xs + k) = Some (Ok x).
Proof. exact @stale_after_reset. Qed.
Print Assumptions C04_reset_forgets_refuted.

(** A concrete pair of histories that differ only before the reset but give different commands
    after it. *)
Theorem C04_history_leaks_refuted :
  exists h1 h2 after : list (lop Z),
    frames_of h1 <> None /\ frames_of h2 <> None /\ length h1 = length h2 /\
    skipn (length h1) (lrun (fun _ => 0) 0 (linit 0) (h1 ++ [LReset] ++ after)) <>
    skipn (length h2) (lrun (fun _ => 0) 0 (linit 0) (h2 ++ [LReset] ++ after)).
Proof.
  exists [LFrame 5 1], [LFrame 6 1], [LFrame 0 1].
  repeat split; try discriminate; vm_compute; congruence.
Qed.
Print Assumptions C04_history_leaks_refuted.

(** C04, what does hold: with loopDelay 0 (the default) nothing of the old run is seen.
    Missing for the full property: any positive delay (refuted above). *)
Theorem C04_reset_forgets_partial :
  forall (V : Type) (zero_like : V -> V) (dflt z : V) (xs ys : list V),
    lrun zero_like dflt (linit z)
      (map (fun x => LFrame x 0) xs ++ [LReset] ++ map (fun x => LFrame x 0) ys)
    = map (@Ok V) (xs ++ ys).
Proof. exact @reset_transparent_delay0. Qed.
Print Assumptions C04_reset_forgets_partial.
Example C04_instance :
  lrun (fun _ => 0) 0 (linit 0) (map (fun x => LFrame x 2) [11; 12; 13] ++ [LReset] ++ map (fun x => LFrame x 2) [21; 22; 23])
  = [Ok 0; Ok 0; Ok 11; Ok 12; Ok 13; Ok 21] /\
  lrun (fun _ => 0) 0 (linit 0) (map (fun x => LFrame x 0) [11; 12; 13] ++ [LReset] ++ map (fun x => LFrame x 0) [21; 22; 23])
  = [Ok 11; Ok 12; Ok 13; Ok 21; Ok 22; Ok 23].
Proof. split; vm_compute; reflexivity. Qed.

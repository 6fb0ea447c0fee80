(** Property theorems C101-C104: the closed loop. *)
From Verif.Base Require Import Vec.
From Verif.Model Require Import Recon Loop.
From Verif.Spec Require Import ReconSpec LoopSpec.
From Verif.Proofs Require Import LoopProofs LoopConv.

(** A system used in the instances: mirror 0 (closed loop, gain 1/2) has three actuators of which the
    second does nothing, mirror 1 (open loop, gain 1/4) has one; two WFSs of 2 and 1 measurements. *)
Definition lx_dms : list dm :=
  [ new_dm [[qz 2; qz 0; qz 1]; [qz 0; qz 0; qz 0]; [qz 0; qz 3; qz 1]] true (qfrac 1 2);
    new_dm [[qz 0; qz 0; qz 2]] false (qfrac 1 4) ].
Definition lx_sum (ph : list vec) : vec := fold_right vadd (vzero 3) ph.
Definition lx_wfss : list (list vec -> vec) := [ (fun ph => firstn 2 (lx_sum ph)); (fun ph => skipn 2 (lx_sum ph)) ].
Definition lx_fit (k : nat) (v : vec) : vec := if (length v =? 3)%nat then v else vzero 3.
Definition lx_cal := make_imat lx_fit 3 lx_wfss lx_dms.
Definition lx_imat : mat := [[qz (-2); qz 0; qz (-1)]; [qz 0; qz (-3); qz (-1)]; [qz 0; qz 0; qz (-2)]].
Definition lx_ctrl : mat := [[qfrac (-1) 2; qz 0; qz 0]; [qz 0; qfrac (-1) 3; qz 0]; [qfrac 1 4; qfrac 1 6; qfrac (-1) 2]].

Lemma lx_stack s : stack_ok 2 3 s -> exists a b c d e f, s = [[a; b; c]; [d; e; f]].
Proof.
  intros [HL HF]. destruct s as [|u [|v [|w s]]]; try discriminate. inversion HF as [|? ? H1 HF']; subst. inversion HF' as [|? ? H2 _]; subst.
  destruct u as [|a [|b [|c [|]]]]; try discriminate. destruct v as [|d [|e [|f [|]]]]; try discriminate. eauto 10.
Qed.

Lemma lx_linear : Forall (linear_sensor 2 3) lx_wfss.
Proof.
  repeat constructor.
  - exists 2%nat. intros s Hs. destruct (lx_stack s Hs) as (a & b & c & d & e & f & ->). reflexivity.
  - intros a s t Hs Ht. destruct (lx_stack s Hs) as (a1 & b1 & c1 & d1 & e1 & f1 & ->).
    destruct (lx_stack t Ht) as (a2 & b2 & c2 & d2 & e2 & f2 & ->).
    unfold stack_axpy, axpy, lx_sum, vadd, vscale, vzero. cbn [combine map vmap2 fst snd fold_right repeat firstn skipn].
    repeat (apply f_equal2; [ring|]). reflexivity.
  - exists 1%nat. intros s Hs. destruct (lx_stack s Hs) as (a & b & c & d & e & f & ->). reflexivity.
  - intros a s t Hs Ht. destruct (lx_stack s Hs) as (a1 & b1 & c1 & d1 & e1 & f1 & ->).
    destruct (lx_stack t Ht) as (a2 & b2 & c2 & d2 & e2 & f2 & ->).
    unfold stack_axpy, axpy, lx_sum, vadd, vscale, vzero. cbn [combine map vmap2 fst snd fold_right repeat firstn skipn].
    repeat (apply f_equal2; [ring|]). reflexivity.
Qed.

(** The instance satisfies the hypothesis of all theorems below. *)
Example lx_system : calibrated_system lx_fit 3 3 3 lx_wfss lx_dms (fst lx_cal) lx_imat lx_ctrl.
Proof.
  constructor.
  - repeat constructor.
  - qc_compute; reflexivity.
  - repeat constructor; [exists 1%nat|exists 0%nat]; qc_compute; reflexivity.
  - intros k. unfold lx_fit. split; [|split].
    + intros v Hv. rewrite Hv. exact Hv.
    + intros n. destruct (length (vzero n) =? 3)%nat eqn:E; auto.
      apply Nat.eqb_eq in E. rewrite vzero_length in E. subst. reflexivity.
    + intros a u v Hu Hv. rewrite axpy_length by congruence. rewrite Hu, Hv. reflexivity.
  - exact lx_linear.
  - intros s Hs. destruct (lx_stack s Hs) as (a & b & c & d & e & f & ->). reflexivity.
  - reflexivity.
  - intros [|[|[|x]]] row Hx; simpl in Hx; try (destruct x; discriminate); inversion Hx; qc_compute; reflexivity.
Qed.
Example lx_belongs : exists d0 d1, belongs (fst lx_cal) 1 d0 /\ closed d0 = true /\ gain d0 = qfrac 1 2 /\
  belongs (fst lx_cal) 2 d1 /\ closed d1 = false /\ gain d1 = qfrac 1 4.
Proof.
  eexists _, _. split; [exists 0%nat, 0%nat, 2%nat; split; [reflexivity|]; split; [vm_compute; reflexivity|]; split; [vm_compute; reflexivity|lia]|].
  split; [vm_compute; reflexivity|]. split; [qc_compute; reflexivity|].
  split; [exists 1%nat, 2%nat, 1%nat; split; [reflexivity|]; split; [vm_compute; reflexivity|]; split; [vm_compute; reflexivity|lia]|].
  split; [vm_compute; reflexivity|qc_compute; reflexivity].
Qed.

(** C101: a calibrated system with linear sensors runs without exception for any turbulence and any loop
    delay; every actuator is controlled independently: its reconstructed command [u] integrates (closed
    loop) what is left of the command that the turbulence asks for after the command applied in the same
    frame, or filters the command the turbulence asks for (open loop), and the command applied is the
    reconstructed one of [loop_delay] frames earlier (zero before).  The science cameras get the surfaces
    of all the mirrors for the applied commands. *)
Theorem C101_loop_law :
  forall (fit : nat -> vec -> vec) (npix npx nmeas : nat) (wfss : list (list vec -> vec)) (ds0 ds : list dm) (imat ctrl : mat),
    calibrated_system fit npix npx nmeas wfss ds0 ds imat ctrl ->
    forall (loop_delay : nat) (bases : list vec), Forall (fun b => length b = nmeas) bases ->
    exists outs, system_run fit npx nmeas wfss ds ctrl loop_delay bases = Ok outs /\ length outs = length bases /\
      (forall x d, belongs ds x d -> exists u : nat -> Qc, u 0%nat = 0%Qc /\
         forall n base, nth_error bases n = Some base ->
           command outs n x = (if (n <? loop_delay)%nat then 0%Qc else u (n - loop_delay)%nat) /\
           u (S n) = (if closed d then u n + gain d * (elem (mvm ctrl base) x - command outs n x)
                      else gain d * elem (mvm ctrl base) x + (1 - gain d) * u n)%Qc) /\
      (forall o, In o outs -> run_dms fit ds (applied o) = Ok (science o)).
Proof. exact system_law. Qed.
Print Assumptions C101_loop_law.

Example C101_instance :
  match system_run lx_fit 3 3 lx_wfss (fst lx_cal) lx_ctrl 1 [[qz 4; qz 3; qz 2]; [qz 4; qz 3; qz 2]; [qz 4; qz 0; qz 0]; [qz 0; qz 0; qz 0]] with
  | Ok outs => map applied outs = [[qz 0; qz 0; qz 0]; [qz 0; qz 0; qz 0]; [qz (-1); qfrac (-1) 2; qfrac 1 8]; [qz (-2); qz (-1); qfrac 7 32]]
               /\ map science outs = [ [[qz 0; qz 0; qz 0]; [qz 0; qz 0; qz 0]]; [[qz 0; qz 0; qz 0]; [qz 0; qz 0; qz 0]];
                                       [[qz (-2); qfrac (-3) 2; qfrac (-3) 2]; [qz 0; qz 0; qfrac 1 4]];
                                       [[qz (-4); qz (-3); qz (-3)]; [qz 0; qz 0; qfrac 7 16]] ]
  | Err _ => False
  end.
Proof. qc_compute; repeat constructor. Qed.

(** C102: without loop delay and for static turbulence asking for the command t, the command applied in
    frame n (the first is 0) is (1 - (1-g)^n) t... *)
Theorem C102_static_exact :
  forall (fit : nat -> vec -> vec) (npix npx nmeas : nat) (wfss : list (list vec -> vec)) (ds0 ds : list dm) (imat ctrl : mat),
    calibrated_system fit npix npx nmeas wfss ds0 ds imat ctrl ->
    forall (base : vec) (N : nat) (outs : list loop_out) (x : nat) (d : dm),
    length base = nmeas -> system_run fit npx nmeas wfss ds ctrl 0 (repeat base N) = Ok outs -> belongs ds x d ->
    forall n, (n < N)%nat -> command outs n x = ((1 - (1 - gain d) ^ n) * elem (mvm ctrl base) x)%Qc.
Proof. exact static_zero. Qed.
Print Assumptions C102_static_exact.

(** ... so it comes and stays as close to t as one likes for a gain between 0 and 2... *)
Theorem C102_converges :
  forall (fit : nat -> vec -> vec) (npix npx nmeas : nat) (wfss : list (list vec -> vec)) (ds0 ds : list dm) (imat ctrl : mat),
    calibrated_system fit npix npx nmeas wfss ds0 ds imat ctrl ->
    forall (base : vec) (x : nat) (d : dm) (eps : Qc),
    length base = nmeas -> belongs ds x d -> (0 < gain d)%Qc -> (gain d < 1 + 1)%Qc -> (0 < eps)%Qc ->
    exists N0, forall N outs n,
      system_run fit npx nmeas wfss ds ctrl 0 (repeat base N) = Ok outs -> (N0 <= n < N)%nat ->
      (qc_abs (elem (mvm ctrl base) x - command outs n x) <= eps)%Qc.
Proof. exact static_converges. Qed.
Print Assumptions C102_converges.

(** ... and for any other gain the error is never below its initial value. *)
Theorem C102_diverges :
  forall (fit : nat -> vec -> vec) (npix npx nmeas : nat) (wfss : list (list vec -> vec)) (ds0 ds : list dm) (imat ctrl : mat),
    calibrated_system fit npix npx nmeas wfss ds0 ds imat ctrl ->
    forall (base : vec) (x : nat) (d : dm),
    length base = nmeas -> belongs ds x d -> (gain d <= 0)%Qc \/ (1 + 1 <= gain d)%Qc ->
    forall N outs n, system_run fit npx nmeas wfss ds ctrl 0 (repeat base N) = Ok outs -> (n < N)%nat ->
      (qc_abs (elem (mvm ctrl base) x) <= qc_abs (elem (mvm ctrl base) x - command outs n x))%Qc.
Proof. exact static_diverges. Qed.
Print Assumptions C102_diverges.

Example C102_instance :
  match system_run lx_fit 3 3 lx_wfss (fst lx_cal) lx_ctrl 0 (repeat [qz 4; qz 3; qz 2] 4) with
  | Ok outs => map (fun n => command outs n 1) (seq 0 4) = [qz 0; qfrac (-1) 2; qfrac (-3) 4; qfrac (-7) 8] /\
               elem (mvm lx_ctrl [qz 4; qz 3; qz 2]) 1 = qz (-1) /\
               map (fun n => command outs n 2) (seq 0 4) = [qz 0; qfrac 1 8; qfrac 7 32; qfrac 37 128]
  | Err _ => False
  end.
Proof. qc_compute; repeat constructor. Qed.

(** C103: with a loop delay of D frames a closed-loop mirror still converges for every gain up to 1 with
    gain * D < 1... *)
Theorem C103_delay_converges :
  forall (fit : nat -> vec -> vec) (npix npx nmeas : nat) (wfss : list (list vec -> vec)) (ds0 ds : list dm) (imat ctrl : mat),
    calibrated_system fit npix npx nmeas wfss ds0 ds imat ctrl ->
    forall (loop_delay : nat) (base : vec) (x : nat) (d : dm) (eps : Qc),
    length base = nmeas -> belongs ds x d -> closed d = true ->
    (0 < gain d)%Qc -> (gain d <= 1)%Qc -> (gain d * qz (Z.of_nat loop_delay) < 1)%Qc -> (0 < eps)%Qc ->
    exists N0, forall N outs n,
      system_run fit npx nmeas wfss ds ctrl loop_delay (repeat base N) = Ok outs -> (N0 <= n < N)%nat ->
      (qc_abs (elem (mvm ctrl base) x - command outs n x) <= eps)%Qc.
Proof. exact delayed_converges. Qed.
Print Assumptions C103_delay_converges.

(** ... with one frame of delay that is the exact limit: from gain 1 on, the squared error of one of any
    two successive frames is at least a third of its initial value, for ever... *)
Theorem C103_one_frame_limit :
  forall (fit : nat -> vec -> vec) (npix npx nmeas : nat) (wfss : list (list vec -> vec)) (ds0 ds : list dm) (imat ctrl : mat),
    calibrated_system fit npix npx nmeas wfss ds0 ds imat ctrl ->
    forall (base : vec) (x : nat) (d : dm),
    length base = nmeas -> belongs ds x d -> closed d = true -> (1 <= gain d)%Qc ->
    forall N outs n, system_run fit npx nmeas wfss ds ctrl 1 (repeat base N) = Ok outs -> (S n < N)%nat ->
      let t := elem (mvm ctrl base) x in let e k := (t - command outs k x)%Qc in
      (t * t <= (1 + 1 + 1) * qc_max (e n * e n) (e (S n) * e (S n)))%Qc.
Proof. exact delayed_one_never_settles. Qed.
Print Assumptions C103_one_frame_limit.

(** ... and an open-loop mirror is only late: with any delay it follows the same law and converges for
    gains between 0 and 2. *)
Theorem C103_open_only_late :
  forall (fit : nat -> vec -> vec) (npix npx nmeas : nat) (wfss : list (list vec -> vec)) (ds0 ds : list dm) (imat ctrl : mat),
    calibrated_system fit npix npx nmeas wfss ds0 ds imat ctrl ->
    forall (loop_delay : nat) (base : vec) (N : nat) (outs : list loop_out) (x : nat) (d : dm),
    length base = nmeas -> system_run fit npx nmeas wfss ds ctrl loop_delay (repeat base N) = Ok outs ->
    belongs ds x d -> closed d = false ->
    forall n, (n < N)%nat -> command outs n x = ((1 - (1 - gain d) ^ (n - loop_delay)) * elem (mvm ctrl base) x)%Qc.
Proof. exact static_open. Qed.
Print Assumptions C103_open_only_late.

(** The same system with gain 1 and one frame of delay: the error of actuator 1 repeats with period 6. *)
Definition ly_dms : list dm := map (fun d => mkDm (n_acts d) (shapes d) (valid d) (n_valid d) (closed d) 1%Qc) (fst lx_cal).
Example C103_instance :
  match system_run lx_fit 3 3 lx_wfss ly_dms lx_ctrl 1 (repeat [qz 4; qz 3; qz 2] 9) with
  | Ok outs => map (fun n => (qz (-1) - command outs n 1)%Qc) (seq 0 9)
               = [qz (-1); qz (-1); qz 0; qz 1; qz 1; qz 0; qz (-1); qz (-1); qz 0]
  | Err _ => False
  end.
Proof. qc_compute; repeat constructor. Qed.

(** C104: turbulence that changes the wanted command by at most v per frame and noise worth at most eta
    of command: without delay and for gains up to 1 the error of a closed-loop actuator is at most
    (1-g)^n times the first wanted command, plus the lag v/g, plus eta. *)
Theorem C104_tracking :
  forall (fit : nat -> vec -> vec) (npix npx nmeas : nat) (wfss : list (list vec -> vec)) (ds0 ds : list dm) (imat ctrl : mat),
    calibrated_system fit npix npx nmeas wfss ds0 ds imat ctrl ->
    forall (base0 : vec) (turbulence noise : list vec) (x : nat) (d : dm) (v eta : Qc) (outs : list loop_out),
    Forall (fun b => length b = nmeas) turbulence -> Forall (fun b => length b = nmeas) noise -> length noise = length turbulence ->
    nth_error turbulence 0 = Some base0 ->
    belongs ds x d -> closed d = true -> (0 < gain d)%Qc -> (gain d <= 1)%Qc ->
    (forall n s s', nth_error turbulence n = Some s -> nth_error turbulence (S n) = Some s' ->
       (qc_abs (elem (mvm ctrl s') x - elem (mvm ctrl s) x) <= v)%Qc) ->
    (forall n e, nth_error noise n = Some e -> (qc_abs (elem (mvm ctrl e) x) <= eta)%Qc) ->
    (0 <= v)%Qc -> (0 <= eta)%Qc ->
    system_run fit npx nmeas wfss ds ctrl 0 (map (fun p => vadd (fst p) (snd p)) (combine turbulence noise)) = Ok outs ->
    forall n s, nth_error turbulence n = Some s ->
      (qc_abs (elem (mvm ctrl s) x - command outs n x)
       <= (1 - gain d) ^ n * qc_abs (elem (mvm ctrl base0) x) + (v / gain d + eta))%Qc.
Proof. intros. eapply (tracks _ _ _ _ _ _ _ _ _ H 0 base0 turbulence noise x d v eta outs); eauto. Qed.
Print Assumptions C104_tracking.

(** A ramp: actuator 1 is asked for 1, 2, 3, 4; the bound is 1/8 + 2 in frame 3, the error 15/8. *)
Example C104_instance :
  let turb := [[qz 0; qz (-3); qz 0]; [qz 0; qz (-6); qz 0]; [qz 0; qz (-9); qz 0]; [qz 0; qz (-12); qz 0]] in
  map (fun s => elem (mvm lx_ctrl s) 1) turb = [qz 1; qz 2; qz 3; qz 4] /\
  match system_run lx_fit 3 3 lx_wfss (fst lx_cal) lx_ctrl 0 turb with
  | Ok outs => (qz 4 - command outs 3 1)%Qc = qfrac 15 8
  | Err _ => False
  end.
Proof. qc_compute; repeat constructor. Qed.

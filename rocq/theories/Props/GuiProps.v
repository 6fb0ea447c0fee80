(** Claims C151-C155: the GUI. *)
From Coq Require Import List Arith Bool Relations Lia.
Import ListNotations.
From Verif Require Import Model.Gui Spec.GuiSpec Proofs.GuiProofs.

(** C151.  With at most five threads running frames, whatever the schedule: the queue of ten holds at most two plots for
    each thread, so it is never found full; the mutex is held exactly by the thread in its critical section, and is never unlocked by another;
    and an update of the GUI can always come to its end. *)
Theorem C151_never_full : forall n s, n <= 5 -> greach n s -> length (g_queue s) <= 2 * n /\ ~ overflowed s /\ g_bad s = false.
Proof. exact never_full. Qed.
Print Assumptions C151_never_full.
Theorem C151_exclusion : forall n s who, n <= 5 -> greach n s -> (inside who s <-> g_lock s = Some who).
Proof. exact lock_is. Qed.
Print Assumptions C151_exclusion.
Theorem C151_never_stuck : forall n s, n <= 5 -> greach n s -> exists s', gsteps s s' /\ g_gui s' = GOut.
Proof. exact can_finish. Qed.
Print Assumptions C151_never_stuck.
(** Five is the most there can be: five threads can fill the queue, and with six a put can find it full, and then the mutex is unlocked twice. *)
Theorem C151_five_is_most : (exists s, greach 5 s /\ length (g_queue s) = 10) /\ (exists s, greach 6 s /\ g_bad s = true).
Proof. exact (conj five_full six_overflow). Qed.
Print Assumptions C151_five_is_most.
Example C151_instance : exists s, greach 2 s /\ g_queue s = [(1, 1)] /\ g_lock s = Some ByGui /\ inside ByGui s.
Proof.
  destruct (grun [AGui; ASim 0; ASim 1; ASim 1; ASim 1; ASim 1; AGui] (g_init 2)) as [s|] eqn:E; [|vm_compute in E; discriminate].
  exists s. split; [eapply grun_reach; eauto|]. vm_compute in E. injection E as <-. cbn. repeat split; auto. eexists. left. reflexivity.
Qed.

(** C152.  With one thread running frames, every plot drawn is of a later frame than the one before.  Not so when a frame is
    asked for by hand while the loop runs. *)
Theorem C152_in_order_partial : forall s, greach 1 s -> decreasing (g_drawn s) /\ (forall f, In f (g_drawn s) -> f < g_frames s).
Proof. exact drawn_in_order. Qed.
Print Assumptions C152_in_order_partial.
Theorem C152_refuted : exists s, greach 2 s /\ ~ decreasing (g_drawn s).
Proof. exact two_out_of_order. Qed.
Print Assumptions C152_refuted.
Definition twice : list act := [AGui; ASim 0; ASim 0; ASim 0; ASim 0; ASim 0; AGui; AGui; AGui; AGui; AGui; AGui; ASim 0; ASim 0; ASim 0; ASim 0; ASim 0; AGui; AGui; AGui; AGui; AGui].
Example C152_instance : exists s, greach 1 s /\ g_drawn s = [1; 0] /\ g_frames s = 2.
Proof.
  destruct (grun twice (g_init 1)) as [s|] eqn:E; [|vm_compute in E; discriminate].
  exists s. split; [eapply grun_reach; eauto|]. vm_compute in E. injection E as <-. auto.
Qed.

(** C153.  A request for a plot is answered by the next frame or a later one, provided the loop was not delivering a plot when the request was
    made.  In general not: a request made just before the loop clears the flag is lost. *)
Theorem C153_next_frame_partial : forall s s', greach 1 s -> g_waiting s = true -> g_sims s = [SOut] -> gsteps s s' -> g_frames s < g_frames s' ->
  exists f, g_frames s <= f /\ coming f s'.
Proof. exact next_frame. Qed.
Print Assumptions C153_next_frame_partial.
Theorem C153_refuted : exists s s', greach 1 s /\ g_gui s = GAsked /\ g_waiting s = true /\ gsteps s s' /\ g_frames s < g_frames s' /\
  g_sims s' = [SOut] /\ ~ (exists f, g_frames s <= f /\ coming f s').
Proof. exact request_lost. Qed.
Print Assumptions C153_refuted.
Example C153_instance : exists s s', greach 1 s /\ g_waiting s = true /\ g_sims s = [SOut] /\ gsteps s s' /\ g_frames s < g_frames s' /\ g_drawn s' = [0].
Proof.
  destruct (grun [AGui] (g_init 1)) as [s|] eqn:E; [|vm_compute in E; discriminate].
  destruct (grun [ASim 0; ASim 0; ASim 0; ASim 0; ASim 0; AGui; AGui; AGui; AGui; AGui] s) as [s'|] eqn:E'; [|vm_compute in E; injection E as <-; vm_compute in E'; discriminate].
  exists s, s'. split; [eapply grun_reach; eauto|]. assert (T : gsteps s s') by (eapply grun_steps; eauto).
  vm_compute in E. injection E as <-. vm_compute in E'. injection E' as <-. cbn in *. repeat split; auto.
Qed.

(** C154.  After the stop button no loop starts another frame: when every loop thread has already begun, the frames finished and those under way never
    exceed what they were.  A stop pressed before the loop thread has begun is lost, and all the frames are run. *)
Theorem C154_stop_partial : forall nIters s s1 s2, (forall p, In p (b_loops s) -> p <> LNew) -> bstep nIters BStop s s1 -> bpath nIters only_loops s1 s2 ->
  b_iters s2 + in_frame s2 <= b_iters s + in_frame s.
Proof. exact stop_works. Qed.
Print Assumptions C154_stop_partial.
Theorem C154_refuted : forall nIters, exists s s1 s2, bpath nIters anything b_init0 s /\ bstep nIters BStop s s1 /\ bpath nIters only_loops s1 s2 /\
  in_frame s = 0 /\ b_iters s = 0 /\ b_iters s2 = nIters.
Proof. exact stop_lost. Qed.
Print Assumptions C154_refuted.
Example C154_instance : exists s s1 s2, bpath 3 anything b_init0 s /\ (forall p, In p (b_loops s) -> p <> LNew) /\ bstep 3 BStop s s1 /\ bpath 3 only_loops s1 s2
  /\ b_iters s = 0 /\ in_frame s = 1 /\ b_iters s2 = 1 /\ b_loops s2 = [LEnd].
Proof.
  exists (mkB true 0 [LFrame] []), (mkB false 0 [LFrame] []), (mkB false 1 [LEnd] []). repeat split.
  - econstructor; [apply b_run|exact I|]. cbn. econstructor; [apply (l_go 3 (mkB false 0 [LNew] []) 0); reflexivity|exact I|].
    econstructor; [apply (l_frame 3 (mkB true 0 [LTest] []) 0); cbn; auto; lia|exact I|]. constructor.
  - cbn. intros p [<-|[]]. discriminate.
  - apply (b_stop 3 (mkB true 0 [LFrame] [])).
  - econstructor; [apply (l_framed 3 (mkB false 0 [LFrame] []) 0); reflexivity|exact I|].
    econstructor; [apply (l_break 3 (mkB false 1 [LTest] []) 0); auto|exact I|].
    econstructor; [apply (l_stop 3 (mkB false 1 [LStop] []) 0); reflexivity|exact I|]. constructor.
Qed.

(** C155.  At most one thing at a time runs on the simulation, if run and init are pressed only when everything has ended.  The GUI does
    not see to that: two loops can be in a frame at once, and the simulation can be rebuilt during a frame. *)
Theorem C155_alone_partial : forall nIters s, bpath nIters patient b_init0 s -> in_frame s + building s <= 1.
Proof. exact patient_alone. Qed.
Print Assumptions C155_alone_partial.
Theorem C155_two_loops_refuted : forall nIters, 0 < nIters -> exists s, bpath nIters anything b_init0 s /\ in_frame s = 2.
Proof. exact two_loops. Qed.
Print Assumptions C155_two_loops_refuted.
Theorem C155_init_refuted : forall nIters, 0 < nIters -> exists s, bpath nIters anything b_init0 s /\ in_frame s = 1 /\ building s = 1.
Proof. exact init_in_frame. Qed.
Print Assumptions C155_init_refuted.
Example C155_instance : exists s, bpath 3 patient b_init0 s /\ b_inits s = [IEnd] /\ in_frame s = 1.
Proof.
  exists (mkB true 0 [LFrame] [IEnd]). repeat split.
  econstructor; [apply b_init|split; intros p []|]. cbn.
  econstructor; [apply (i_build 3 (mkB false 0 [] [INew]) 0); reflexivity|exact I|]. cbn.
  econstructor; [apply (i_end 3 (mkB false 0 [] [IBuild]) 0); reflexivity|exact I|]. cbn.
  econstructor; [apply b_run|split; cbn; [intros p []|intros p [<-|[]]; reflexivity]|]. cbn.
  econstructor; [apply (l_go 3 (mkB false 0 [LNew] [IEnd]) 0); reflexivity|exact I|]. cbn.
  econstructor; [apply (l_frame 3 (mkB true 0 [LTest] [IEnd]) 0); cbn; auto; lia|exact I|]. constructor.
Qed.

(** C158.  The loop never runs more frames than configured, if run and init are pressed only when everything has ended.  With run pressed twice it can run
    one more, whose record overwrites that of the first. *)
Theorem C158_frames_partial : forall nIters s, bpath nIters patient b_init0 s -> b_iters s + in_frame s <= nIters.
Proof. exact patient_count. Qed.
Print Assumptions C158_frames_partial.
Theorem C158_refuted : forall nIters, 0 < nIters -> exists s, bpath nIters anything b_init0 s /\ b_iters s = S nIters.
Proof. exact too_many. Qed.
Print Assumptions C158_refuted.
Example C158_instance : exists s, bpath 1 patient b_init0 s /\ b_iters s = 1 /\ b_loops s = [LEnd; LTest].
Proof.
  exists (mkB true 1 [LEnd; LTest] []). split; auto.
  assert (E : forall s, s = mkB false 0 [] [] \/ s = mkB false 1 [LEnd] [] -> patient BRun s). { intros s [-> | ->]; split; cbn; intros p H; repeat (destruct H as [H|H]; [congruence|]); destruct H. }
  econstructor; [apply b_run|apply E; auto|]. cbn. econstructor; [apply (l_go 1 (mkB false 0 [LNew] []) 0); reflexivity|exact I|].
  econstructor; [apply (l_frame 1 (mkB true 0 [LTest] []) 0); cbn; auto; lia|exact I|].
  econstructor; [apply (l_framed 1 (mkB true 0 [LFrame] []) 0); reflexivity|exact I|].
  econstructor; [apply (l_break 1 (mkB true 1 [LTest] []) 0); cbn; auto; lia|exact I|].
  econstructor; [apply (l_stop 1 (mkB true 1 [LStop] []) 0); reflexivity|exact I|]. cbn.
  econstructor; [apply (b_run 1 (mkB false 1 [LEnd] []))|apply E; auto|]. cbn.
  econstructor; [apply (l_go 1 (mkB false 1 [LEnd; LNew] []) 1); reflexivity|exact I|]. constructor.
Qed.

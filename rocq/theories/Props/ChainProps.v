(** Property theorems C179-C180: the closed loop with its mirrors, lines of sight and sensors. *)
From Verif.Base Require Import Vec.
From Verif.Model Require Import Recon Numerics Dm Los Loop.
From Verif.Spec Require Import ReconSpec LoopSpec DmSpec LosSpec.
From Verif.Model Require Import Chain.
From Verif.Spec Require Import ChainSpec.
From Verif.Proofs Require Import ChainProofs.
Local Open Scope Z_scope.

(** The simulation used in the instances.  Screens of 4 x 4.  Mirror 0: 4 x 4, in closed loop, tilting rows and (to no effect) adding a
    constant; mirror 1: 6 x 6, cropped to the screen, in open loop, tilting columns.  One sensor of 2 x 2 pixels looking through the middle. *)
Definition cx_mirrors : list mirror :=
  [ mkMirror 4 [mkArr 4 4 (fun i _ => qz i); mkArr 4 4 (fun _ _ => qz 1)] true (qfrac 1 2);
    mkMirror 6 [mkArr 6 6 (fun _ j => qz j)] false (qfrac 1 2) ].
Definition cx_geom (posx src : Qc) (nout : Z) : geom := mkGeom posx 0%Qc false src 0%Qc 0%Qc nout 1%Qc 1%Qc 4 [0%Qc] [0%Qc; 0%Qc] (qz 2).
Definition cx_slopes (p : vec) : vec := [elem p 2 - elem p 0; elem p 1 - elem p 0]%Qc.
Definition cx_sensors : list sensor := [mkSensor (cx_geom 0%Qc 0%Qc 2) cx_slopes].
Definition cx_dms : list dm := fst (chain_imat 4 36 cx_mirrors cx_sensors).
Definition cx_imat : mat := [[qz 2; qz 0]; [qz 0; qz 2]].
Definition cx_ctrl : mat := [[qfrac 1 2; qz 0]; [qz 0; qfrac 1 2]].
(** Turbulence: a tilted plane *)
Definition cx_plane : list (arr Qc) := [mkArr 4 4 (fun i j => qz 3 * (qz i - qfrac 3 2) - qz 2 * (qz j - qfrac 3 2))%Qc].

Example cx_mirrors_ok : Forall (mirror_ok 4 36) cx_mirrors.
Proof. repeat constructor; cbn; try lia; discriminate. Qed.
Example cx_sensors_ok : Forall (sensor_ok 4 (length cx_mirrors)) cx_sensors.
Proof.
  constructor; [|constructor]. split; [|split].
  - repeat split; [discriminate|cbn; lia].
  - exists 2%nat. reflexivity.
  - intros a u v Hu Hv. cbn [s_slopes]. unfold cx_slopes. cbn in Hu, Hv. rewrite !LoopProofs.elem_axpy by congruence.
    unfold axpy, vadd, vscale. cbn [map vmap2]. repeat (apply f_equal2; [ring|]). reflexivity.
Qed.
Example cx_calibrated : calibrated_chain 4 36 2 cx_mirrors cx_sensors cx_dms cx_imat cx_ctrl.
Proof.
  split; [qc_compute; reflexivity|]. split; [|split; [reflexivity|split; [reflexivity|]]].
  - assert (E : map n_valid cx_dms = [Some 1%nat; Some 1%nat]) by (vm_compute; reflexivity).
    apply Forall_forall. intros d Hd. apply (in_map n_valid) in Hd. rewrite E in Hd. exists 0%nat. destruct Hd as [H|[H|[]]]; congruence.
  - intros [|[|x]] row Hx; simpl in Hx; try (destruct x; discriminate); inversion Hx; qc_compute; reflexivity.
Qed.
Example cx_turbulence g : g_alts g = [0%Qc] -> turbulence_ok 4 cx_plane g.
Proof. intros E. split; [repeat constructor|rewrite E; cbn; lia]. Qed.

(** C179: the surface of a mirror in the loop is the one of the mirror itself (Props/DmProps.v: the commands' combination of the influence
    functions, without piston, cropped or padded), for all or some of its influence functions... *)
Theorem C179_mirrors :
  forall (N : Z) (npix : nat) (sizes : list Z) (k : nat) (m : Z) (shs : list (arr Qc)) (d : dm) (cs : vec),
    0 <= N -> 0 < m -> nth k sizes N = m -> Z.even (m - N) = true -> square_shapes m shs -> shs <> [] ->
    (Z.to_nat (m * m) <= npix)%nat -> shapes d = map (padded npix m) shs -> length cs = length shs ->
    exists a, dm_frame2 N 0 shs (arr_zero N) cs = Ok a /\ dm_frame (mirror_fit N sizes) k d cs = Ok (flat N a).
Proof. exact mirror_tie. Qed.
Print Assumptions C179_mirrors.

(** ... and a simulation made of mirrors, lines of sight with linear slopes and a control matrix that inverts its calibration obeys the loop law
    for any turbulence and any loop delay: no frame fails; every actuator integrates (closed loop) or filters (open loop) what the control matrix
    makes of the slopes of the turbulence alone; and the science cameras get the surfaces of all mirrors for the applied commands. *)
Theorem C179_loop_law :
  forall (N : Z) (npix nmeas : nat) (ms : list mirror) (ws : list sensor) (ds : list dm) (imat ctrl : mat),
    2 <= N -> Forall (mirror_ok N npix) ms -> Forall (sensor_ok N (length ms)) ws ->
    calibrated_chain N npix nmeas ms ws ds imat ctrl ->
    forall (loop_delay : nat) (frames : list (list (arr Qc))),
    Forall (fun scr => Forall (fun w => turbulence_ok N scr (s_geom w)) ws) frames ->
    exists outs, chain_run N ms ds ws nmeas ctrl loop_delay frames = Ok outs /\ length outs = length frames /\
      (forall x d, belongs ds x d -> exists u : nat -> Qc, u 0%nat = 0%Qc /\
         forall n scr, nth_error frames n = Some scr ->
           let t := elem (mvm ctrl (read_sensors N ws scr (flat_mirrors N ms))) x in
           command outs n x = (if (n <? loop_delay)%nat then 0%Qc else u (n - loop_delay)%nat) /\
           u (S n) = (if closed d then u n + gain d * (t - command outs n x) else gain d * t + (1 - gain d) * u n)%Qc) /\
      (forall o, In o outs -> run_dms (mirror_fit N (map m_size ms)) ds (applied o) = Ok (science o)).
Proof. exact chain_law. Qed.
Print Assumptions C179_loop_law.

Example C179_instance :
  match chain_run 4 cx_mirrors cx_dms cx_sensors 2 cx_ctrl 1 (repeat cx_plane 4) with
  | Ok outs => map applied outs = [[qz 0; qz 0]; [qz 0; qz 0]; [qfrac 3 2; qz (-1)]; [qz 3; qfrac (-3) 2]] /\
               map (fun o => map (fun v => elem v 0) (science o)) outs
               = [[qz 0; qz 0]; [qz 0; qz 0]; [qfrac (-9) 4; qfrac 3 2]; [qfrac (-9) 2; qfrac 9 4]]
  | Err _ => False
  end /\
  exists a, dm_frame2 4 0 [mkArr 6 6 (fun _ j => qz j)] (arr_zero 4) [qz 2] = Ok a /\ flat 4 a = concat (repeat [qz (-3); qz (-1); qz 1; qz 3] 4).
Proof. split; [qc_compute; split; reflexivity|]. eexists. split; [reflexivity|qc_compute; reflexivity]. Qed.

(** C180: turbulence that the mirrors can make, in that commands [t] leave no phase on any sensor, is removed from every line of sight on which the same
    commands leave no phase.  If all mirrors have gain g and there is no delay, what is left in frame n (the first is 0) is the phase seen past flat
    mirrors times (1-g)^n... *)
Theorem C180_residual :
  forall (N : Z) (npix nmeas : nat) (ms : list mirror) (ws : list sensor) (ds : list dm) (imat ctrl : mat),
    2 <= N -> Forall (mirror_ok N npix) ms -> Forall (sensor_ok N (length ms)) ws ->
    calibrated_chain N npix nmeas ms ws ds imat ctrl ->
    forall (scr : list (arr Qc)) (t : vec) (surf : list vec), Forall (fun w => turbulence_ok N scr (s_geom w)) ws ->
    length t = total_acts (nvalids ds) -> run_dms (mirror_fit N (map m_size ms)) ds t = Ok surf ->
    Forall (fun w => no_phase (view (s_geom w) (Some scr) (map (unflat N) surf))) ws ->
    forall (los : geom), geom_ok N (length ms) los -> turbulence_ok N scr los -> no_phase (view los (Some scr) (map (unflat N) surf)) ->
    forall (g : Qc) (F n : nat) (o : loop_out) (outs : list loop_out), Forall (fun m => m_gain m = g) ms ->
    chain_run N ms ds ws nmeas ctrl 0 (repeat scr F) = Ok outs -> nth_error outs n = Some o ->
    exists p0, view los (Some scr) (map (unflat N) (flat_mirrors N ms)) = Ok p0 /\
               view los (Some scr) (map (unflat N) (science o)) = Ok (vscale ((1 - g) ^ n)%Qc p0).
Proof. exact chain_residual. Qed.
Print Assumptions C180_residual.

(** ... and with a loop delay and any gains for which each mirror settles, it becomes and stays as small as one likes. *)
Theorem C180_settles :
  forall (N : Z) (npix nmeas : nat) (ms : list mirror) (ws : list sensor) (ds : list dm) (imat ctrl : mat),
    2 <= N -> Forall (mirror_ok N npix) ms -> Forall (sensor_ok N (length ms)) ws ->
    calibrated_chain N npix nmeas ms ws ds imat ctrl ->
    forall (scr : list (arr Qc)) (t : vec) (surf : list vec), Forall (fun w => turbulence_ok N scr (s_geom w)) ws ->
    length t = total_acts (nvalids ds) -> run_dms (mirror_fit N (map m_size ms)) ds t = Ok surf ->
    Forall (fun w => no_phase (view (s_geom w) (Some scr) (map (unflat N) surf))) ws ->
    forall (los : geom), geom_ok N (length ms) los -> turbulence_ok N scr los -> no_phase (view los (Some scr) (map (unflat N) surf)) ->
    forall (loop_delay : nat) (eps : Qc), Forall (settles loop_delay) ms -> (0 < eps)%Qc ->
    exists n0, forall F outs n o, chain_run N ms ds ws nmeas ctrl loop_delay (repeat scr F) = Ok outs -> nth_error outs n = Some o -> (n0 <= n)%nat ->
      exists p, view los (Some scr) (map (unflat N) (science o)) = Ok p /\ Forall (fun x => qc_abs x <= eps)%Qc p.
Proof. exact chain_settles. Qed.
Print Assumptions C180_settles.

(** The plane is removed from an off-axis line of sight to a finite source. *)
Definition cx_los : geom := cx_geom (qfrac 1 1000) (qz 90000) 3.
Example C180_instance :
  let surf := map (flat 4) [mkArr 4 4 (fun i _ => qz 3 * (qz i - qfrac 3 2))%Qc; mkArr 4 4 (fun _ j => - qz 2 * (qz j - qfrac 3 2))%Qc] in
  run_dms (mirror_fit 4 (map m_size cx_mirrors)) cx_dms [qz 3; qz (-2)] = Ok surf /\ total_acts (nvalids cx_dms) = 2%nat /\
  Forall (fun w => no_phase (view (s_geom w) (Some cx_plane) (map (unflat 4) surf))) cx_sensors /\
  geom_ok 4 (length cx_mirrors) cx_los /\ no_phase (view cx_los (Some cx_plane) (map (unflat 4) surf)) /\
  Forall (fun m => m_gain m = qfrac 1 2) cx_mirrors /\ Forall (settles 1) cx_mirrors /\
  match chain_run 4 cx_mirrors cx_dms cx_sensors 2 cx_ctrl 0 (repeat cx_plane 3) with
  | Ok outs => map (fun o => view cx_los (Some cx_plane) (map (unflat 4) (science o))) outs
               = map (fun r => Ok (vscale r [qz (-2); qz (-6); qz (-10); qz 4; qz 0; qz (-4); qz 10; qz 6; qz 2])) [qz 1; qfrac 1 2; qfrac 1 4]
  | Err _ => False
  end.
Proof.
  cbv zeta. split; [qc_compute; reflexivity|]. split; [vm_compute; reflexivity|].
  split; [constructor; [eexists; split; [qc_compute; reflexivity|repeat constructor; qc_compute; reflexivity]|constructor]|].
  split; [repeat split; [discriminate|cbn; lia]|].
  split; [eexists; split; [qc_compute; reflexivity|repeat constructor; qc_compute; reflexivity]|].
  split; [repeat constructor|]. split; [apply Forall_cons; [|apply Forall_cons; [|apply Forall_nil]]; unfold settles; cbn [m_closed m_gain]; repeat split; vm_compute; first [reflexivity|discriminate]|].
  qc_compute; reflexivity.
Qed.

(** C188: from the turbulence to the image, end to end.  Vocabulary: Spec/ChainSpec.v, Spec/SightSpec.v, Spec/StrehlChainSpec.v. *)
From Coq Require Import Reals.
From Verif.Base Require Import Vec CSum.
From Verif.Model Require Import Science Sampling.
From Verif.Spec Require Import ScienceSpec.
From Verif.Spec Require Import StrehlSpec StrehlChainSpec.
From Verif.Model Require Import Recon Numerics Dm Los Loop.
From Verif.Spec Require Import ReconSpec LoopSpec DmSpec LosSpec RobustSpec.
From Verif.Model Require Import Chain.
From Verif.Spec Require Import ChainSpec.
From Verif.Spec Require Import SightSpec.
From Verif.Proofs Require Import LoopProofs RobustProofs RobustDelay ChainProofs.
From Verif.Proofs Require Import SightProofs StrehlProofs StrehlChainProofs StrehlLoopProofs.
From Verif.Props Require Import ScienceProps RobustProps ChainProps.
From Verif.Props Require Import SightProps.
From Coq Require Import Lra Lia.
Local Open Scope Z_scope.

(** C188: a camera looking along a line of sight whose pixels are all within B radians of some phase c, has a Strehl ratio of at least (1 - B^2) times the share of
    a flat wavefront's light that its detector catches (1 if the focal plane is not cropped: Props/StrehlProps.v)... *)
Theorem C188_image :
  forall (k : cam) (pupil pad : Z) (p : vec) (c B : Qc), camera_on k pupil pad -> length p = Z.to_nat ((pupil + 2 * pad) * (pupil + 2 * pad)) ->
    (forall i, (i < length p)%nat -> (qc_abs (elem p i - c) <= B)%Qc) ->
    exists s t, inst_strehl k true (wavefront k pupil pad p) = Some s /\ inst_strehl k false (wavefront k pupil pad p) = Some t /\ (s <= t)%R /\
      ((1 - qr B * qr B) * caught k <= s)%R.
Proof. exact image_bound. Qed.
Print Assumptions C188_image.

(** ... so a calibrated simulation of turbulence that its mirrors can make brings every such camera's Strehl ratio, whatever the delay, as close to that share
    as one likes, and keeps it there... *)
Theorem C188_settles :
  forall (N : Z) (npix nmeas : nat) (ms : list mirror) (ws : list sensor) (ds : list dm) (imat ctrl : mat),
    2 <= N -> Forall (mirror_ok N npix) ms -> Forall (sensor_ok N (length ms)) ws ->
    calibrated_chain N npix nmeas ms ws ds imat ctrl ->
    forall (scr : list (arr Qc)) (t : vec) (surf : list vec), Forall (fun w => turbulence_ok N scr (s_geom w)) ws ->
    length t = total_acts (nvalids ds) -> run_dms (mirror_fit N (map m_size ms)) ds t = Ok surf ->
    Forall (fun w => no_phase (view (s_geom w) (Some scr) (map (unflat N) surf))) ws ->
    forall (los : geom) (k : cam) (pupil pad : Z), g_nout los = pupil + 2 * pad -> camera_on k pupil pad -> geom_ok N (length ms) los -> turbulence_ok N scr los -> no_phase (view los (Some scr) (map (unflat N) surf)) ->
    forall (loop_delay : nat) (eps : Qc), Forall (settles loop_delay) ms -> (0 < eps)%Qc ->
    exists n0, forall F outs n o, chain_run N ms ds ws nmeas ctrl loop_delay (repeat scr F) = Ok outs -> nth_error outs n = Some o -> (n0 <= n)%nat ->
      exists p s t, view los (Some scr) (map (unflat N) (science o)) = Ok p /\
        inst_strehl k true (wavefront k pupil pad p) = Some s /\ inst_strehl k false (wavefront k pupil pad p) = Some t /\ (s <= t)%R /\
        ((1 - qr eps * qr eps) * caught k <= s)%R.
Proof. exact settles_strehl. Qed.
Print Assumptions C188_settles.

(** ... and with sensors that are not exact, and turbulence that changes, the Strehl ratio of frame n is bounded below by the error bound of the commands
    (C178) and the most that the actuators can do to a pixel, if the wanted commands leave a level phase on the line of sight... *)
Theorem C188_robust :
  forall (N : Z) (npix nmeas : nat) (ms : list mirror) (ws : list sensor) (ds : list dm) (ctrl : mat) (g range delta eta v first : Qc)
    (wanted : nat -> vec) (frames : list (list (arr Qc))),
  2 <= N -> Forall (mirror_ok N npix) ms -> Forall (driven npix) ds -> length ds = length ms -> length ctrl = actuators ds ->
  Forall (fun d => closed d = true /\ (g <= gain d)%Qc /\ (gain d <= 1)%Qc) ds ->
  (0 < g)%Qc -> (g <= 1)%Qc -> (0 <= delta)%Qc -> (delta < 1)%Qc -> (0 <= eta)%Qc -> (0 <= v)%Qc -> (0 <= first)%Qc ->
  (first + (eta + v) / (g * (1 - delta)) <= range)%Qc ->
  (forall n scr, nth_error frames n = Some scr ->
     (forall s, stack_ok (length ds) (Z.to_nat (N * N)) s -> length (read_sensors N ws scr s) = nmeas) /\
     accurate (mirror_fit N (map m_size ms)) ds ctrl range delta eta (wanted n) (read_sensors N ws scr)) ->
  (forall n, length (wanted n) = actuators ds) ->
  (forall n x, (x < actuators ds)%nat -> (qc_abs (elem (wanted (S n)) x - elem (wanted n) x) <= v)%Qc) ->
  within ds (wanted 0%nat) (vzero (actuators ds)) first ->
  exists outs, chain_run N ms ds ws nmeas ctrl 0 frames = Ok outs /\ length outs = length frames /\
    forall n o scr, nth_error outs n = Some o -> nth_error frames n = Some scr ->
    let E := ((1 - g * (1 - delta)) ^ n * first + (eta + v) / (g * (1 - delta)))%Qc in
    forall (los : geom) (k : cam) (pupil pad : Z) (pokes best : list vec) (q : vec) (c most : Qc),
      geom_ok N (length ms) los -> turbulence_ok N scr los -> g_nout los = pupil + 2 * pad -> camera_on k pupil pad ->
      poked N ms ds los = Ok pokes -> (forall i, (reach pokes i <= most)%Qc) ->
      run_dms (mirror_fit N (map m_size ms)) ds (wanted n) = Ok best -> view los (Some scr) (map (unflat N) best) = Ok q -> Forall (fun x => x = c) q ->
      exists p s t, view los (Some scr) (map (unflat N) (science o)) = Ok p /\
        inst_strehl k true (wavefront k pupil pad p) = Some s /\ inst_strehl k false (wavefront k pupil pad p) = Some t /\ (s <= t)%R /\
        ((1 - qr (E * most) * qr (E * most)) * caught k <= s)%R.
Proof. exact robust_strehl. Qed.
Print Assumptions C188_robust.

(** ... also with a loop delay (C181). *)
Theorem C188_robust_delay :
  forall (N : Z) (npix nmeas : nat) (ms : list mirror) (ws : list sensor) (ds : list dm) (ctrl : mat) (g G range delta eta v first : Qc) (loop_delay : nat)
    (wanted : nat -> vec) (frames : list (list (arr Qc))),
  let dl := qz (Z.of_nat loop_delay) in
  let rate := (g * (1 - delta) - dl * (G * G) * (1 + delta))%Qc in
  let left := ((v + G * (eta + delta * (dl * v) + dl * (G * (eta + (1 + delta) * (dl * v))))) / rate)%Qc in
  2 <= N -> Forall (mirror_ok N npix) ms -> Forall (driven npix) ds -> length ds = length ms -> length ctrl = actuators ds ->
  Forall (fun d => closed d = true /\ (g <= gain d)%Qc /\ (gain d <= G)%Qc) ds ->
  (0 < g)%Qc -> (g <= G)%Qc -> (G <= 1)%Qc -> (0 <= delta)%Qc -> (delta < 1)%Qc -> (0 <= eta)%Qc -> (0 <= v)%Qc -> (0 <= first)%Qc -> (0 < rate)%Qc ->
  (first + left + dl * v <= range)%Qc ->
  (forall n scr, nth_error frames n = Some scr ->
     (forall s, stack_ok (length ds) (Z.to_nat (N * N)) s -> length (read_sensors N ws scr s) = nmeas) /\
     accurate (mirror_fit N (map m_size ms)) ds ctrl range delta eta (wanted n) (read_sensors N ws scr)) ->
  (forall n, length (wanted n) = actuators ds) ->
  (forall n x, (x < actuators ds)%nat -> (qc_abs (elem (wanted (S n)) x - elem (wanted n) x) <= v)%Qc) ->
  within ds (wanted 0%nat) (vzero (actuators ds)) first ->
  exists outs, chain_run N ms ds ws nmeas ctrl loop_delay frames = Ok outs /\ length outs = length frames /\
    forall n o scr, nth_error outs n = Some o -> nth_error frames n = Some scr ->
    let E := ((1 - rate) ^ ((n - loop_delay) / (2 * loop_delay + 1)) * first + left + dl * v)%Qc in
    forall (los : geom) (k : cam) (pupil pad : Z) (pokes best : list vec) (q : vec) (c most : Qc),
      geom_ok N (length ms) los -> turbulence_ok N scr los -> g_nout los = pupil + 2 * pad -> camera_on k pupil pad ->
      poked N ms ds los = Ok pokes -> (forall i, (reach pokes i <= most)%Qc) ->
      run_dms (mirror_fit N (map m_size ms)) ds (wanted n) = Ok best -> view los (Some scr) (map (unflat N) best) = Ok q -> Forall (fun x => x = c) q ->
      exists p s t, view los (Some scr) (map (unflat N) (science o)) = Ok p /\
        inst_strehl k true (wavefront k pupil pad p) = Some s /\ inst_strehl k false (wavefront k pupil pad p) = Some t /\ (s <= t)%R /\
        ((1 - qr (E * most) * qr (E * most)) * caught k <= s)%R.
Proof. exact robust_delay_strehl. Qed.
Print Assumptions C188_robust_delay.

(** The simulation of C186_instance with the camera of C60_centre_instance. *)
Example C188_instance :
  camera_on plain_cam 2 1 /\ g_nout sx_los = 2 + 2 * 1 /\ caught plain_cam = 1%R /\
  (exists pokes, poked 4 sx_mirrors sx_dms sx_los = Ok pokes /\ forall i, (reach pokes i <= qz 3)%Qc) /\
  (exists best q, run_dms (mirror_fit 4 (map m_size sx_mirrors)) sx_dms [qz 3] = Ok best /\ view sx_los (Some sx_scr) (map (unflat 4) best) = Ok q /\ Forall (fun x => x = 0%Qc) q) /\
  (((1 - qfrac 1 4 * (1 - qfrac 1 3)) ^ 14 * qz 3 + (0 + 0) / (qfrac 1 4 * (1 - qfrac 1 3))) * qz 3 < qfrac 4 5)%Qc /\
  match chain_run 4 sx_mirrors sx_dms sx_sensors 1 sx_ctrl 0 (repeat sx_scr 16) with
  | Ok outs => length outs = 16%nat
  | Err _ => False
  end.
Proof.
  destruct C60_centre_instance as (A & B & C & D & E).
  split; [repeat split; try lia; auto; exists 1%Z, (qz 3), 5%nat, 4%Z; repeat split; reflexivity|].
  split; [reflexivity|]. split; [apply caught_all; auto|].
  split.
  { eexists. split; [qc_compute; reflexivity|]. intros i. do 16 (destruct i as [|i]; [vm_compute; discriminate|]). unfold reach, elem. cbn [map nth]. destruct i; vm_compute; discriminate. }
  split; [eexists _, _; split; [qc_compute; reflexivity|split; [qc_compute; reflexivity|repeat constructor; qc_compute; reflexivity]]|].
  split; [vm_compute; reflexivity|]. qc_compute; reflexivity.
Qed.

(** C186: what is left on a line of sight when the sensors are not exact. *)
From Verif.Base Require Import Vec.
From Verif.Model Require Import Recon Numerics Dm Los Loop.
From Verif.Spec Require Import ReconSpec LoopSpec DmSpec LosSpec RobustSpec.
From Verif.Model Require Import Chain.
From Verif.Spec Require Import ChainSpec.
From Verif.Spec Require Import SightSpec.
From Verif.Proofs Require Import LoopProofs RobustProofs RobustDelay ChainProofs.
From Verif.Proofs Require Import SightProofs.
From Verif.Props Require Import RobustProps RobustDelayProps ChainProps.
Local Open Scope Z_scope.

(** C186: commands within [E] of commands [t] leave, on every pixel of any line of sight, a phase within [E] times the sum of what the actuators
    do there of the phase that [t] leaves... *)
Theorem C186_sight :
  forall (N : Z) (npix : nat) (ms : list mirror) (ds : list dm), 2 <= N -> Forall (mirror_ok N npix) ms -> Forall (driven npix) ds -> length ds = length ms ->
  forall (los : geom), geom_ok N (length ms) los ->
  forall (scr : list (arr Qc)) (t c : vec) (E : Qc) (best now : list vec), length t = actuators ds -> length c = actuators ds -> within ds t c E -> (0 <= E)%Qc ->
    run_dms (mirror_fit N (map m_size ms)) ds t = Ok best -> run_dms (mirror_fit N (map m_size ms)) ds c = Ok now -> turbulence_ok N scr los ->
    exists pokes p q, poked N ms ds los = Ok pokes /\ view los (Some scr) (map (unflat N) now) = Ok p /\
      view los (Some scr) (map (unflat N) best) = Ok q /\ phase_within pokes E p q.
Proof. exact sight. Qed.
Print Assumptions C186_sight.

(** ... so with any sensors that are accurate to a fraction [delta] < 1 and noise [eta] (linear or not), every science camera and sensor, wherever
    it looks, sees in frame n the phase that the wanted commands leave, up to (1 - g (1 - delta))^n first + (eta + v) / (g (1 - delta)) times
    the sum of what the actuators do to the pixel... *)
Theorem C186_robust :
  forall (N : Z) (npix nmeas : nat) (ms : list mirror) (ws : list sensor) (ds : list dm) (ctrl : mat) (g range delta eta v first : Qc)
    (wanted : nat -> vec) (frames : list (list (arr Qc))),
  2 <= N -> Forall (mirror_ok N npix) ms -> Forall (driven npix) ds -> length ds = length ms -> length ctrl = actuators ds ->
  Forall (fun d => closed d = true /\ (g <= gain d)%Qc /\ (gain d <= 1)%Qc) ds ->
  (0 < g)%Qc -> (g <= 1)%Qc -> (0 <= delta)%Qc -> (delta < 1)%Qc -> (0 <= eta)%Qc -> (0 <= v)%Qc -> (0 <= first)%Qc ->
  (first + (eta + v) / (g * (1 - delta)) <= range)%Qc ->
  (forall n scr, nth_error frames n = Some scr ->
     (forall s, stack_ok (length ds) (Z.to_nat (N * N)) s -> length (read_sensors N ws scr s) = nmeas) /\
     accurate (mirror_fit N (map m_size ms)) ds ctrl range delta eta (wanted n) (read_sensors N ws scr)) ->
  (forall n, length (wanted n) = actuators ds) ->
  (forall n x, (x < actuators ds)%nat -> (qc_abs (elem (wanted (S n)) x - elem (wanted n) x) <= v)%Qc) ->
  within ds (wanted 0%nat) (vzero (actuators ds)) first ->
  exists outs, chain_run N ms ds ws nmeas ctrl 0 frames = Ok outs /\ length outs = length frames /\
    forall n o scr, nth_error outs n = Some o -> nth_error frames n = Some scr ->
    let E := ((1 - g * (1 - delta)) ^ n * first + (eta + v) / (g * (1 - delta)))%Qc in
      within ds (wanted n) (applied o) E /\
      forall los, geom_ok N (length ms) los -> turbulence_ok N scr los ->
      exists pokes best p q, poked N ms ds los = Ok pokes /\ run_dms (mirror_fit N (map m_size ms)) ds (wanted n) = Ok best /\
        view los (Some scr) (map (unflat N) best) = Ok q /\ view los (Some scr) (map (unflat N) (science o)) = Ok p /\ phase_within pokes E p q.
Proof. exact robust_sight. Qed.
Print Assumptions C186_robust.

(** ... and with a loop delay, to the bound of C181. *)
Theorem C186_robust_delay :
  forall (N : Z) (npix nmeas : nat) (ms : list mirror) (ws : list sensor) (ds : list dm) (ctrl : mat) (g G range delta eta v first : Qc) (loop_delay : nat)
    (wanted : nat -> vec) (frames : list (list (arr Qc))),
  let dl := qz (Z.of_nat loop_delay) in
  let rate := (g * (1 - delta) - dl * (G * G) * (1 + delta))%Qc in
  let left := ((v + G * (eta + delta * (dl * v) + dl * (G * (eta + (1 + delta) * (dl * v))))) / rate)%Qc in
  2 <= N -> Forall (mirror_ok N npix) ms -> Forall (driven npix) ds -> length ds = length ms -> length ctrl = actuators ds ->
  Forall (fun d => closed d = true /\ (g <= gain d)%Qc /\ (gain d <= G)%Qc) ds ->
  (0 < g)%Qc -> (g <= G)%Qc -> (G <= 1)%Qc -> (0 <= delta)%Qc -> (delta < 1)%Qc -> (0 <= eta)%Qc -> (0 <= v)%Qc -> (0 <= first)%Qc -> (0 < rate)%Qc ->
  (first + left + dl * v <= range)%Qc ->
  (forall n scr, nth_error frames n = Some scr ->
     (forall s, stack_ok (length ds) (Z.to_nat (N * N)) s -> length (read_sensors N ws scr s) = nmeas) /\
     accurate (mirror_fit N (map m_size ms)) ds ctrl range delta eta (wanted n) (read_sensors N ws scr)) ->
  (forall n, length (wanted n) = actuators ds) ->
  (forall n x, (x < actuators ds)%nat -> (qc_abs (elem (wanted (S n)) x - elem (wanted n) x) <= v)%Qc) ->
  within ds (wanted 0%nat) (vzero (actuators ds)) first ->
  exists outs, chain_run N ms ds ws nmeas ctrl loop_delay frames = Ok outs /\ length outs = length frames /\
    forall n o scr, nth_error outs n = Some o -> nth_error frames n = Some scr ->
    let E := ((1 - rate) ^ ((n - loop_delay) / (2 * loop_delay + 1)) * first + left + dl * v)%Qc in
      within ds (wanted n) (applied o) E /\
      forall los, geom_ok N (length ms) los -> turbulence_ok N scr los ->
      exists pokes best p q, poked N ms ds los = Ok pokes /\ run_dms (mirror_fit N (map m_size ms)) ds (wanted n) = Ok best /\
        view los (Some scr) (map (unflat N) best) = Ok q /\ view los (Some scr) (map (unflat N) (science o)) = Ok p /\ phase_within pokes E p q.
Proof. exact robust_delay_sight. Qed.
Print Assumptions C186_robust_delay.

(** A mirror that tilts rows, in closed loop with gain 1/4; a sensor that looks through the middle and whose slope saturates at 2; a tilt that
    wants the command 3. *)
Definition sx_mirrors : list mirror := [ mkMirror 4 [mkArr 4 4 (fun i _ => qz i)] true (qfrac 1 4) ].
Definition sx_sensors : list sensor := [mkSensor (cx_geom 0%Qc 0%Qc 2) (fun p => [rx_sat ((elem p 2 - elem p 0) * qfrac 1 2)%Qc])].
Definition sx_dms : list dm := fst (chain_imat 4 16 sx_mirrors sx_sensors).
Definition sx_ctrl : mat := [[1%Qc]].
Definition sx_scr : list (arr Qc) := [mkArr 4 4 (fun i _ => qz 3 * (qz i - qfrac 3 2))%Qc].
Lemma sx_ok : Forall (mirror_ok 4 16) sx_mirrors.
Proof. repeat constructor; cbn; try lia; discriminate. Qed.
Lemma sx_driven : Forall (driven 16) sx_dms.
Proof.
  assert (A : map n_valid sx_dms = [Some 1%nat]) by (vm_compute; reflexivity). assert (B : map (fun d => map (fun s => length s) (shapes d)) sx_dms = [[16%nat]]) by (vm_compute; reflexivity).
  destruct sx_dms as [|d [|d' l]]; try discriminate. injection A as A. injection B as B. apply Forall_cons; [|apply Forall_nil]. split; [|split].
  - apply Forall_forall. intros s Hs. apply (in_map (fun s => length s)) in Hs. rewrite B in Hs. destruct Hs as [H|[]]. symmetry. exact H.
  - pose proof (f_equal (@length nat) B) as LB. rewrite map_length in LB. cbn in LB. exact (eq_trans A (f_equal Some (eq_sym LB))).
  - intros E. rewrite E in B. discriminate.
Qed.
Lemma sx_len : length sx_dms = length sx_mirrors.
Proof. vm_compute. reflexivity. Qed.
Lemma sx_acts (x : Qc) : length [x] = actuators sx_dms.
Proof. vm_compute. reflexivity. Qed.
Lemma ok_same {A} (x y : A) : Ok x = Ok y -> x = y.
Proof. congruence. Qed.
Lemma sx_sees g c : geom_ok 4 1 g -> turbulence_ok 4 sx_scr g -> forall frames, run_dms (mirror_fit 4 (map m_size sx_mirrors)) sx_dms [c] = Ok frames ->
  exists p, view g (Some sx_scr) (map (unflat 4) frames) = Ok p /\ length p = Z.to_nat (g_nout g * g_nout g) /\
    forall one zero, mapM (fun x => let* f := run_dms (mirror_fit 4 (map m_size sx_mirrors)) sx_dms [x] in view g (Some sx_scr) (map (unflat 4) f)) [1%Qc; 0%Qc] = Ok [one; zero] ->
    forall k, (k < length p)%nat -> elem p k = (c * (elem one k - elem zero k) + elem zero k)%Qc.
Proof.
  intros G T frames R. pose proof sx_acts as L.
  rewrite (driven_surf 4 16 sx_mirrors sx_dms ltac:(lia) sx_ok sx_driven sx_len [c] (L c)) in R. apply ok_same in R. subst frames.
  pose proof (view_made 4 16 sx_mirrors sx_dms ltac:(lia) sx_ok sx_driven sx_len g G sx_scr) as V.
  eexists. split; [apply V, T|]. split; [rewrite map_length; unfold pixels; apply seq_length|]. intros one zero H k Hk. rewrite map_length in Hk.
  cbn [mapM] in H. rewrite !(driven_surf 4 16 sx_mirrors sx_dms ltac:(lia) sx_ok sx_driven sx_len) in H by apply L. cbn [bind] in H. rewrite !V in H by exact T. cbn [bind] in H.
  apply ok_same in H. inversion H; subst one zero; clear H. rewrite !elem_pixels by exact Hk.
  replace [c] with (axpy c [1%Qc] [0%Qc]) by (unfold axpy, vadd, vscale; cbn [map vmap2]; f_equal; ring).
  rewrite (made_axpy 4 16 sx_mirrors sx_dms ltac:(lia) sx_ok sx_driven sx_len g c [1%Qc] [0%Qc]) by apply L.
  assert (Z0 : forall n, made 4 16 sx_mirrors sx_dms g [0%Qc] n = 0%Qc).
  { intros n. pose proof (made_axpy 4 16 sx_mirrors sx_dms ltac:(lia) sx_ok sx_driven sx_len g 1 [0%Qc] [0%Qc] n (L _) (L _)) as Q.
    replace (axpy 1 [0%Qc] [0%Qc]) with [0%Qc] in Q by (unfold axpy, vadd, vscale; cbn [map vmap2]; f_equal; ring). qclra. }
  rewrite Z0. ring.
Qed.
Lemma sx_reads c frames : run_dms (mirror_fit 4 (map m_size sx_mirrors)) sx_dms [c] = Ok frames -> read_sensors 4 sx_sensors sx_scr frames = [rx_sat (qz 3 - c)%Qc].
Proof.
  intros R. destruct (sx_sees (cx_geom 0%Qc 0%Qc 2) c ltac:(repeat split; [discriminate|cbn; lia]) ltac:(split; [repeat constructor|cbn; lia]) frames R) as (p & V & L & S).
  specialize (S [qz (-2); qz (-2); qz 2; qz 2] [qz (-3); qz (-3); qz 3; qz 3] ltac:(qc_compute; reflexivity)).
  unfold read_sensors, sx_sensors. cbn [map concat]. unfold sensor_frame. cbn [s_geom s_slopes]. rewrite V. rewrite !S by (rewrite L; vm_compute; lia). cbn [app].
  f_equal. f_equal. unfold elem. cbn [nth].
  replace (qz (-2)) with (-(1+1))%Qc by (apply Qc_is_canon; reflexivity). replace (qz 2) with (1+1)%Qc by (apply Qc_is_canon; reflexivity).
  replace (qz (-3)) with (-(1+1+1))%Qc by (apply Qc_is_canon; reflexivity). replace (qz 3) with (1+1+1)%Qc by (apply Qc_is_canon; reflexivity).
  assert (H : (qfrac 1 2 * (1 + 1) = 1)%Qc) by (apply Qc_is_canon; reflexivity). set (h := qfrac 1 2) in *. clearbody h. qcnra.
Qed.
Lemma sx_one : actuators sx_dms = 1%nat.
Proof. vm_compute. reflexivity. Qed.
Lemma sx_accurate : accurate (mirror_fit 4 (map m_size sx_mirrors)) sx_dms sx_ctrl (qz 3) (qfrac 1 3) 0%Qc [qz 3] (read_sensors 4 sx_sensors sx_scr).
Proof.
  intros c frames E Lc RD W HE x Hx. unfold within in W. rewrite sx_one in *.
  destruct c as [|c [|c' r]]; [exfalso; clear - Lc; discriminate Lc| |exfalso; clear - Lc; discriminate Lc]. assert (x = 0%nat) by lia. subst x. specialize (W 0%nat Hx). rewrite (sx_reads c frames RD).
  change (elem (mvm sx_ctrl [rx_sat (qz 3 - c)%Qc]) 0) with (1 * rx_sat (qz 3 - c) + 0)%Qc. unfold elem in *. cbn [nth] in *.
  replace (1 * rx_sat (qz 3 - c) + 0)%Qc with (rx_sat (qz 3 - c)) by ring.
  assert (B : (- E <= qz 3 - c)%Qc /\ (qz 3 - c <= E)%Qc) by (destruct (qc_abs_ge (qz 3 - c)); split; qclra).
  assert (Z3 : qz 3 = (1 + 1 + 1)%Qc) by (apply Qc_is_canon; reflexivity).
  assert (Z2 : qz 2 = (1 + 1)%Qc) by (apply Qc_is_canon; reflexivity). assert (Zm2 : qz (-2) = (- (1 + 1))%Qc) by (apply Qc_is_canon; reflexivity).
  assert (T : (qfrac 1 3 * (1 + 1 + 1) = 1)%Qc) by (apply Qc_is_canon; reflexivity).
  assert (F : (qfrac 1 3 * E + qfrac 1 3 * E + qfrac 1 3 * E = E)%Qc) by (replace (qfrac 1 3 * E + qfrac 1 3 * E + qfrac 1 3 * E)%Qc with (qfrac 1 3 * (1 + 1 + 1) * E)%Qc by ring; rewrite T; ring).
  destruct B as [B1 B2]. unfold rx_sat, qc_abs. rewrite ?Z3, ?Z2, ?Zm2 in *. set (u := (qfrac 1 3 * E)%Qc) in *. clearbody u. clear W Hx RD Lc frames T Z3 Z2 Zm2. set (y := (1 + 1 + 1 - c)%Qc) in *. clearbody y.
  destruct (Qclt_le_dec y (- (1 + 1))); [|destruct (Qclt_le_dec (1 + 1) y)];
    match goal with |- context [Qclt_le_dec ?a ?b] => destruct (Qclt_le_dec a b) end; qclra.
Qed.
Lemma sx_gains : Forall (fun d => closed d = true /\ (qfrac 1 4 <= gain d)%Qc /\ (gain d <= qfrac 1 4)%Qc) sx_dms.
Proof.
  assert (A : map closed sx_dms = [true]) by (vm_compute; reflexivity). assert (B : map gain sx_dms = [qfrac 1 4]) by (vm_compute; reflexivity).
  destruct sx_dms as [|d [|d' l]]; try discriminate. injection A as A. cbn [map] in B. assert (B' : gain d = qfrac 1 4) by congruence.
  apply Forall_cons; [|apply Forall_nil]. rewrite B'. repeat split; [exact A| |]; apply Qcle_refl.
Qed.
Lemma sx_measures s : stack_ok (length sx_dms) 16 s -> length (read_sensors 4 sx_sensors sx_scr s) = 1%nat.
Proof.
  intros [S1 S2]. unfold read_sensors, sx_sensors. cbn [map concat]. rewrite app_nil_r. unfold sensor_frame. cbn [s_geom s_slopes].
  rewrite (view_ok 4 1); [reflexivity|lia| | | | |].
  - repeat split; [discriminate|cbn; lia].
  - repeat constructor.
  - cbn. lia.
  - apply unflat_screens.
  - rewrite map_length, S1. exact sx_len.
Qed.
Definition sx_los : geom := cx_geom 0%Qc 0%Qc 4.
(** One row per command 1; the last pixel is read 1e-9 inside the edge (soapy/numbalib/numbalib.py:58-61). *)
Definition sx_pixels : vec := concat (map (fun x => repeat x 4) [qz (-3); qz (-1); qz 1; qfrac 1499999999 500000000]).
Example C186_instance :
  Forall (mirror_ok 4 16) sx_mirrors /\ Forall (driven 16) sx_dms /\ length sx_dms = length sx_mirrors /\ length sx_ctrl = actuators sx_dms /\
  Forall (fun d => closed d = true /\ (qfrac 1 4 <= gain d)%Qc /\ (gain d <= qfrac 1 4)%Qc) sx_dms /\
  (forall s, stack_ok (length sx_dms) (Z.to_nat (4 * 4)) s -> length (read_sensors 4 sx_sensors sx_scr s) = 1%nat) /\
  accurate (mirror_fit 4 (map m_size sx_mirrors)) sx_dms sx_ctrl (qz 3) (qfrac 1 3) 0%Qc [qz 3] (read_sensors 4 sx_sensors sx_scr) /\
  within sx_dms [qz 3] (vzero (actuators sx_dms)) (qz 3) /\
  (qz 3 + (0 + 0) / (qfrac 1 4 * (1 - qfrac 1 3)) <= qz 3)%Qc /\
  (0 < qfrac 1 4 * (1 - qfrac 1 3) - 1 * (qfrac 1 4 * qfrac 1 4) * (1 + qfrac 1 3))%Qc /\
  geom_ok 4 (length sx_mirrors) sx_los /\ turbulence_ok 4 sx_scr sx_los /\
  poked 4 sx_mirrors sx_dms sx_los = Ok [vscale (qz (-1)) sx_pixels] /\
  match chain_run 4 sx_mirrors sx_dms sx_sensors 1 sx_ctrl 1 (repeat sx_scr 6) with
  | Ok outs => map applied outs = [[qz 0]; [qz 0]; [qfrac 1 2]; [qz 1]; [qfrac 3 2]; [qz 2]] /\
               map (fun o => view sx_los (Some sx_scr) (map (unflat 4) (science o))) outs
               = map (fun r => Ok (vscale r sx_pixels)) [qz 3; qz 3; qfrac 5 2; qz 2; qfrac 3 2; qz 1]
  | Err _ => False
  end.
Proof.
  split; [exact sx_ok|]. split; [exact sx_driven|]. split; [vm_compute; reflexivity|]. split; [vm_compute; reflexivity|].
  split; [exact sx_gains|]. split; [exact sx_measures|]. split; [exact sx_accurate|].
  split; [intros y Hy; rewrite sx_one in *; assert (y = 0%nat) by lia; subst y; vm_compute; discriminate|].
  split; [vm_compute; discriminate|]. split; [vm_compute; reflexivity|]. split; [repeat split; [discriminate|cbn; lia]|]. split; [split; [repeat constructor|cbn; lia]|].
  split; [qc_compute; reflexivity|]. qc_compute; split; reflexivity.
Qed.

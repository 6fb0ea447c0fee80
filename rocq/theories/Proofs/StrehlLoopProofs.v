(** From the loop to the Strehl ratio. *)
From Coq Require Import Reals.
From Verif.Base Require Import Vec CSum.
From Verif.Model Require Import Science Sampling.
From Verif.Spec Require Import ScienceSpec.
From Verif.Spec Require Import StrehlSpec StrehlChainSpec.
From Verif.Model Require Import Recon Numerics Dm Los Loop.
From Verif.Spec Require Import ReconSpec LoopSpec DmSpec LosSpec RobustSpec.
From Verif.Model Require Import Chain.
From Verif.Spec Require Import ChainSpec.
From Verif.Spec Require Import SightSpec.
From Verif.Proofs Require Import LoopProofs RobustProofs RobustDelay ChainProofs.
From Verif.Proofs Require Import SightProofs StrehlProofs StrehlChainProofs.
From Coq Require Import Lra Lia.
Local Open Scope Z_scope.

Lemma mapM_size {A B} (f : A -> result B) l : forall r, mapM f l = Ok r -> length r = length l.
Proof.
  induction l as [|x l IH]; intros r H; cbn [mapM] in H; [injection H as <-; reflexivity|].
  destruct (f x) as [y|e]; [|discriminate]. cbn [bind] in H. destruct (mapM f l) as [ys|e]; [|discriminate]. cbn [bind] in H. injection H as <-. cbn. f_equal. apply IH. reflexivity.
Qed.
Lemma view_size g sc corr p : view g sc corr = Ok p -> length p = Z.to_nat (g_nout g * g_nout g).
Proof. intros H. unfold view in H. apply mapM_size in H. rewrite seq_length in H. exact H. Qed.
Lemma level_elem (q : vec) c : Forall (fun x => x = c) q -> forall i, (i < length q)%nat -> elem q i = c.
Proof. intros H i Hi. rewrite Forall_forall in H. apply H. unfold elem. apply nth_In. exact Hi. Qed.
(** close to a level phase on every pixel *)
Lemma sight_strehl (los : geom) (k : cam) (pupil pad : Z) (pokes : list vec) (p q : vec) (c most E : Qc) sc corr :
  view los sc corr = Ok p -> g_nout los = pupil + 2 * pad -> camera_on k pupil pad -> (0 <= E)%Qc -> (forall i, (reach pokes i <= most)%Qc) ->
  phase_within pokes E p q -> Forall (fun x => x = c) q ->
  exists s t, inst_strehl k true (wavefront k pupil pad p) = Some s /\ inst_strehl k false (wavefront k pupil pad p) = Some t /\ (s <= t)%R /\
    ((1 - qr (E * most) * qr (E * most)) * caught k <= s)%R.
Proof.
  intros V G C HE HM (L & W) HQ. apply (image_bound k pupil pad p c); [exact C| |].
  - rewrite (view_size _ _ _ _ V), G. reflexivity.
  - intros i Hi. rewrite <- (level_elem q c HQ i) by lia. eapply Qcle_trans; [apply W, Hi|].
    rewrite (Qcmult_comm E), (Qcmult_comm E). apply Qcmult_le_compat_r; [apply HM|exact HE].
Qed.
Lemma robust_strehl : forall (N : Z) (npix nmeas : nat) (ms : list mirror) (ws : list sensor) (ds : list dm) (ctrl : mat) (g range delta eta v first : Qc)
    (wanted : nat -> vec) (frames : list (list (arr Qc))),
  2 <= N -> Forall (mirror_ok N npix) ms -> Forall (driven npix) ds -> length ds = length ms -> length ctrl = actuators ds ->
  Forall (fun d => closed d = true /\ (g <= gain d)%Qc /\ (gain d <= 1)%Qc) ds ->
  (0 < g)%Qc -> (g <= 1)%Qc -> (0 <= delta)%Qc -> (delta < 1)%Qc -> (0 <= eta)%Qc -> (0 <= v)%Qc -> (0 <= first)%Qc ->
  (first + (eta + v) / (g * (1 - delta)) <= range)%Qc ->
  (forall n scr, nth_error frames n = Some scr ->
     (forall s, stack_ok (length ds) (Z.to_nat (N * N)) s -> length (read_sensors N ws scr s) = nmeas) /\
     accurate (mirror_fit N (map m_size ms)) ds ctrl range delta eta (wanted n) (read_sensors N ws scr)) ->
  (forall n, length (wanted n) = actuators ds) ->
  (forall n x, (x < actuators ds)%nat -> (qc_abs (elem (wanted (S n)) x - elem (wanted n) x) <= v)%Qc) ->
  within ds (wanted 0%nat) (vzero (actuators ds)) first ->
  exists outs, chain_run N ms ds ws nmeas ctrl 0 frames = Ok outs /\ length outs = length frames /\
    forall n o scr, nth_error outs n = Some o -> nth_error frames n = Some scr ->
    let E := ((1 - g * (1 - delta)) ^ n * first + (eta + v) / (g * (1 - delta)))%Qc in
    forall (los : geom) (k : cam) (pupil pad : Z) (pokes best : list vec) (q : vec) (c most : Qc),
      geom_ok N (length ms) los -> turbulence_ok N scr los -> g_nout los = pupil + 2 * pad -> camera_on k pupil pad ->
      poked N ms ds los = Ok pokes -> (forall i, (reach pokes i <= most)%Qc) ->
      run_dms (mirror_fit N (map m_size ms)) ds (wanted n) = Ok best -> view los (Some scr) (map (unflat N) best) = Ok q -> Forall (fun x => x = c) q ->
      exists p s t, view los (Some scr) (map (unflat N) (science o)) = Ok p /\
        inst_strehl k true (wavefront k pupil pad p) = Some s /\ inst_strehl k false (wavefront k pupil pad p) = Some t /\ (s <= t)%R /\
        ((1 - qr (E * most) * qr (E * most)) * caught k <= s)%R.
Proof.
  intros N npix nmeas ms ws ds ctrl g range delta eta v first wanted frames HN HM HD HL HR HC Hg Hg1 D1 D2 N0 V F0 HRa HA HW Hv HI.
  destruct (robust_sight N npix nmeas ms ws ds ctrl g range delta eta v first wanted frames HN HM HD HL HR HC Hg Hg1 D1 D2 N0 V F0 HRa HA HW Hv HI) as (outs & R1 & R2 & R3).
  exists outs. split; [exact R1|]. split; [exact R2|]. intros n o scr Ho Hs E los k pupil pad pokes best q c most G T Gn C HP Hm HB HV HQ.
  destruct (R3 n o scr Ho Hs) as [W S]. fold E in W. destruct (S los G T) as (pokes' & best' & p & q' & P1 & P2 & P3 & P4 & P5). fold E in P5.
  assert (pokes' = pokes) by congruence. assert (best' = best) by congruence. subst pokes' best'. assert (q' = q) by congruence. subst q'.
  assert (E0 : (0 <= E)%Qc).
  { assert (K : (0 < g * (1 - delta))%Qc) by (replace 0%Qc with (0 * (1 - delta))%Qc by ring; apply Qcmult_lt_compat_r; [qclra|auto]).
    destruct (pos_inv _ K) as [K1 _].
    assert (A1 : (0 * / (g * (1 - delta)) <= (eta + v) * / (g * (1 - delta)))%Qc) by (apply Qcmult_le_compat_r; qclra).
    assert (Q : (0 <= 1 - g * (1 - delta))%Qc).
    { assert (Q : (g * (1 - delta) <= 1 * (1 - delta))%Qc) by (apply Qcmult_le_compat_r; [auto|qclra]). qclra. }
    assert (Pw : (0 <= (1 - g * (1 - delta)) ^ n)%Qc).
    { clear - Q. induction n as [|n IH]; cbn [Qcpower]; [qclra|]. replace 0%Qc with (0 * (1 - g * (1 - delta)) ^ n)%Qc by ring. apply Qcmult_le_compat_r; auto. }
    assert (A2 : (0 * first <= (1 - g * (1 - delta)) ^ n * first)%Qc) by (apply Qcmult_le_compat_r; auto).
    unfold E, Qcdiv. rewrite Qcmult_0_l in A1, A2. qclra. }
  destruct (sight_strehl los k pupil pad pokes p q c most E _ _ P4 Gn C E0 Hm P5 HQ) as (s & t & S1 & S2 & S3 & S4). exists p, s, t. repeat split; auto.
Qed.
Lemma robust_delay_strehl : forall (N : Z) (npix nmeas : nat) (ms : list mirror) (ws : list sensor) (ds : list dm) (ctrl : mat) (g G range delta eta v first : Qc) (loop_delay : nat)
    (wanted : nat -> vec) (frames : list (list (arr Qc))),
  let dl := qz (Z.of_nat loop_delay) in
  let rate := (g * (1 - delta) - dl * (G * G) * (1 + delta))%Qc in
  let left := ((v + G * (eta + delta * (dl * v) + dl * (G * (eta + (1 + delta) * (dl * v))))) / rate)%Qc in
  2 <= N -> Forall (mirror_ok N npix) ms -> Forall (driven npix) ds -> length ds = length ms -> length ctrl = actuators ds ->
  Forall (fun d => closed d = true /\ (g <= gain d)%Qc /\ (gain d <= G)%Qc) ds ->
  (0 < g)%Qc -> (g <= G)%Qc -> (G <= 1)%Qc -> (0 <= delta)%Qc -> (delta < 1)%Qc -> (0 <= eta)%Qc -> (0 <= v)%Qc -> (0 <= first)%Qc -> (0 < rate)%Qc ->
  (first + left + dl * v <= range)%Qc ->
  (forall n scr, nth_error frames n = Some scr ->
     (forall s, stack_ok (length ds) (Z.to_nat (N * N)) s -> length (read_sensors N ws scr s) = nmeas) /\
     accurate (mirror_fit N (map m_size ms)) ds ctrl range delta eta (wanted n) (read_sensors N ws scr)) ->
  (forall n, length (wanted n) = actuators ds) ->
  (forall n x, (x < actuators ds)%nat -> (qc_abs (elem (wanted (S n)) x - elem (wanted n) x) <= v)%Qc) ->
  within ds (wanted 0%nat) (vzero (actuators ds)) first ->
  exists outs, chain_run N ms ds ws nmeas ctrl loop_delay frames = Ok outs /\ length outs = length frames /\
    forall n o scr, nth_error outs n = Some o -> nth_error frames n = Some scr ->
    let E := ((1 - rate) ^ ((n - loop_delay) / (2 * loop_delay + 1)) * first + left + dl * v)%Qc in
    forall (los : geom) (k : cam) (pupil pad : Z) (pokes best : list vec) (q : vec) (c most : Qc),
      geom_ok N (length ms) los -> turbulence_ok N scr los -> g_nout los = pupil + 2 * pad -> camera_on k pupil pad ->
      poked N ms ds los = Ok pokes -> (forall i, (reach pokes i <= most)%Qc) ->
      run_dms (mirror_fit N (map m_size ms)) ds (wanted n) = Ok best -> view los (Some scr) (map (unflat N) best) = Ok q -> Forall (fun x => x = c) q ->
      exists p s t, view los (Some scr) (map (unflat N) (science o)) = Ok p /\
        inst_strehl k true (wavefront k pupil pad p) = Some s /\ inst_strehl k false (wavefront k pupil pad p) = Some t /\ (s <= t)%R /\
        ((1 - qr (E * most) * qr (E * most)) * caught k <= s)%R.
Proof.
  intros N npix nmeas ms ws ds ctrl g G range delta eta v first loop_delay wanted frames dl rate left HN HM HD HL HR HC Hg HG HG1 D1 D2 N0 V F0 Hr HRa HA HW Hv HI.
  destruct (robust_delay_sight N npix nmeas ms ws ds ctrl g G range delta eta v first loop_delay wanted frames HN HM HD HL HR HC Hg HG HG1 D1 D2 N0 V F0 Hr HRa HA HW Hv HI) as (outs & R1 & R2 & R3).
  exists outs. split; [exact R1|]. split; [exact R2|]. intros n o scr Ho Hs E los k pupil pad pokes best q c most Gg T Gn C HP Hm HB HV HQ.
  destruct (R3 n o scr Ho Hs) as [W S]. fold dl rate left in W. fold E in W. destruct (S los Gg T) as (pokes' & best' & p & q' & P1 & P2 & P3 & P4 & P5). fold dl rate left in P5. fold E in P5.
  assert (pokes' = pokes) by congruence. assert (best' = best) by congruence. subst pokes' best'. assert (q' = q) by congruence. subst q'.
  assert (E0 : (0 <= E)%Qc) by (apply (delay_bound_nonneg g G delta eta v first loop_delay); auto; qclra).
  destruct (sight_strehl los k pupil pad pokes p q c most E _ _ P4 Gn C E0 Hm P5 HQ) as (s & t & S1 & S2 & S3 & S4). exists p, s, t. repeat split; auto.
Qed.
Lemma settles_strehl :
  forall (N : Z) (npix nmeas : nat) (ms : list mirror) (ws : list sensor) (ds : list dm) (imat ctrl : mat),
    2 <= N -> Forall (mirror_ok N npix) ms -> Forall (sensor_ok N (length ms)) ws ->
    calibrated_chain N npix nmeas ms ws ds imat ctrl ->
    forall (scr : list (arr Qc)) (t : vec) (surf : list vec), Forall (fun w => turbulence_ok N scr (s_geom w)) ws ->
    length t = total_acts (nvalids ds) -> run_dms (mirror_fit N (map m_size ms)) ds t = Ok surf ->
    Forall (fun w => no_phase (view (s_geom w) (Some scr) (map (unflat N) surf))) ws ->
    forall (los : geom) (k : cam) (pupil pad : Z), g_nout los = pupil + 2 * pad -> camera_on k pupil pad -> geom_ok N (length ms) los -> turbulence_ok N scr los -> no_phase (view los (Some scr) (map (unflat N) surf)) ->
    forall (loop_delay : nat) (eps : Qc), Forall (settles loop_delay) ms -> (0 < eps)%Qc ->
    exists n0, forall F outs n o, chain_run N ms ds ws nmeas ctrl loop_delay (repeat scr F) = Ok outs -> nth_error outs n = Some o -> (n0 <= n)%nat ->
      exists p s t, view los (Some scr) (map (unflat N) (science o)) = Ok p /\
        inst_strehl k true (wavefront k pupil pad p) = Some s /\ inst_strehl k false (wavefront k pupil pad p) = Some t /\ (s <= t)%R /\
        ((1 - qr eps * qr eps) * caught k <= s)%R.
Proof.
  intros N npix nmeas ms ws ds imat ctrl HN HM HW HCal scr t surf HT Ht HSu HNp los k pupil pad Gn C G T HV loop_delay eps HS He.
  destruct (chain_settles N npix nmeas ms ws ds imat ctrl HN HM HW HCal scr t surf HT Ht HSu HNp los G T HV loop_delay eps HS He) as [n0 H].
  exists n0. intros F outs n o HR Ho Hn. destruct (H F outs n o HR Ho Hn) as (p & V & P).
  destruct (image_bound k pupil pad p 0%Qc eps C) as (s & t' & S1 & S2 & S3 & S4).
  - rewrite (view_size _ _ _ _ V), Gn. reflexivity.
  - intros i Hi. rewrite Forall_forall in P. replace (elem p i - 0)%Qc with (elem p i) by ring. apply P. apply nth_In. exact Hi.
  - exists p, s, t'. repeat split; auto.
Qed.

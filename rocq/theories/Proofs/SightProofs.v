(** Proofs about what errors of the commands leave on a line of sight. *)
From Verif.Base Require Import Vec PyFacts.
From Verif.Model Require Import Recon Numerics Dm Los Delay Loop.
From Verif.Spec Require Import ReconSpec LoopSpec DmSpec LosSpec RobustSpec.
From Verif.Proofs Require Import ReconProofs DmProofs LosProofs LoopScalar LoopProofs RobustProofs RobustDelay.
From Verif.Model Require Import Chain.
From Verif.Spec Require Import ChainSpec.
From Verif.Spec Require Import SightSpec.
From Verif.Proofs Require Import ChainProofs.
Local Open Scope Z_scope.

Lemma abs_lsum l : (qc_abs (lsum l) <= lsum (map qc_abs l))%Qc.
Proof.
  induction l as [|x l IH]; [change (qc_abs 0 <= 0)%Qc; rewrite qc_abs_pos by qclra; qclra|].
  change (qc_abs (x + lsum l) <= qc_abs x + lsum (map qc_abs l))%Qc.
  assert (qc_abs (x + lsum l) <= qc_abs x + qc_abs (lsum l))%Qc by (unfold qc_abs; repeat destruct (Qclt_le_dec _ _); qclra). qclra.
Qed.
Lemma lsum_weighted {A} (f h : A -> Qc) E l : (0 <= E)%Qc -> (forall x, In x l -> (qc_abs (f x) <= E)%Qc) ->
  (qc_abs (lsum (map (fun x => f x * h x)%Qc l)) <= E * lsum (map (fun x => qc_abs (h x)) l))%Qc.
Proof.
  intros HE H. eapply Qcle_trans; [apply abs_lsum|]. rewrite map_map. induction l as [|x l IH]; [change (0 <= E * 0)%Qc; replace (E * 0)%Qc with 0%Qc by ring; apply Qcle_refl|].
  change (qc_abs (f x * h x) + lsum (map (fun x => qc_abs (f x * h x)%Qc) l) <= E * (qc_abs (h x) + lsum (map (fun x => qc_abs (h x)) l)))%Qc.
  specialize (IH ltac:(intros; apply H; right; auto)). rewrite qc_abs_mul.
  assert (qc_abs (f x) * qc_abs (h x) <= E * qc_abs (h x))%Qc by (apply Qcmult_le_compat_r; [apply H; left; reflexivity|apply qc_abs_nonneg]).
  replace (E * (qc_abs (h x) + lsum (map (fun x => qc_abs (h x)) l)))%Qc with (E * qc_abs (h x) + E * lsum (map (fun x => qc_abs (h x)) l))%Qc by ring. qclra.
Qed.

Section Sight.
  Variable N : Z.
  Variable npix : nat.
  Variable ms : list mirror.
  Variable ds : list dm.
  Hypothesis HN : 2 <= N.
  Hypothesis HM : Forall (mirror_ok N npix) ms.
  Hypothesis HD : Forall (driven npix) ds.
  Hypothesis HL : length ds = length ms.
  Let np := Z.to_nat (N * N).
  Let nd := length ms.
  Notation fit := (mirror_fit N (map m_size ms)).
  Notation total := (actuators ds).
  Notation surf c := (LoopProofs.surfaces fit npix np (fun _ => true) 0 0 ds c).

  Lemma fit_lin : linear_fit npix np fit.
  Proof using HN HM. apply fit_linear; [clear - HN; lia|exact (sizes_ok N npix ms HN HM)]. Qed.
  Lemma driven_surf c : length c = total -> run_dms fit ds c = Ok (surf c).
  Proof. intros Hc. unfold run_dms. apply (run_dms_surfaces fit npix np ds (repeat [] (actuators ds)) HD); auto.
    - intros k v. apply (proj1 (fit_lin k)).
    - apply repeat_length.
    - rewrite Hc. unfold actuators. lia.
  Qed.
  Lemma driven_stack c : stack_ok nd np (surf c).
  Proof. unfold nd. rewrite <- HL. apply (surfaces_stack fit npix np); [intros k v; apply (proj1 (fit_lin k))|exact HD]. Qed.
  Lemma driven_axpy a u v : length u = length v -> surf (axpy a u v) = stack_axpy a (surf u) (surf v).
  Proof.
    intros E. assert (G : forall l k o, Forall (driven npix) l ->
      LoopProofs.surfaces fit npix np (fun _ => true) k o l (axpy a u v)
      = stack_axpy a (LoopProofs.surfaces fit npix np (fun _ => true) k o l u) (LoopProofs.surfaces fit npix np (fun _ => true) k o l v)).
    { intros l k o HG. revert k o. induction HG as [|d l Hd HG IH]; intros k o; [reflexivity|].
      cbn [LoopProofs.surfaces]. unfold stack_axpy. cbn [combine map fst snd]. f_equal; [|apply IH].
      unfold LoopProofs.sframe. rewrite seg_axpy by auto. rewrite lincomb_axpy; [|apply Hd|unfold seg; rewrite !firstn_length, !skipn_length; lia].
      apply (fit_lin k); apply (stack_lincomb_ok npix); auto. }
    apply G. exact HD.
  Qed.
  Variable g : geom.
  Hypothesis HG : geom_ok N nd g.
  Definition made (c : vec) (k : nat) : Qc := (- (g_rad g * seen_sum g (map (unflat N) (surf c)) (g_dmalts g) k))%Qc.
  Lemma made_axpy a u v k : length u = total -> length v = total -> made (axpy a u v) k = (a * made u k + made v k)%Qc.
  Proof.
    intros Hu Hv. unfold made. rewrite driven_axpy by congruence. destruct (driven_stack u) as [U1 U2]. destruct (driven_stack v) as [V1 V2].
    rewrite (seen_axpy N np); [ring|exact U2|exact V2|exact (eq_trans U1 (eq_sym V1))].
  Qed.
  Lemma made_sum c k : length c = total -> made c k = lsum (map (fun x => elem c x * made (unit_vec total x) k)%Qc (seq 0 total)).
  Proof.
    intros Hc. apply (linear_ext total (fun c => made c k) (fun c => lsum (map (fun x => elem c x * made (unit_vec total x) k)%Qc (seq 0 total)))); auto.
    - intros a u v Hu Hv. apply made_axpy; auto.
    - intros a u v Hu Hv. generalize (seq 0 total) as l. intros l. induction l as [|x l IH]; [cbn; ring|].
      cbn [map lsum fold_right]. unfold lsum in IH. rewrite IH, elem_axpy by congruence. ring.
    - intros y Hy. assert (G : forall s m, (lsum (map (fun x => elem (unit_vec total y) x * made (unit_vec total x) k)%Qc (seq s m))
                              = if (s <=? y)%nat && (y <? s + m)%nat then made (unit_vec total y) k else 0)%Qc).
      { intros s m. revert s. induction m as [|m IH]; intros s.
        - cbn [seq map lsum fold_right]. destruct (Nat.leb_spec s y), (Nat.ltb_spec y (s + 0)); try reflexivity; lia.
        - cbn [seq map lsum fold_right]. unfold lsum in IH. rewrite IH, elem_unit by exact Hy.
          destruct (Nat.eqb_spec s y) as [->|Ne].
          + rewrite Nat.leb_refl. replace (S y <=? y)%nat with false by (symmetry; apply Nat.leb_gt; lia).
            replace (y <? y + S m)%nat with true by (symmetry; apply Nat.ltb_lt; lia). cbn [andb]. ring.
          + destruct (Nat.leb_spec (S s) y), (Nat.leb_spec s y), (Nat.ltb_spec y (S s + m)), (Nat.ltb_spec y (s + S m)); cbn [andb]; try lia; ring. }
      rewrite G. replace (y <? 0 + total)%nat with true by (symmetry; apply Nat.ltb_lt; exact Hy). reflexivity.
  Qed.
  Lemma view_made scr c : turbulence_ok N scr g -> 
    view g (Some scr) (map (unflat N) (surf c)) = Ok (map (fun k => g_rad g * seen_sum g scr (g_alts g) k + made c k)%Qc (pixels g)).
  Proof.
    intros T. destruct (driven_stack c) as [S1 S2]. rewrite (view_ok N nd); auto; try apply T; [|apply unflat_screens|rewrite map_length; exact S1].
    f_equal. apply map_ext. intros k. unfold made. cbn [scr_of]. ring.
  Qed.
  Lemma view_alone c : view g None (map (unflat N) (surf c)) = Ok (map (made c) (pixels g)).
  Proof.
    destruct (driven_stack c) as [S1 S2]. destruct HG as (G1 & _).
    rewrite (view_ok N nd); auto; [|cbn [scr_of]; rewrite G1; apply Forall_repeat; split; reflexivity|cbn [scr_of]; rewrite repeat_length; lia
      |apply unflat_screens|rewrite map_length; exact S1].
    f_equal. apply map_ext. intros k. unfold made. rewrite none_seen. ring.
  Qed.
  Lemma poked_ok : poked N ms ds g = Ok (map (fun x => map (made (unit_vec total x)) (pixels g)) (seq 0 total)).
  Proof.
    unfold poked. apply mapM_ok. intros x _. rewrite driven_surf by apply unit_vec_length. cbn [bind]. apply view_alone.
  Qed.
  Lemma elem_pixels (f : nat -> Qc) k : (k < length (pixels g))%nat -> elem (map f (pixels g)) k = f k.
  Proof.
    intros Hk. unfold pixels in *. rewrite seq_length in Hk. unfold elem. rewrite (nth_indep _ 0%Qc (f 0%nat)) by (rewrite map_length, seq_length; exact Hk).
    rewrite map_nth, seq_nth by exact Hk. reflexivity.
  Qed.
  Lemma sight scr t c E st sc : length t = total -> length c = total -> within ds t c E -> (0 <= E)%Qc ->
    run_dms fit ds t = Ok st -> run_dms fit ds c = Ok sc -> turbulence_ok N scr g ->
    exists pokes p q, poked N ms ds g = Ok pokes /\ view g (Some scr) (map (unflat N) sc) = Ok p /\ view g (Some scr) (map (unflat N) st) = Ok q /\
      phase_within pokes E p q.
  Proof.
    intros Lt Lc W HE Rt Rc T. rewrite driven_surf in Rt, Rc by auto. injection Rt as <-. injection Rc as <-.
    eexists _, _, _. split; [apply poked_ok|]. split; [apply view_made, T|]. split; [apply view_made, T|].
    split; [rewrite !map_length; reflexivity|]. rewrite map_length. intros k Hk. rewrite !elem_pixels by exact Hk.
    replace (g_rad g * seen_sum g scr (g_alts g) k + made c k - (g_rad g * seen_sum g scr (g_alts g) k + made t k))%Qc
      with (made (axpy (-(1)) t c) k) by (rewrite made_axpy by auto; ring).
    rewrite made_sum by (rewrite axpy_length; congruence). unfold reach. rewrite map_map.
    replace (map (fun x => qc_abs (elem (map (made (unit_vec total x)) (pixels g)) k)) (seq 0 total))
      with (map (fun x => qc_abs (made (unit_vec total x) k)) (seq 0 total)) by (apply map_ext; intros x; rewrite elem_pixels by exact Hk; reflexivity).
    apply lsum_weighted; [exact HE|]. intros x Hx. apply in_seq in Hx. rewrite elem_axpy by congruence.
    specialize (W x ltac:(lia)). rewrite <- qc_abs_opp. replace (- (-(1) * elem t x + elem c x))%Qc with (elem t x - elem c x)%Qc by ring. exact W.
  Qed.
End Sight.

(** the loop *)
Section Run.
  Variable N : Z.
  Variables npix nmeas : nat.
  Variable ms : list mirror.
  Variable ws : list sensor.
  Variable ds : list dm.
  Variable ctrl : mat.
  Hypothesis HN : 2 <= N.
  Hypothesis HM : Forall (mirror_ok N npix) ms.
  Hypothesis HD : Forall (driven npix) ds.
  Hypothesis HL : length ds = length ms.
  Hypothesis HR : length ctrl = actuators ds.
  Let np := Z.to_nat (N * N).
  Notation fit := (mirror_fit N (map m_size ms)).
  Variables (frames : list (list (arr Qc))) (wanted : nat -> vec) (bound : nat -> Qc) (loop_delay : nat).
  Hypothesis HS : forall n scr, nth_error frames n = Some scr -> forall s, stack_ok (length ds) np s -> length (read_sensors N ws scr s) = nmeas.
  Hypothesis HW : forall n, length (wanted n) = actuators ds.
  Hypothesis H0 : forall n, (0 <= bound n)%Qc.
  Hypothesis HB : exists L outs, loop_run fit ds nmeas (actuators ds) ctrl (Z.of_nat loop_delay) (loop_init (length ds) np nmeas) (map (read_sensors N ws) frames) = Ok (L, outs) /\
     length outs = length (map (read_sensors N ws) frames) /\ forall n o, nth_error outs n = Some o -> within ds (wanted n) (applied o) (bound n).
  Lemma run_sight :
    exists outs, chain_run N ms ds ws nmeas ctrl loop_delay frames = Ok outs /\ length outs = length frames /\
      forall n o scr, nth_error outs n = Some o -> nth_error frames n = Some scr ->
        within ds (wanted n) (applied o) (bound n) /\
        forall los, geom_ok N (length ms) los -> turbulence_ok N scr los ->
        exists pokes best p q, poked N ms ds los = Ok pokes /\ run_dms fit ds (wanted n) = Ok best /\
          view los (Some scr) (map (unflat N) best) = Ok q /\ view los (Some scr) (map (unflat N) (science o)) = Ok p /\ phase_within pokes (bound n) p q.
  Proof.
    destruct HB as (L & outs & R1 & R2 & R3). exists outs. rewrite map_length in R2.
    assert (HF : Forall (fun f : list vec -> vec => forall s, stack_ok (length ds) np s -> length (f s) = nmeas) (map (read_sensors N ws) frames)).
    { apply Forall_forall. intros f Hf. apply in_map_iff in Hf. destruct Hf as (scr & <- & Hs). destruct (In_nth_error _ _ Hs) as [n Hn]. exact (HS n scr Hn). }
    destruct (loop_run_ok fit npix np nmeas ds ctrl HD (fun k v => proj1 (fit_lin N npix ms HN HM k) v) HR loop_delay _ _ (init_inv np nmeas ds ctrl HR loop_delay) HF)
      as (L' & outs' & As & Q1 & _ & _ & _ & _ & _ & Q7 & _).
    fold (actuators ds) in Q1. assert (outs' = outs) by congruence. subst outs'.
    split; [|split; [exact R2|]].
    - unfold chain_run. fold (actuators ds). fold np. rewrite R1. reflexivity.
    - intros n o scr Ho Hs. split; [apply R3, Ho|]. intros los G T.
      rewrite Forall_forall in Q7. destruct (Q7 o (nth_error_In _ _ Ho)) as [A1 A2].
      pose proof (driven_surf N npix ms ds HN HM HD HL _ (HW n)) as D1. pose proof (driven_surf N npix ms ds HN HM HD HL _ A1) as D2.
      destruct (sight N npix ms ds HN HM HD HL los G scr (wanted n) (applied o) (bound n) _ _ (HW n) A1 (R3 n o Ho) (H0 n) D1 D2 T) as (pokes & p & q & E1 & E2 & E3 & E4).
      exists pokes. eexists. exists p, q. split; [exact E1|]. split; [exact D1|]. split; [exact E3|]. split; [|exact E4]. rewrite A2. exact E2.
  Qed.
End Run.

Lemma robust_sight (N : Z) (npix nmeas : nat) (ms : list mirror) (ws : list sensor) (ds : list dm) (ctrl : mat) (g range delta eta v first : Qc)
    (wanted : nat -> vec) (frames : list (list (arr Qc))) :
  2 <= N -> Forall (mirror_ok N npix) ms -> Forall (driven npix) ds -> length ds = length ms -> length ctrl = actuators ds ->
  Forall (fun d => closed d = true /\ (g <= gain d)%Qc /\ (gain d <= 1)%Qc) ds ->
  (0 < g)%Qc -> (g <= 1)%Qc -> (0 <= delta)%Qc -> (delta < 1)%Qc -> (0 <= eta)%Qc -> (0 <= v)%Qc -> (0 <= first)%Qc ->
  (first + (eta + v) / (g * (1 - delta)) <= range)%Qc ->
  (forall n scr, nth_error frames n = Some scr ->
     (forall s, stack_ok (length ds) (Z.to_nat (N * N)) s -> length (read_sensors N ws scr s) = nmeas) /\
     accurate (mirror_fit N (map m_size ms)) ds ctrl range delta eta (wanted n) (read_sensors N ws scr)) ->
  (forall n, length (wanted n) = actuators ds) ->
  (forall n x, (x < actuators ds)%nat -> (qc_abs (elem (wanted (S n)) x - elem (wanted n) x) <= v)%Qc) ->
  within ds (wanted 0%nat) (vzero (actuators ds)) first ->
  exists outs, chain_run N ms ds ws nmeas ctrl 0 frames = Ok outs /\ length outs = length frames /\
    forall n o scr, nth_error outs n = Some o -> nth_error frames n = Some scr ->
    let E := ((1 - g * (1 - delta)) ^ n * first + (eta + v) / (g * (1 - delta)))%Qc in
      within ds (wanted n) (applied o) E /\
      forall los, geom_ok N (length ms) los -> turbulence_ok N scr los ->
      exists pokes best p q, poked N ms ds los = Ok pokes /\ run_dms (mirror_fit N (map m_size ms)) ds (wanted n) = Ok best /\
        view los (Some scr) (map (unflat N) best) = Ok q /\ view los (Some scr) (map (unflat N) (science o)) = Ok p /\ phase_within pokes E p q.
Proof.
  intros HN HM HD HL HR HC Hg Hg1 D1 D2 N0 V F0 HRa HA HW Hv HI.
  assert (Nn : (0 <= (eta + v) / (g * (1 - delta)))%Qc).
  { assert (P : (0 < g * (1 - delta))%Qc) by (replace 0%Qc with (0 * (1 - delta))%Qc by ring; apply Qcmult_lt_compat_r; [qclra|auto]).
    destruct (pos_inv _ P) as [P1 _]. unfold Qcdiv. replace 0%Qc with (0 * / (g * (1 - delta)))%Qc by ring. apply Qcmult_le_compat_r; qclra. }
  assert (Pw : forall n, (0 <= (1 - g * (1 - delta)) ^ n)%Qc).
  { assert (Q : (0 <= 1 - g * (1 - delta))%Qc).
    { assert (Q : (g * (1 - delta) <= 1 * (1 - delta))%Qc) by (apply Qcmult_le_compat_r; [auto|qclra]). qclra. }
    intros n. induction n as [|n IH]; cbn [Qcpower]; [qclra|]. replace 0%Qc with (0 * (1 - g * (1 - delta)) ^ n)%Qc by ring. apply Qcmult_le_compat_r; auto. }
  apply (run_sight N npix nmeas ms ws ds ctrl HN HM HD HL HR frames wanted (fun n => (1 - g * (1 - delta)) ^ n * first + (eta + v) / (g * (1 - delta)))%Qc 0); auto.
  - intros n scr H. apply (HA n scr H).
  - intros n. assert (0 * first <= (1 - g * (1 - delta)) ^ n * first)%Qc by (apply Qcmult_le_compat_r; auto). replace (0 * first)%Qc with 0%Qc in H by ring. qclra.
  - apply (robust_run (mirror_fit N (map m_size ms)) npix (Z.to_nat (N * N)) nmeas ds ctrl HD (fun k v => proj1 (fit_lin N npix ms HN HM k) v) HR g range delta eta v first wanted); auto.
    intros n f H. rewrite nth_error_map in H. destruct (nth_error frames n) as [scr|] eqn:Es; [|discriminate]. injection H as <-. apply (HA n scr Es).
Qed.
Lemma delay_bound_nonneg (g G delta eta v first : Qc) (loop_delay n : nat) :
  let dl := qz (Z.of_nat loop_delay) in
  let rate := (g * (1 - delta) - dl * (G * G) * (1 + delta))%Qc in
  let left := ((v + G * (eta + delta * (dl * v) + dl * (G * (eta + (1 + delta) * (dl * v))))) / rate)%Qc in
  (0 < g)%Qc -> (g <= 1)%Qc -> (0 <= G)%Qc -> (0 <= delta)%Qc -> (delta < 1)%Qc -> (0 <= eta)%Qc -> (0 <= v)%Qc -> (0 <= first)%Qc -> (0 < rate)%Qc ->
  (0 <= (1 - rate) ^ ((n - loop_delay) / (2 * loop_delay + 1)) * first + left + dl * v)%Qc.
Proof.
  intros dl rate left Hg Hg1 G0 D1 D2 N0 V F0 Hr.
  assert (Dn : (0 <= dl)%Qc) by (unfold dl; rewrite <- qz_0; apply qz_le; lia).
  assert (mul0 : forall a b, (0 <= a)%Qc -> (0 <= b)%Qc -> (0 <= a * b)%Qc) by (intros a b A B; replace 0%Qc with (0 * b)%Qc by ring; apply Qcmult_le_compat_r; auto).
  assert (DV : (0 <= dl * v)%Qc) by auto.
  assert (L0 : (0 <= left)%Qc).
  { destruct (pos_inv _ Hr) as [P1 _]. unfold left, Qcdiv. apply mul0; [|qclra].
    assert (A1 : (0 <= delta * (dl * v))%Qc) by auto. assert (A2 : (0 <= (1 + delta) * (dl * v))%Qc) by (apply mul0; [qclra|auto]).
    assert (A3 : (0 <= G * (eta + (1 + delta) * (dl * v)))%Qc) by (apply mul0; [auto|qclra]).
    assert (A4 : (0 <= dl * (G * (eta + (1 + delta) * (dl * v))))%Qc) by auto.
    assert (A5 : (0 <= G * (eta + delta * (dl * v) + dl * (G * (eta + (1 + delta) * (dl * v)))))%Qc) by (apply mul0; [auto|qclra]). qclra. }
  assert (Rr : (0 <= 1 - rate)%Qc).
  { assert (Q1 : (g * (1 - delta) <= 1 * (1 - delta))%Qc) by (apply Qcmult_le_compat_r; qclra).
    assert (Q2 : (0 <= dl * (G * G) * (1 + delta))%Qc) by (apply mul0; [apply mul0; auto|qclra]). unfold rate. qclra. }
  assert (Pw : forall m, (0 <= (1 - rate) ^ m)%Qc).
  { intros m. induction m as [|m IH]; cbn [Qcpower]; [qclra|]. apply mul0; auto. }
  assert (0 <= (1 - rate) ^ ((n - loop_delay) / (2 * loop_delay + 1)) * first)%Qc by (apply mul0; auto). qclra.
Qed.
Lemma robust_delay_sight (N : Z) (npix nmeas : nat) (ms : list mirror) (ws : list sensor) (ds : list dm) (ctrl : mat) (g G range delta eta v first : Qc) (loop_delay : nat)
    (wanted : nat -> vec) (frames : list (list (arr Qc))) :
  let dl := qz (Z.of_nat loop_delay) in
  let rate := (g * (1 - delta) - dl * (G * G) * (1 + delta))%Qc in
  let left := ((v + G * (eta + delta * (dl * v) + dl * (G * (eta + (1 + delta) * (dl * v))))) / rate)%Qc in
  2 <= N -> Forall (mirror_ok N npix) ms -> Forall (driven npix) ds -> length ds = length ms -> length ctrl = actuators ds ->
  Forall (fun d => closed d = true /\ (g <= gain d)%Qc /\ (gain d <= G)%Qc) ds ->
  (0 < g)%Qc -> (g <= G)%Qc -> (G <= 1)%Qc -> (0 <= delta)%Qc -> (delta < 1)%Qc -> (0 <= eta)%Qc -> (0 <= v)%Qc -> (0 <= first)%Qc -> (0 < rate)%Qc ->
  (first + left + dl * v <= range)%Qc ->
  (forall n scr, nth_error frames n = Some scr ->
     (forall s, stack_ok (length ds) (Z.to_nat (N * N)) s -> length (read_sensors N ws scr s) = nmeas) /\
     accurate (mirror_fit N (map m_size ms)) ds ctrl range delta eta (wanted n) (read_sensors N ws scr)) ->
  (forall n, length (wanted n) = actuators ds) ->
  (forall n x, (x < actuators ds)%nat -> (qc_abs (elem (wanted (S n)) x - elem (wanted n) x) <= v)%Qc) ->
  within ds (wanted 0%nat) (vzero (actuators ds)) first ->
  exists outs, chain_run N ms ds ws nmeas ctrl loop_delay frames = Ok outs /\ length outs = length frames /\
    forall n o scr, nth_error outs n = Some o -> nth_error frames n = Some scr ->
    let E := ((1 - rate) ^ ((n - loop_delay) / (2 * loop_delay + 1)) * first + left + dl * v)%Qc in
      within ds (wanted n) (applied o) E /\
      forall los, geom_ok N (length ms) los -> turbulence_ok N scr los ->
      exists pokes best p q, poked N ms ds los = Ok pokes /\ run_dms (mirror_fit N (map m_size ms)) ds (wanted n) = Ok best /\
        view los (Some scr) (map (unflat N) best) = Ok q /\ view los (Some scr) (map (unflat N) (science o)) = Ok p /\ phase_within pokes E p q.
Proof.
  intros dl rate left HN HM HD HL HR HC Hg HG HG1 D1 D2 N0 V F0 Hr HRa HA HW Hv HI.
  apply (run_sight N npix nmeas ms ws ds ctrl HN HM HD HL HR frames wanted
    (fun n => (1 - rate) ^ ((n - loop_delay) / (2 * loop_delay + 1)) * first + left + dl * v)%Qc loop_delay); auto.
  - intros n scr H. apply (HA n scr H).
  - intros n. apply (delay_bound_nonneg g G delta eta v first loop_delay); auto; qclra.
  - apply (robust_delay (mirror_fit N (map m_size ms)) npix (Z.to_nat (N * N)) nmeas ds ctrl HD (fun k v => proj1 (fit_lin N npix ms HN HM k) v) HR
      g G range delta eta v first left loop_delay wanted); auto.
    + unfold left. apply rate_inv. exact Hr.
    + intros n f H. rewrite nth_error_map in H. destruct (nth_error frames n) as [scr|] eqn:Es; [|discriminate]. injection H as <-. apply (HA n scr Es).
Qed.

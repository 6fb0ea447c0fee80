(** C178: the closed loop with sensors that are not linear or not calibrated exactly. *)
From Verif.Base Require Import Vec.
From Verif.Model Require Import Recon Loop.
From Verif.Spec Require Import ReconSpec LoopSpec.
From Verif.Proofs Require Import LoopProofs.
From Verif.Spec Require Import RobustSpec.
From Verif.Proofs Require Import RobustProofs.

(** C178: sensors that, over a range of commands, report what is left to correct to within a fraction [delta] < 1 and noise [eta]: turbulence
    whose wanted commands change by at most [v] per frame is corrected down to (eta + v) / (g (1 - delta)), and the error it started with
    disappears like (1 - g (1 - delta))^n, where [g] is the smallest gain; if that stays within the range. *)
Theorem C178_robust (fit : nat -> vec -> vec) (npix npx nmeas : nat) (ds : list dm) (ctrl : mat)
    (g range delta eta v first : Qc) (wanted : nat -> vec) (senses : list (list vec -> vec)) :
  Forall (driven npix) ds -> (forall k v, length v = npix -> length (fit k v) = npx) -> length ctrl = actuators ds ->
  Forall (fun d => closed d = true /\ (g <= gain d)%Qc /\ (gain d <= 1)%Qc) ds ->
  (0 < g)%Qc -> (g <= 1)%Qc -> (0 <= delta)%Qc -> (delta < 1)%Qc -> (0 <= eta)%Qc -> (0 <= v)%Qc -> (0 <= first)%Qc ->
  (first + (eta + v) / (g * (1 - delta)) <= range)%Qc ->
  (forall n f, nth_error senses n = Some f ->
     (forall s, stack_ok (length ds) npx s -> length (f s) = nmeas) /\ accurate fit ds ctrl range delta eta (wanted n) f) ->
  (forall n x, (x < actuators ds)%nat -> (qc_abs (elem (wanted (S n)) x - elem (wanted n) x) <= v)%Qc) ->
  within ds (wanted 0%nat) (vzero (actuators ds)) first ->
  exists L outs, loop_run fit ds nmeas (actuators ds) ctrl 0 (loop_init (length ds) npx nmeas) senses = Ok (L, outs) /\ length outs = length senses /\
    forall n o, nth_error outs n = Some o ->
      within ds (wanted n) (applied o) ((1 - g * (1 - delta)) ^ n * first + (eta + v) / (g * (1 - delta)))%Qc.
Proof. intros H1 H2 H3. exact (robust_run fit npix npx nmeas ds ctrl H1 H2 H3 g range delta eta v first wanted senses). Qed.
Print Assumptions C178_robust.
(** In particular a calibrated system whose sensors then report [a] times the slopes they were calibrated with (spots of another size, a plate
    scale that is a little off) corrects static turbulence for every [a] between 0 and 2. *)
Theorem C178_scaled (fit : nat -> vec -> vec) (npix npx nmeas : nat) (wfss : list (list vec -> vec)) (ds0 ds : list dm) (imat ctrl : mat)
    (g a first : Qc) (base : vec) (N : nat) :
  calibrated_system fit npix npx nmeas wfss ds0 ds imat ctrl -> length base = nmeas ->
  Forall (fun d => closed d = true /\ (g <= gain d)%Qc /\ (gain d <= 1)%Qc) ds -> (0 < g)%Qc -> (g <= 1)%Qc -> (0 < a)%Qc -> (a < 1 + 1)%Qc ->
  (forall x, (x < actuators ds)%nat -> (qc_abs (elem (mvm ctrl base) x) <= first)%Qc) ->
  exists L outs, loop_run fit ds nmeas (actuators ds) ctrl 0 (loop_init (length ds) npx nmeas)
      (repeat (fun s => vscale a (with_turbulence wfss base s)) N) = Ok (L, outs) /\ length outs = N /\
    forall n o, nth_error outs n = Some o -> within ds (mvm ctrl base) (applied o) ((1 - g * (1 - qc_abs (a - 1))) ^ n * first)%Qc.
Proof. exact (scaled_run fit npix npx nmeas wfss ds0 ds imat ctrl g a first base N). Qed.
Print Assumptions C178_scaled.

(** One mirror with one actuator and gain 1/2, and a sensor that saturates: it reports at most 2 however large the wavefront. Within 3 of the
    wanted command it is accurate to a third; the error falls at least like (2/3)^n. *)
Definition rx_dms : list dm := [ mkDm 1 [[1%Qc]] [true] (Some 1%nat) true (qfrac 1 2) ].
Definition rx_fit (k : nat) (v : vec) : vec := v.
Definition rx_ctrl : mat := [[qz (-1)]].
Definition rx_sat (x : Qc) : Qc := if Qclt_le_dec x (qz (-2)) then qz (-2) else if Qclt_le_dec (qz 2) x then qz 2 else x.
Definition rx_sense (s : list vec) : vec := match s with [[c]] => [rx_sat (qz (-3) + c)] | _ => [0%Qc] end.
Lemma rx_frames c : run_dms rx_fit rx_dms [c] = Ok [[c]].
Proof. unfold run_dms, run_dms_from, rx_dms. cbn -[qfrac qz]. unfold dm_frame. cbn -[qfrac qz]. change (Pos.to_nat 1) with 1%nat. cbn -[qfrac qz]. match goal with |- Ok [[?a]] = _ => replace a with c; [reflexivity|] | |- ?g => idtac g end. change (Q2Qc 0) with 0%Qc. ring. Qed.
Lemma rx_accurate : accurate rx_fit rx_dms rx_ctrl (qz 3) (qfrac 1 3) 0%Qc [qz 3] rx_sense.
Proof.
  intros c frames E Lc RD W HE x Hx. change (actuators rx_dms) with 1%nat in *.
  destruct c as [|c [|]]; try discriminate. assert (x = 0%nat) by lia. subst x. specialize (W 0%nat Hx).
  rewrite rx_frames in RD. inversion RD; subst frames; clear RD. cbn -[qz qfrac qc_abs] in *.
  replace (qz 0) with 0%Qc by reflexivity.
  assert (B : (- E <= qz 3 - c)%Qc /\ (qz 3 - c <= E)%Qc) by (destruct (qc_abs_ge (qz 3 - c)); split; qclra).
  assert (Hm : (qc_abs (- rx_sat (qz (-3) + c) - (qz 3 - c)) <= qfrac 1 3 * E)%Qc).
  { assert (Z3 : qz 3 = (1 + 1 + 1)%Qc) by (apply Qc_is_canon; reflexivity). assert (Zm3 : qz (-3) = (- (1 + 1 + 1))%Qc) by (apply Qc_is_canon; reflexivity).
    assert (Z2 : qz 2 = (1 + 1)%Qc) by (apply Qc_is_canon; reflexivity). assert (Zm2 : qz (-2) = (- (1 + 1))%Qc) by (apply Qc_is_canon; reflexivity).
    assert (T : (qfrac 1 3 * (1 + 1 + 1) = 1)%Qc) by (apply Qc_is_canon; reflexivity).
    destruct B as [B1 B2]. unfold rx_sat, qc_abs. rewrite ?Z3, ?Zm3, ?Z2, ?Zm2 in *. set (t := qfrac 1 3) in *. clearbody t. clear W Hx.
    destruct (Qclt_le_dec (- (1 + 1 + 1) + c) (- (1 + 1))); [|destruct (Qclt_le_dec (1 + 1) (- (1 + 1 + 1) + c))];
      match goal with |- context [Qclt_le_dec ?a ?b] => destruct (Qclt_le_dec a b) end; try qcnra. }
  eapply Qcle_trans; [|rewrite Qcplus_0_r; exact Hm]. match goal with |- (?a <= ?b)%Qc => replace a with b; [apply Qcle_refl|] end. f_equal.
  replace (qz (-1)) with (- (1))%Qc by (apply Qc_is_canon; reflexivity). ring.
Qed.

Example C178_instance :
  (qz 3 + (0 + 0) / (qfrac 1 2 * (1 - qfrac 1 3)) <= qz 3)%Qc /\ Forall (driven 1) rx_dms /\ length rx_ctrl = actuators rx_dms /\
  (forall s, stack_ok (length rx_dms) 1 s -> length (rx_sense s) = 1%nat) /\ accurate rx_fit rx_dms rx_ctrl (qz 3) (qfrac 1 3) 0%Qc [qz 3] rx_sense /\
  within rx_dms [qz 3] (vzero (actuators rx_dms)) (qz 3) /\
  match loop_run rx_fit rx_dms 1 1 rx_ctrl 0 (loop_init 1 1 1) (repeat rx_sense 4) with
  | Ok (_, outs) => map applied outs = [[qz 0]; [qz 1]; [qz 2]; [qfrac 5 2]]
  | Err _ => False
  end.
Proof.
  split; [vm_compute; discriminate|]. split; [repeat constructor; discriminate|]. split; [reflexivity|].
  split; [intros s _; destruct s as [|[|? [|]] [|]]; reflexivity|]. split; [exact rx_accurate|].
  split; [intros y Hy; change (actuators rx_dms) with 1%nat in Hy; assert (y = 0%nat) by lia; subst y; vm_compute; discriminate|].
  qc_compute; reflexivity.
Qed.

(** The fraction has to be below 1: a sensor that reports nothing misses the rest by all of it, and nothing is ever corrected. *)
Definition rx_blind (s : list vec) : vec := [0%Qc].
Example C178_fraction_needed : accurate rx_fit rx_dms rx_ctrl (qz 3) 1%Qc 0%Qc [qz 3] rx_blind /\
  match loop_run rx_fit rx_dms 1 1 rx_ctrl 0 (loop_init 1 1 1) (repeat rx_blind 5) with
  | Ok (_, outs) => map applied outs = repeat [qz 0] 5
  | Err _ => False
  end.
Proof.
  split; [|qc_compute; reflexivity].
  intros c frames E Lc RD W HE x Hx. change (actuators rx_dms) with 1%nat in *. specialize (W x Hx). assert (x = 0%nat) by lia. subst x.
  eapply Qcle_trans; [|eapply Qcle_trans; [exact W|]].
  - unfold elem, rx_ctrl, rx_blind. rewrite <- qc_abs_opp. cbn -[qz qc_abs]. match goal with |- (?a <= ?b)%Qc => replace a with b; [apply Qcle_refl|] end.
    f_equal. change (Q2Qc 0) with 0%Qc. ring.
  - match goal with |- (?a <= ?b)%Qc => replace b with a by ring end. apply Qcle_refl.
Qed.

(** The same mirror, calibrated with a sensor that then reports 3/2 of what it was calibrated with. *)
Definition rx_wfs (s : list vec) : vec := match s with [[c]] => [c] | _ => [0%Qc] end.
Lemma rx_stack s : stack_ok 1 1 s -> exists c, s = [[c]].
Proof.
  intros [HL HF]. destruct s as [|u [|v s]]; try discriminate. inversion HF as [|? ? H1 _]; subst.
  destruct u as [|a [|]]; try discriminate. eauto.
Qed.
Definition rx_fresh : list dm := [ new_dm [[1%Qc]] true (qfrac 1 2) ].
Definition rx_fit1 (k : nat) (v : vec) : vec := if (length v =? 1)%nat then v else vzero 1.
Example rx_system : calibrated_system rx_fit1 1 1 1 [rx_wfs] rx_fresh (fst (make_imat rx_fit1 1 [rx_wfs] rx_fresh)) [[qz (-1)]] rx_ctrl.
Proof.
  constructor.
  - repeat constructor.
  - qc_compute; reflexivity.
  - repeat constructor. exists 0%nat. qc_compute; reflexivity.
  - intros k. unfold rx_fit1. split; [|split].
    + intros v Hv. rewrite Hv. exact Hv.
    + intros n. destruct (length (vzero n) =? 1)%nat eqn:E; auto.
      apply Nat.eqb_eq in E. rewrite vzero_length in E. subst. reflexivity.
    + intros a u v Hu Hv. rewrite axpy_length by congruence. rewrite Hu, Hv. reflexivity.
  - repeat constructor; [exists 1%nat; intros s Hs; destruct (rx_stack s Hs) as (c & ->); reflexivity|].
    intros a s t Hs Ht. destruct (rx_stack s Hs) as (c & ->). destruct (rx_stack t Ht) as (e & ->). reflexivity.
  - intros s Hs. destruct (rx_stack s Hs) as (c & ->). reflexivity.
  - reflexivity.
  - intros [|x] row Hx; simpl in Hx; try (destruct x; discriminate); inversion Hx; qc_compute; reflexivity.
Qed.
Example C178_scaled_instance :
  let ds := fst (make_imat rx_fit1 1 [rx_wfs] rx_fresh) in
  Forall (fun d => closed d = true /\ (qfrac 1 2 <= gain d)%Qc /\ (gain d <= 1)%Qc) ds /\ elem (mvm rx_ctrl [qz (-8)]) 0 = qz 8 /\
  match loop_run rx_fit1 ds 1 (actuators ds) rx_ctrl 0 (loop_init 1 1 1) (repeat (fun s => vscale (qfrac 3 2) (with_turbulence [rx_wfs] [qz (-8)] s)) 4) with
  | Ok (_, outs) => map applied outs = [[qz 0]; [qz 6]; [qfrac 15 2]; [qfrac 63 8]]
  | Err _ => False
  end.
Proof. split; [repeat constructor; vm_compute; discriminate|]. split; qc_compute; reflexivity. Qed.

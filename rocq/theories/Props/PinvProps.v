(** Property theorems C189: a loop whose control matrix is a pseudo-inverse. *)
From Verif.Base Require Import Vec.
From Verif.Model Require Import Recon Loop.
From Verif.Spec Require Import ReconSpec LoopSpec RobustSpec.
From Verif.Spec Require Import PinvSpec.
From Verif.Proofs Require Import LoopProofs LoopConv.
From Verif.Proofs Require Import PinvProofs PinvConv.
From Verif.Props Require LoopProps.

(** C189, part 1: sensors and mirrors may be such that some combinations of actuators are invisible, or so weak that the pseudo-inverse leaves them out.  Whatever the
    turbulence does in each frame, and for any delay, the commands on the mirrors are in every frame ones that the control matrix can make: they reconstruct to
    themselves from the measurements that the interaction matrix predicts for them, so that nothing ever builds up among the invisible combinations.  The measurements are the
    turbulence's less those predicted for the commands, the mirrors carry the commands, and the command vector integrates, with the loop gain, the command that the
    turbulence asks for less the one applied in the same frame. *)
Theorem C189_law :
  forall fit npix npx nmeas wfss ds0 ds imat ctrl g,
    projecting_system fit npix npx nmeas wfss ds0 ds imat ctrl -> all_closed_at g ds ->
    forall loop_delay bases, Forall (fun b => length b = nmeas) bases ->
    exists outs, system_run fit npx nmeas wfss ds ctrl loop_delay bases = Ok outs /\ length outs = length bases /\
      (exists u : nat -> vec, u 0%nat = vzero (actuators ds) /\
        forall n base o, nth_error bases n = Some base -> nth_error outs n = Some o ->
          applied o = (if (n <? loop_delay)%nat then vzero (actuators ds) else u (n - loop_delay)%nat) /\
          length (u n) = actuators ds /\
          u (S n) = vadd (vscale g (vsub (mvm ctrl base) (applied o))) (u n)) /\
      (forall n base o, nth_error bases n = Some base -> nth_error outs n = Some o ->
         mvm ctrl (predicted nmeas imat (applied o)) = applied o /\
         measured o = vsub base (predicted nmeas imat (applied o)) /\
         run_dms fit ds (applied o) = Ok (science o)).
Proof.
  intros fit npix npx nmeas wfss ds0 ds imat ctrl g HS HC dl bases HB.
  destruct (projecting_law fit npix npx nmeas wfss ds0 ds imat ctrl HS g HC dl bases HB) as (outs & R1 & R2 & (u & U0 & U) & R4).
  exists outs. split; [exact R1|]. split; [exact R2|]. split.
  - exists u. split; [exact U0|]. intros n base o Hb Ho. destruct (U n base o Hb Ho) as (A1 & A2 & A3). split; [exact A1|]. split; [exact A2|].
    rewrite A3. unfold axpy at 1. rewrite vsub_axpy; [reflexivity|]. destruct (R4 n base o Hb Ho) as [[L _] _].
    rewrite mvm_length. rewrite (ctrl_len fit npix npx nmeas wfss ds0 ds imat ctrl HS). symmetry. exact L.
  - intros n base o Hb Ho. destruct (R4 n base o Hb Ho) as ([_ M] & S1 & S2). split; [exact M|]. split; [|exact S2].
    rewrite vsub_axpy; [exact S1|]. rewrite predicted_length. rewrite Forall_forall in HB. apply HB. eapply nth_error_In; eauto.
Qed.
Print Assumptions C189_law.

(** C189, part 2: for a turbulence that does not change, frame n has the share 1 - E n of the commands that the turbulence asks for, and measures what those commands leave
    plus the share E n of what they remove; E depends on nothing but the gain and the delay.  What they leave reconstructs to nothing. *)
Theorem C189_static :
  forall fit npix npx nmeas wfss ds0 ds imat ctrl g,
    projecting_system fit npix npx nmeas wfss ds0 ds imat ctrl -> all_closed_at g ds ->
    forall loop_delay, exists E, left_over g loop_delay E /\
    forall base, length base = nmeas -> let want := mvm ctrl base in let leaves := vsub base (predicted nmeas imat want) in
      mvm ctrl leaves = vzero (actuators ds) /\
      forall N outs n o, system_run fit npx nmeas wfss ds ctrl loop_delay (repeat base N) = Ok outs -> nth_error outs n = Some o ->
        applied o = vscale (1 - E n) want /\ measured o = vadd leaves (vscale (E n) (predicted nmeas imat want)).
Proof.
  intros fit npix npx nmeas wfss ds0 ds imat ctrl g HS HC dl. exists (err g 1 dl). split; [apply err_left_over|]. intros base Hb want leaves.
  split; [exact (blind fit npix npx nmeas wfss ds0 ds imat ctrl HS base Hb)|].
  intros N outs n o. exact (static_run fit npix npx nmeas wfss ds0 ds imat ctrl HS g HC dl base N outs n o Hb).
Qed.
Print Assumptions C189_static.

(** C189, part 3: with a gain of at most 1 whose product with the delay is below 1, commands and measurements settle. *)
Theorem C189_settles :
  forall fit npix npx nmeas wfss ds0 ds imat ctrl g,
    projecting_system fit npix npx nmeas wfss ds0 ds imat ctrl -> all_closed_at g ds ->
    forall loop_delay, (0 < g)%Qc -> (g <= 1)%Qc -> (g * qz (Z.of_nat loop_delay) < 1)%Qc ->
    forall base e, length base = nmeas -> (0 < e)%Qc ->
    exists N0, forall N outs n o, system_run fit npx nmeas wfss ds ctrl loop_delay (repeat base N) = Ok outs -> nth_error outs n = Some o -> (N0 <= n)%nat ->
      (forall x, (qc_abs (elem (mvm ctrl base) x - elem (applied o) x) <= e)%Qc) /\
      (forall k, (qc_abs (elem (measured o) k - elem (vsub base (predicted nmeas imat (mvm ctrl base))) k) <= e)%Qc).
Proof.
  intros fit npix npx nmeas wfss ds0 ds imat ctrl g HS HC dl G0 G1 Gd base e Hb He.
  exact (pinv_settles fit npix npx nmeas wfss ds0 ds imat ctrl HS g HC dl base e Hb G0 G1 Gd He).
Qed.
Print Assumptions C189_settles.

(** C189, part 4: what the settled loop leaves has the least sum of squares that any commands could leave whose effect is not cut off by the control matrix. *)
Theorem C189_least_squares :
  forall fit npix npx nmeas wfss ds0 ds imat ctrl,
    projecting_system fit npix npx nmeas wfss ds0 ds imat ctrl -> least_squares nmeas imat ctrl ->
    forall base c, length base = nmeas -> length c = actuators ds ->
    predicted nmeas imat (mvm ctrl (predicted nmeas imat c)) = predicted nmeas imat c ->
    let leaves := vsub base (predicted nmeas imat (mvm ctrl base)) in let other := vsub base (predicted nmeas imat c) in
    (dot leaves leaves <= dot other other)%Qc.
Proof.
  intros fit npix npx nmeas wfss ds0 ds imat ctrl HS HQ base c Hb Hc HP.
  exact (least fit npix npx nmeas wfss ds0 ds imat ctrl HS base c HQ Hb Hc HP).
Qed.
Print Assumptions C189_least_squares.

(** C189, part 5: without delay and with a gain up to 2, the sum of the squared measurements never grows from one frame to the next. *)
Theorem C189_never_worse :
  forall fit npix npx nmeas wfss ds0 ds imat ctrl g,
    projecting_system fit npix npx nmeas wfss ds0 ds imat ctrl -> all_closed_at g ds -> least_squares nmeas imat ctrl ->
    (0 <= g)%Qc -> (g <= 1 + 1)%Qc ->
    forall base N outs n o o', length base = nmeas -> system_run fit npx nmeas wfss ds ctrl 0 (repeat base N) = Ok outs ->
      nth_error outs n = Some o -> nth_error outs (S n) = Some o' ->
      (dot (measured o') (measured o') <= dot (measured o) (measured o))%Qc.
Proof.
  intros fit npix npx nmeas wfss ds0 ds imat ctrl g HS HC HQ G0 G2 base N outs n o o' Hb HR Ho Ho'.
  exact (never_worse fit npix npx nmeas wfss ds0 ds imat ctrl HS g HC base N outs n o o' HQ G0 G2 Hb HR Ho Ho').
Qed.
Print Assumptions C189_never_worse.

(** Two mirrors that can make the same shape: an actuator of the first and the only one of the second have the same row in the interaction matrix, so no control matrix
    can tell them apart (such a system is no [calibrated_system]). *)
Definition px_dms : list dm :=
  [ new_dm [[qz 2; qz 0; qz 1]; [qz 0; qz 3; qz 0]] true (qfrac 1 2); new_dm [[qz 2; qz 0; qz 1]] true (qfrac 1 2) ].
Definition px_ds : list dm := fst (make_imat LoopProps.lx_fit 3 LoopProps.lx_wfss px_dms).
Definition px_imat : mat := [[qz (-2); qz 0; qz (-1)]; [qz 0; qz (-3); qz 0]; [qz (-2); qz 0; qz (-1)]].
Definition px_ctrl : mat := [[qfrac (-1) 5; qz 0; qfrac (-1) 10]; [qz 0; qfrac (-1) 3; qz 0]; [qfrac (-1) 5; qz 0; qfrac (-1) 10]].
Lemma px_vec (s : vec) : length s = 3%nat -> exists a b c, s = [a; b; c].
Proof. destruct s as [|a [|b [|c [|]]]]; try discriminate. eauto. Qed.
Lemma px_mvm a b c : mvm px_ctrl [a; b; c] = [(qfrac (-1) 5 * a + qfrac (-1) 10 * c)%Qc; (qfrac (-1) 3 * b)%Qc; (qfrac (-1) 5 * a + qfrac (-1) 10 * c)%Qc].
Proof.
  unfold mvm, px_ctrl, dot. cbn [map vmap2]. unfold lsum. cbn [fold_right]. change (qz 0) with 0%Qc.
  repeat (apply f_equal2; [ring|]). reflexivity.
Qed.
Lemma px_predicted a b c : predicted 3 px_imat [a; b; c] = [(qz (-2) * (a + c))%Qc; (qz (-3) * b)%Qc; (- (a + c))%Qc].
Proof.
  unfold predicted, px_imat, elem. cbn [length seq map nth]. unfold lsum. cbn [fold_right]. change (qz 0) with 0%Qc. change (qz (-1)) with (-(1))%Qc.
  repeat (apply f_equal2; [ring|]). reflexivity.
Qed.
Lemma px_f10 : qfrac (-1) 10 = (qfrac (-1) 5 * qfrac 1 2)%Qc. Proof. apply Qc_is_canon. vm_compute. reflexivity. Qed.
Lemma px_f5 : (qz (-2) * (qfrac (-1) 5 + qfrac (-1) 5) + (-(1)) * (qfrac (-1) 10 + qfrac (-1) 10))%Qc = 1%Qc. Proof. apply Qc_is_canon. vm_compute. reflexivity. Qed.
Lemma px_f3 : (qfrac (-1) 3 * qz (-3))%Qc = 1%Qc. Proof. apply Qc_is_canon. vm_compute. reflexivity. Qed.
Lemma px_two : (qz (-2) * qfrac 1 2)%Qc = (-(1))%Qc. Proof. apply Qc_is_canon. vm_compute. reflexivity. Qed.
Example px_system : projecting_system LoopProps.lx_fit 3 3 3 LoopProps.lx_wfss px_dms px_ds px_imat px_ctrl.
Proof.
  pose proof LoopProps.lx_system as [_ _ _ T W Nm _ _]. constructor.
  - repeat constructor.
  - unfold px_ds. qc_compute; reflexivity.
  - unfold px_ds. repeat constructor; [exists 1%nat|exists 0%nat]; qc_compute; reflexivity.
  - exact T.
  - exact W.
  - exact Nm.
  - split; [reflexivity|]. intros s Hs. destruct (px_vec s Hs) as (a & b & c & ->). rewrite px_mvm, px_predicted, px_mvm.
    set (p := (qfrac (-1) 5 * a + qfrac (-1) 10 * c)%Qc).
    assert (E1 : (qfrac (-1) 5 * (qz (-2) * (p + p)) + qfrac (-1) 10 * - (p + p))%Qc = p).
    { transitivity ((qz (-2) * (qfrac (-1) 5 + qfrac (-1) 5) + (-(1)) * (qfrac (-1) 10 + qfrac (-1) 10)) * p)%Qc; [ring|]. rewrite px_f5. ring. }
    assert (E2 : (qfrac (-1) 3 * (qz (-3) * (qfrac (-1) 3 * b)) = qfrac (-1) 3 * b)%Qc).
    { transitivity ((qfrac (-1) 3 * qz (-3)) * (qfrac (-1) 3 * b))%Qc; [ring|]. rewrite px_f3. ring. }
    rewrite E1, E2. reflexivity.
Qed.
Example px_least : least_squares 3 px_imat px_ctrl.
Proof.
  intros s t Hs Ht. destruct (px_vec s Hs) as (a & b & c & ->). destruct (px_vec t Ht) as (d & e & f & ->).
  rewrite !px_mvm, !px_predicted. set (p := (qfrac (-1) 5 * a + qfrac (-1) 10 * c)%Qc). set (q := (qfrac (-1) 5 * d + qfrac (-1) 10 * f)%Qc).
  unfold dot, vsub. cbn [vmap2]. unfold lsum. cbn [fold_right].
  assert (E1 : ((b - qz (-3) * (qfrac (-1) 3 * b)) = 0)%Qc) by (transitivity ((1 - qfrac (-1) 3 * qz (-3)) * b)%Qc; [ring|]; rewrite px_f3; ring).
  rewrite E1. transitivity ((qz (-2) * a - c - (qz (-2) * qz (-2) + 1) * (p + p)) * (q + q))%Qc; [ring|].
  assert (E2 : (qz (-2) * a - c - (qz (-2) * qz (-2) + 1) * (p + p) = 0)%Qc).
  { unfold p. assert (F1 : ((qz (-2) * qz (-2) + 1) * (qfrac (-1) 5 + qfrac (-1) 5) = qz (-2))%Qc) by (apply Qc_is_canon; vm_compute; reflexivity).
    assert (F2 : ((qz (-2) * qz (-2) + 1) * (qfrac (-1) 10 + qfrac (-1) 10) = -(1))%Qc) by (apply Qc_is_canon; vm_compute; reflexivity).
    transitivity (qz (-2) * a - c - ((qz (-2) * qz (-2) + 1) * (qfrac (-1) 5 + qfrac (-1) 5) * a + (qz (-2) * qz (-2) + 1) * (qfrac (-1) 10 + qfrac (-1) 10) * c))%Qc; [ring|].
    rewrite F1, F2. ring. }
  rewrite E2. ring.
Qed.
Example C189_instance : projecting_system LoopProps.lx_fit 3 3 3 LoopProps.lx_wfss px_dms px_ds px_imat px_ctrl /\ all_closed_at (qfrac 1 2) px_ds /\
  least_squares 3 px_imat px_ctrl /\ actuators px_ds = 3%nat /\ nth_error px_imat 0 = nth_error px_imat 2 /\
  match system_run LoopProps.lx_fit 3 3 LoopProps.lx_wfss px_ds px_ctrl 1 (repeat [qz 10; qz 6; qz 0] 4) with
  | Ok outs => map applied outs = [[qz 0; qz 0; qz 0]; [qz 0; qz 0; qz 0]; [qz (-1); qz (-1); qz (-1)]; [qz (-2); qz (-2); qz (-2)]] /\
               map measured outs = [[qz 10; qz 6; qz 0]; [qz 10; qz 6; qz 0]; [qz 6; qz 3; qz (-2)]; [qz 2; qz 0; qz (-4)]]
  | Err _ => False
  end.
Proof.
  split; [exact px_system|]. split; [unfold px_ds; repeat constructor; qc_compute; reflexivity|]. split; [exact px_least|].
  split; [vm_compute; reflexivity|]. split; [reflexivity|]. unfold px_ds. qc_compute.
Qed.

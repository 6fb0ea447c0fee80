(** Property theorems C105-C110: the other reconstructors. *)
From Verif.Base Require Import Vec.
From Verif.Model Require Import Recon Control Persist.
From Verif.Spec Require Import ReconSpec ControlSpec.
From Verif.Proofs Require Import ReconProofs ControlProofs ControlTomo ControlUse.

(** Systems used in the instances: two Shack-Hartmanns of one sub-aperture each; a mirror of two actuators
    (closed loop, gain 1/2) on sensor 0, one of one actuator (open loop, gain 1/4) on sensor 1. *)
Definition cx_ws : list sensor := [mkSensor 2 (Some 1%nat) None; mkSensor 2 (Some 1%nat) None].
Definition cx_dm (n : nat) (cl : bool) (g : Qc) : dm := mkDm n [] (repeat true n) (Some n) cl g.
Definition cx_ms : list mirror :=
  [mkMirror (cx_dm 2 true (qfrac 1 2)) (Some 0%nat) false (qfrac 1 20); mkMirror (cx_dm 1 false (qfrac 1 4)) (Some 1%nat) false (qfrac 1 20)].
Definition cx_imat : mat := [[qz 1; qz 0; qz 0; qz 0]; [qz 0; qz 1; qz 0; qz 0]; [qz 0; qz 0; qz 1; qz 0]].
(** inverts matrices with orthogonal rows of 0 and +-1, and diagonal ones *)
Definition cx_pinv (c : Qc) (M : mat) : result mat := Ok (map (map (fun x => if qc_eqb x 0 then 0 else 1 / x)%Qc) M).
Lemma cx_inverts : inverts cx_pinv.
Proof.
  intros c r k M [HL HF]. eexists. split; [reflexivity|]. split; [rewrite map_length; exact HL|].
  apply Forall_map. eapply Forall_impl; [|exact HF]. intros x Hx. cbn beta in *. rewrite map_length. exact Hx.
Qed.
Definition cx_net (v : vec) : vec := v.

(** C105: with MVM_SeparateDMs, if every mirror names its WFS and no actuator was dropped in calibration, the
    commands of each mirror are its own law applied to the inverse of its own interaction block times the
    measurements of its own WFS. *)
Theorem C105_own_sensor_partial :
  forall pinvT rc ws ms net imat learn1 learn2, inverts pinvT ->
  shaped (total_n_acts ms) (total_data ws) imat -> Forall (attached ws) ms -> Forall all_kept ms ->
  forall l : list vec, Forall (fun v : vec => length v = total_data ws) l ->
  exists outs, use pinvT rc ws ms net MVM_SeparateDMs imat learn1 learn2 l = Ok outs /\ length outs = length l /\
    forall k m w s o a, nth_error ms k = Some m -> m_wfs m = Some w -> nth_error ws w = Some s ->
      nth_error (data_starts ws) w = Some o ->
      nth_error (dm_offsets 0 (map (fun m => n_acts (m_dm m)) ms)) k = Some a ->
      exists P, pinvT (m_cond m) (submatrix a (n_acts (m_dm m)) o (s_meas s) imat) = Ok P /\
        forall i c, nth_error outs i = Some c ->
          segment a (n_acts (m_dm m)) c
          = (if closed (m_dm m) then integrator (n_acts (m_dm m)) (gain (m_dm m)) else exp_filter (n_acts (m_dm m)) (gain (m_dm m)))
              (map (fun v => mvm P (segment o (s_meas s) v)) (firstn (S i) l)).
Proof. exact separate_commands. Qed.
Print Assumptions C105_own_sensor_partial.

(** C105: so measurements of other WFSs never reach it. *)
Theorem C105_isolated_partial :
  forall pinvT ws ms imat net learn1 learn2, inverts pinvT ->
  shaped (total_n_acts ms) (total_data ws) imat -> Forall (attached ws) ms -> Forall all_kept ms ->
  forall rc (l l' : list vec), length l = length l' ->
  Forall (fun v : vec => length v = total_data ws) l -> Forall (fun v : vec => length v = total_data ws) l' ->
  exists outs outs',
    use pinvT rc ws ms net MVM_SeparateDMs imat learn1 learn2 l = Ok outs /\
    use pinvT rc ws ms net MVM_SeparateDMs imat learn1 learn2 l' = Ok outs' /\
    length outs = length l /\ length outs' = length l /\
    forall k m w s o a, nth_error ms k = Some m -> m_wfs m = Some w -> nth_error ws w = Some s ->
      nth_error (data_starts ws) w = Some o ->
      nth_error (dm_offsets 0 (map (fun m => n_acts (m_dm m)) ms)) k = Some a ->
      (forall i v v', nth_error l i = Some v -> nth_error l' i = Some v' ->
         segment o (s_meas s) v = segment o (s_meas s) v') ->
      forall i c c', nth_error outs i = Some c -> nth_error outs' i = Some c' ->
        segment a (n_acts (m_dm m)) c = segment a (n_acts (m_dm m)) c'.
Proof. exact separate_isolated. Qed.
Print Assumptions C105_isolated_partial.

Example C105_instance :
  shaped (total_n_acts cx_ms) (total_data cx_ws) cx_imat /\ Forall (attached cx_ws) cx_ms /\ Forall all_kept cx_ms /\
  use cx_pinv (qz 0) cx_ws cx_ms cx_net MVM_SeparateDMs cx_imat [] [] [[qz 2; qz 4; qz 8; qz 1]; [qz 2; qz 4; qz 8; qz 1]]
  = Ok [[qz 1; qz 2; qz 2]; [qz 2; qz 4; qfrac 7 2]].
Proof.
  split; [split; [reflexivity | repeat constructor]|].
  split; [repeat constructor; eexists _, _; split; reflexivity|]. split; [repeat constructor|]. qc_compute; reflexivity.
Qed.

(** C105 is false if some mirror names no WFS (the default)... *)
Theorem C105_unattached_refuted :
  forall pinvT rc ws ms net imat learn1 learn2 l, Exists (fun m => m_wfs m = None) ms ->
    exists e, use pinvT rc ws ms net MVM_SeparateDMs imat learn1 learn2 l = Err e.
Proof.
  intros pinvT rc ws ms net imat learn1 learn2 l H. unfold use. cbn [calibrate]. unfold separate.
  destruct (sep_calc_unattached pinvT ws ms imat ms 0 0 (zeros2 (total_n_acts ms) (total_w ws)) H) as [e ->]. cbn. eauto.
Qed.
Print Assumptions C105_unattached_refuted.

(** ... and if calibration dropped actuators, so that the rows of the interaction matrix end inside (but not
    one row into) a mirror's. *)
Theorem C105_dropped_refuted :
  forall pinvT rc ws ms net imat learn1 learn2 l k m a, nth_error ms k = Some m ->
    nth_error (dm_offsets 0 (map (fun m => n_acts (m_dm m)) ms)) k = Some a -> (0 < n_acts (m_dm m))%nat ->
    (length imat < a + n_acts (m_dm m))%nat -> (length imat <> a + 1)%nat ->
    exists e, use pinvT rc ws ms net MVM_SeparateDMs imat learn1 learn2 l = Err e.
Proof.
  intros pinvT rc ws ms net imat learn1 learn2 l k m a Hk Ha Hn Hl Hne. unfold use. cbn [calibrate]. unfold separate.
  destruct (sep_calc_short pinvT ws ms imat ms 0 0 (zeros2 (total_n_acts ms) (total_w ws))) as [e ->]; [|cbn; eauto].
  exists k, m, a. auto 10.
Qed.
Print Assumptions C105_dropped_refuted.

Example C105_dropped_instance :
  let m := mkMirror (mkDm 3 [] [true; true; false] (Some 2%nat) true (qfrac 1 2)) (Some 0%nat) false (qz 0) in
  use cx_pinv (qz 0) cx_ws [m] cx_net MVM_SeparateDMs [[qz 1; qz 0; qz 0; qz 0]; [qz 0; qz 1; qz 0; qz 0]] [] [] [] = Err ValueError.
Proof. qc_compute; reflexivity. Qed.

(** C106: LearnAndApply applies the gain law to the inverse of the on-axis interaction matrix times the
    tomographic estimate of the on-axis slopes, when the first mirror is not of type TT. *)
Theorem C106_gain_law_partial :
  forall pinvT rcond ws ms net imat learn1 learn2 n T Pc d0 r outs, inverts pinvT -> first_sh ws n ->
  ms = d0 :: r -> m_tt d0 = false -> Forall has_valid (map m_dm ms) -> shaped (total_valid ms) (total_data ws) imat ->
  la_calc pinvT rcond ws (map (firstn n) imat) learn1 = Ok (T, Pc) ->
  forall l : list vec, Forall (fun v : vec => length v = total_data ws) l ->
  use pinvT rcond ws ms net LearnAndApply imat learn1 learn2 l = Ok outs ->
  forall k m nk a i x, nth_error ms k = Some m -> n_valid (m_dm m) = Some nk ->
    nth_error (dm_offsets 0 (nvalids (map m_dm ms))) k = Some a -> nth_error outs i = Some x ->
    segment a nk x = (if closed (m_dm m) then integrator nk (gain (m_dm m)) else exp_filter nk (gain (m_dm m)))
                       (map (fun v => segment a nk (mvm Pc (mvm T (skipn n v)))) (firstn (S i) l)).
Proof. exact la_commands. Qed.
Print Assumptions C106_gain_law_partial.

(** C106 is false when the first mirror is of type TT: the commands depend neither on any gain, nor on which
    mirrors are closed-loop... *)
Theorem C106_tip_tilt_gain_refuted :
  forall pinvT rcond ws net imat learn1 learn2 ms ms' d0 r d0' r',
    ms = d0 :: r -> m_tt d0 = true -> ms' = d0' :: r' -> m_tt d0' = true -> forall l,
    use pinvT rcond ws ms net LearnAndApply imat learn1 learn2 l = use pinvT rcond ws ms' net LearnAndApply imat learn1 learn2 l.
Proof.
  intros pinvT rcond ws net imat learn1 learn2 ms ms' d0 r d0' r' E1 H1 E2 H2 l. unfold use.
  cbn [calibrate]. destruct (let* n := on_axis ws in _) as [c|e]; cbn [bind]; [|reflexivity].
  apply (la_frames_tt ws net net c ms ms' _ _ d0 r d0' r' E1 H1 E2 H2).
Qed.
Print Assumptions C106_tip_tilt_gain_refuted.

(** ... nor on the past: equal measurements give equal commands in any two frames. *)
Theorem C106_tip_tilt_memory_refuted :
  forall pinvT rcond ws net imat learn1 learn2 ms d0 r, ms = d0 :: r -> m_tt d0 = true ->
  forall l outs, use pinvT rcond ws ms net LearnAndApply imat learn1 learn2 l = Ok outs ->
  forall i j m a b, nth_error l i = Some m -> nth_error l j = Some m ->
    nth_error outs i = Some a -> nth_error outs j = Some b -> a = b.
Proof.
  intros pinvT rcond ws net imat learn1 learn2 ms d0 r E1 H1 l outs E. unfold use in E.
  destruct (calibrate _ _ _ _ _ _ _ _) as [c|e]; cbn [bind] in E; [|discriminate].
  apply (la_frames_tt_memoryless ws net c ms _ d0 r E1 H1 l None outs E).
Qed.
Print Assumptions C106_tip_tilt_memory_refuted.

(** C106 with a single WFS: there is nothing to estimate from, and all commands are zero. *)
Theorem C106_single_sensor :
  forall pinvT rcond ws s ms d0 r net imat learn1 learn2 n, inverts pinvT -> ws = [s] -> first_sh ws n ->
  ms = d0 :: r -> m_tt d0 = false -> Forall has_valid (map m_dm ms) -> shaped (total_valid ms) (total_data ws) imat ->
  forall l outs, Forall (fun m : vec => length m = total_data ws) l ->
    use pinvT rcond ws ms net LearnAndApply imat learn1 learn2 l = Ok outs -> outs = map (fun _ => vzero (total_valid ms)) l.
Proof. exact la_single_idle. Qed.
Print Assumptions C106_single_sensor.

(** Learnt frames: the second sensor sees (1,0), (-1,0), (0,1), (0,-1) and the first twice, respectively
    minus, that. *)
Definition cx_learn : list (list vec) :=
  [ [[qz 2; qz 0]; [qz 1; qz 0]]; [[qz (-2); qz 0]; [qz (-1); qz 0]];
    [[qz 0; qz (-1)]; [qz 0; qz 1]]; [[qz 0; qz 1]; [qz 0; qz (-1)]] ].
Definition cx_imat2 : mat := [[qz 1; qz 0; qz 1; qz 0]; [qz 0; qz 1; qz 0; qz 1]; [qz 0; qz 2; qz 0; qz 0]].
Definition cx_tt (cl : bool) (g : Qc) : list mirror := [mkMirror (cx_dm 2 cl g) None true (qz 0); mkMirror (cx_dm 1 cl g) None false (qz 0)].

Example C106_instance :
  la_calc cx_pinv (qz 0) cx_ws (map (firstn 2) cx_imat2) cx_learn
  = Ok ([[qz 2; qz 0]; [qz 0; qz (-1)]], [[qz 1; qz 0]; [qz 0; qz 1]; [qz 0; qfrac 1 2]]) /\
  use cx_pinv (qz 0) cx_ws cx_ms cx_net LearnAndApply cx_imat2 cx_learn [] [[qz 9; qz 9; qz 3; qz 8]; [qz 0; qz 0; qz 3; qz 8]]
  = Ok [[qz 3; qz (-4); qz (-1)]; [qz 6; qz (-8); qfrac (-7) 4]] /\
  use cx_pinv (qz 0) cx_ws (cx_tt true (qfrac 1 2)) cx_net LearnAndApply cx_imat2 cx_learn []
    [[qz 9; qz 9; qz 3; qz 8]; [qz 0; qz 0; qz 3; qz 8]]
  = Ok [[qz 6; qz (-8); qz 0]; [qz 6; qz (-8); qz 0]].
Proof. split; [|split]; qc_compute; reflexivity. Qed.

Example C106_single_instance :
  use cx_pinv (qz 0) [mkSensor 2 (Some 1%nat) None] [mkMirror (cx_dm 2 true (qz 1)) None false (qz 0)] cx_net LearnAndApply
    [[qz 1; qz 0]; [qz 0; qz 1]] [[[qz 1; qz 2]]; [[qz 3; qz 4]]] [] [[qz 5; qz 6]; [qz 7; qz 8]] = Ok [[qz 0; qz 0]; [qz 0; qz 0]].
Proof. qc_compute; reflexivity. Qed.

(** C107: when all WFSs make equally many measurements, each learnt record is the measurements of all WFSs in
    order. *)
Theorem C107_equal_sensors_partial :
  forall n ws frs, Forall (fun s => s_meas s = n) ws ->
  Forall (fun fr : list vec => length fr = length ws /\ Forall (fun f : vec => length f = n) fr) frs ->
  learn ws frs = Ok (map (@concat Qc) frs).
Proof. exact learn_equal. Qed.
Print Assumptions C107_equal_sensors_partial.

Example C107_instance : learn cx_ws cx_learn = Ok (map (@concat Qc) cx_learn).
Proof. apply (learn_equal 2); repeat constructor. Qed.

(** C107 is false for two WFSs of different sizes: a larger second WFS makes learning raise... *)
Theorem C107_larger_refuted :
  forall s0 s1 frs, (0 < s_meas s0)%nat -> (s_meas s0 < s_meas s1)%nat -> frs <> [] ->
  Forall (fun fr => exists f0 f1 : vec, fr = [f0; f1] /\ length f0 = s_meas s0 /\ length f1 = s_meas s1) frs ->
  learn [s0; s1] frs = Err ValueError.
Proof. exact learn_two_larger. Qed.
Print Assumptions C107_larger_refuted.

(** ... and a smaller one overwrites measurements of the first, leaving zeros at the end. *)
Theorem C107_smaller_refuted :
  forall s0 s1 f0 f1, (0 < s_meas s1)%nat -> (s_meas s1 < s_meas s0)%nat ->
  length f0 = s_meas s0 -> length f1 = s_meas s1 ->
  learn [s0; s1] [[f0; f1]] = Ok [firstn (s_meas s1) f0 ++ f1 ++ skipn (2 * s_meas s1) (f0 ++ vzero (s_meas s1))].
Proof. exact learn_two_smaller. Qed.
Print Assumptions C107_smaller_refuted.

Example C107_smaller_instance :
  learn [mkSensor 4 (Some 2%nat) None; mkSensor 2 (Some 1%nat) None] [[[qz 1; qz 2; qz 3; qz 4]; [qz 8; qz 9]]]
  = Ok [[qz 1; qz 2; qz 8; qz 9; qz 0; qz 0]].
Proof. qc_compute; reflexivity. Qed.

(** C108: the estimate LearnAndApply makes of every on-axis measurement from the off-axis ones is, over the
    learnt records, at least as good as any other linear estimate in the sum of squared errors; and where some
    estimate is exact, so is this one. *)
Theorem C108_least_squares_partial :
  forall pinvT rcond ws imat frs n T Pc,
  first_sh ws n -> Forall (fun s => s_meas s = n) ws ->
  Forall (fun fr : list vec => length fr = length ws /\ Forall (fun f : vec => length f = n) fr) frs ->
  (forall C P, cov (total_data ws) (map (@concat Qc) frs) = Ok C ->
     pinvT cov_rcond (map (skipn n) (skipn n C)) = Ok P ->
     shaped (total_data ws - n) (total_data ws - n) P /\ generalised_inverse (map (skipn n) (skipn n C)) P) ->
  la_calc pinvT rcond ws imat frs = Ok (T, Pc) ->
  forall i v, (i < n)%nat -> length v = (total_data ws - n)%nat ->
    (sq_error (map (@concat Qc) frs) n i (nth i T []) <= sq_error (map (@concat Qc) frs) n i v)%Qc /\
    ((forall r, In r (map (@concat Qc) frs) -> estimate_error (map (@concat Qc) frs) n i v r = 0%Qc) ->
      forall r, In r (map (@concat Qc) frs) -> estimate_error (map (@concat Qc) frs) n i (nth i T []) r = 0%Qc).
Proof. exact la_tomography. Qed.
Print Assumptions C108_least_squares_partial.

(** Records with noise: the error is not zero, and a worse estimate exists. *)
Definition cx_noisy : list (list vec) :=
  [ [[qz 2; qz 0]; [qz 1; qz 0]]; [[qz 0; qz 0]; [qz (-1); qz 0]]; [[qz 0; qz (-1)]; [qz 0; qz 1]]; [[qz 0; qz 1]; [qz 0; qz (-1)]] ].
Example C108_instance :
  exists C, cov 4 (map (@concat Qc) cx_noisy) = Ok C /\
    (forall P, cx_pinv cov_rcond (map (skipn 2) (skipn 2 C)) = Ok P ->
       shaped 2 2 P /\ generalised_inverse (map (skipn 2) (skipn 2 C)) P) /\
    la_calc cx_pinv (qz 0) cx_ws (map (firstn 2) cx_imat2) cx_noisy
    = Ok ([[qz 1; qz 0]; [qz 0; qz (-1)]], [[qz 1; qz 0]; [qz 0; qz 1]; [qz 0; qfrac 1 2]]) /\
    sq_error (map (@concat Qc) cx_noisy) 2 0 [qz 1; qz 0] = qz 1 /\
    sq_error (map (@concat Qc) cx_noisy) 2 0 [qz 2; qz 0] = qz 3.
Proof.
  eexists. split; [qc_compute; reflexivity|]. split.
  - intros P E. assert (Q : P = [[qfrac 3 2; qz 0]; [qz 0; qfrac 3 2]]).
    { vm_compute in E. injection E as <-. qc_compute; reflexivity. }
    subst P. split; [repeat constructor|]. intros i l Hi Hl. cbn [length map skipn] in Hi, Hl.
    destruct i as [|[|i]]; [| |lia]; (destruct l as [|[|l]]; [| |lia]); qc_compute; reflexivity.
  - split; [|split]; qc_compute; reflexivity.
Qed.

(** C108 is false when the cut-off acts: the second off-axis measurement is exactly a hundred-thousandth of the second on-axis one, in every record, so one linear
    estimate is exact; the estimate made is zero. *)
Definition cx_faint : list (list vec) :=
  [ [[qz 0; qz 0]; [qz 1; qz 0]]; [[qz 0; qz 0]; [qz (-1); qz 0]]; [[qz 0; qz 1]; [qz 0; qfrac 1 100000]]; [[qz 0; qz (-1)]; [qz 0; qfrac (-1) 100000]] ].
Theorem C108_cutoff_refuted :
  forall pinvT rcond imat P, cuts_off pinvT -> pinvT rcond imat = Ok P ->
  exists T, la_calc pinvT rcond cx_ws imat cx_faint = Ok (T, P) /\ nth 1 T [] = [qz 0; qz 0] /\
    sq_error (map (@concat Qc) cx_faint) 2 1 [qz 0; qz 0] = qz 2 /\ sq_error (map (@concat Qc) cx_faint) 2 1 [qz 0; qz 100000] = qz 0.
Proof.
  intros pinvT rcond imat P H E. exists [[qz 0; qz 0]; [qz 0; qz 0]]. split; [|split; [reflexivity|split; qc_compute; reflexivity]].
  unfold la_calc. assert (E1 : on_axis cx_ws = Ok 2%nat) by reflexivity. rewrite E1. cbn [bind].
  assert (E2 : learn cx_ws cx_faint = Ok (map (@concat Qc) cx_faint)) by (qc_compute; reflexivity). rewrite E2. cbn [bind].
  assert (E3 : cov (total_w cx_ws) (map (@concat Qc) cx_faint) = Ok [[qz 0; qz 0; qz 0; qz 0]; [qz 0; qfrac 2 3; qz 0; qfrac 1 150000]; [qz 0; qz 0; qfrac 2 3; qz 0]; [qz 0; qfrac 1 150000; qz 0; qfrac 1 15000000000]])
    by (qc_compute; reflexivity).
  rewrite E3. cbn [bind]. unfold tomography. cbn [map skipn firstn Nat.sub].
  change (qz 0) with 0%Qc.
  rewrite (H cov_rcond (qfrac 2 3) (qfrac 1 15000000000)) by (vm_compute; congruence). cbn [bind map]. rewrite E. reflexivity.
Qed.
Print Assumptions C108_cutoff_refuted.
Definition cut_pinv (c : Qc) (M : mat) : result mat :=
  Ok (map (map (fun x => if qc_leb x (c * fold_right (fun y m => if qc_leb m y then y else m) 0 (concat M)) then 0 else 1 / x)%Qc) M).
Example C108_cutoff_instance : cuts_off cut_pinv.
Proof.
  intros c a b C0 C1 Ha Hb Hc. unfold cut_pinv. cbn [concat app fold_right map].
  assert (X : (c * a < a)%Qc) by qcnra. assert (Y : (0 <= c * a)%Qc) by qcnra.
  assert (M : (if qc_leb (if qc_leb (if qc_leb (if qc_leb 0 b then b else 0) 0 then 0 else if qc_leb 0 b then b else 0) 0 then 0
     else if qc_leb (if qc_leb 0 b then b else 0) 0 then 0 else if qc_leb 0 b then b else 0) a then a else
     (if qc_leb (if qc_leb (if qc_leb 0 b then b else 0) 0 then 0 else if qc_leb 0 b then b else 0) 0 then 0
     else if qc_leb (if qc_leb 0 b then b else 0) 0 then 0 else if qc_leb 0 b then b else 0))%Qc = a).
  { repeat match goal with |- context [qc_leb ?x ?y] => destruct (qc_leb_spec x y) end; try reflexivity; exfalso; qclra. }
  change (Q2Qc 0) with 0%Qc in *. rewrite M. destruct (qc_leb_spec a (c * a)); [exfalso; qclra|]. destruct (qc_leb_spec 0 (c * a)); [|exfalso; qclra].
  destruct (qc_leb_spec b (c * a)); [|exfalso; qclra]. reflexivity.
Qed.

(** C109: MVM can be used with any calibrated mirrors... *)
Theorem C109_mvm_partial :
  forall pinvT rcond ws ms net imat learn1 learn2, inverts pinvT -> Forall has_valid (map m_dm ms) ->
  shaped (total_valid ms) (total_data ws) imat -> forall l, Forall (fun v : vec => length v = total_data ws) l ->
  exists outs, use pinvT rcond ws ms net MVM imat learn1 learn2 l = Ok outs /\ length outs = length l.
Proof. exact mvm_usable. Qed.
Print Assumptions C109_mvm_partial.

(** ... and LearnAndApply with Shack-Hartmanns of equal size and at least two learnt frames. *)
Theorem C109_learn_and_apply_partial :
  forall pinvT rcond ws ms net imat learn1 learn2 n, inverts pinvT -> ms <> [] -> Forall has_valid (map m_dm ms) ->
  first_sh ws n -> Forall (fun s => s_meas s = n) ws ->
  Forall (fun fr : list vec => length fr = length ws /\ Forall (fun f : vec => length f = n) fr) learn1 ->
  (2 <= length learn1)%nat ->
  shaped (total_valid ms) (total_data ws) imat -> forall l, Forall (fun v : vec => length v = total_data ws) l ->
  exists outs, use pinvT rcond ws ms net LearnAndApply imat learn1 learn2 l = Ok outs /\ length outs = length l.
Proof. exact la_usable. Qed.
Print Assumptions C109_learn_and_apply_partial.

Example C109_instance :
  Forall has_valid (map m_dm cx_ms) /\ first_sh cx_ws 2 /\ Forall (fun s => s_meas s = 2%nat) cx_ws /\
  shaped (total_valid cx_ms) (total_data cx_ws) cx_imat2 /\ (2 <= length cx_learn)%nat.
Proof.
  split; [repeat constructor; discriminate|]. split; [eexists _, _, 1%nat; repeat split|]. split; [repeat constructor|].
  split; [split; [reflexivity | repeat constructor]|]. cbn. lia.
Qed.

(** C109 is false for GLAO_4LGS, LearnAndApplyLTAO, LgsTT, ANN and (with more than one mirror) WooferTweeter:
    whatever the mirrors, sensors, calibration data and inverse, they raise in calibration or in the first
    frame... *)
Theorem C109_never_refuted :
  forall pinvT rcond ws ms net imat learn1 learn2 m l, Forall sensor_ok ws -> length m = total_data ws -> (2 <= length ms)%nat ->
  forall cl, In cl [LearnAndApplyLTAO; GLAO_4LGS; LgsTT; ANN; WooferTweeter] ->
  exists e, use pinvT rcond ws ms net cl imat learn1 learn2 (m :: l) = Err e.
Proof.
  intros pinvT rcond ws ms net imat learn1 learn2 m l HO Hm H2 cl H.
  cbn [In] in H. destruct H as [<- | [<- | [<- | [<- | [<- | []]]]]].
  - apply ltao_never; auto.
  - apply glao_never.
  - apply lgstt_never; auto.
  - apply ann_never. destruct ms; [cbn in H2; lia | discriminate].
  - apply woofer_never. lia.
Qed.
Print Assumptions C109_never_refuted.

(** ... the first four also with one mirror... *)
Theorem C109_never_one_mirror_refuted :
  forall pinvT rcond ws ms net imat learn1 learn2 m l, Forall sensor_ok ws -> length m = total_data ws -> ms <> [] ->
  forall cl, In cl [LearnAndApplyLTAO; GLAO_4LGS; LgsTT; ANN] ->
  exists e, use pinvT rcond ws ms net cl imat learn1 learn2 (m :: l) = Err e.
Proof.
  intros pinvT rcond ws ms net imat learn1 learn2 m l HO Hm H2 cl H.
  cbn [In] in H. destruct H as [<- | [<- | [<- | [<- | []]]]].
  - apply ltao_never; auto.
  - apply glao_never.
  - apply lgstt_never; auto.
  - apply ann_never; auto.
Qed.
Print Assumptions C109_never_one_mirror_refuted.

(** ... and WooferTweeter with one mirror never moves it. *)
Theorem C109_woofer_idle_refuted :
  forall pinvT rc ws m net imat learn1 learn2 k, n_valid (m_dm m) = Some k -> (k <= n_acts (m_dm m))%nat ->
  forall l, Forall (fun v : vec => length v = total_data ws) l ->
    use pinvT rc ws [m] net WooferTweeter imat learn1 learn2 l = Ok (map (fun _ => vzero k) l).
Proof. exact woofer_idle. Qed.
Print Assumptions C109_woofer_idle_refuted.

(** Six Shack-Hartmanns of both kinds, on which calibration of LearnAndApplyLTAO succeeds. *)
Example C109_never_instance :
  let ws := cx_ws ++ cx_ws ++ cx_ws in
  let m := [mkMirror (cx_dm 2 true (qz 1)) (Some 0%nat) false (qz 0)] in
  Forall sensor_ok ws /\
  (exists c, calibrate cx_pinv (qz 0) ws m LearnAndApplyLTAO [vzero 12; vzero 12]
               [repeat [qz 1; qz 0] 6; repeat [qz 0; qz 1] 6] [] = Ok c /\ length (k_tomo c) = 2%nat) /\
  use cx_pinv (qz 0) ws m cx_net LearnAndApplyLTAO [vzero 12; vzero 12] [repeat [qz 1; qz 0] 6; repeat [qz 0; qz 1] 6] [] [vzero 12]
  = Err ValueError.
Proof.
  cbv zeta. split; [repeat constructor; cbn; intros; try congruence; match goal with H : Some _ = Some _ |- _ => injection H as <- end; reflexivity|].
  split; [eexists; split; [vm_compute; reflexivity | reflexivity] | vm_compute; reflexivity].
Qed.

(** C110 is false: what LearnAndApply saves is refused when loaded, whatever else is in the directory, if there
    is a second WFS: both matrices are smaller than the loader expects. *)
Theorem C110_reload_refuted :
  forall ws n imat M total hdr ds ds' fs, first_sh ws n -> (n < total_data ws)%nat -> la_imat ws imat = Ok M ->
    exists e, snd (load_imat total (total_data ws) ds' (run_steps (save_imat_steps hdr (total_data ws) ds M) fs)) = Err e.
Proof.
  intros ws n imat M total hdr ds ds' fs Hn Hlt E. unfold la_imat in E. rewrite (on_axis_sh ws n Hn) in E.
  cbn [bind] in E. injection E as <-. apply load_short. apply Forall_map, Forall_forall. intros r _. rewrite firstn_length. lia.
Qed.
Print Assumptions C110_reload_refuted.

Theorem C110_reload_control_refuted :
  forall ws n acts conds conds' C fs, first_sh ws n -> (n < total_data ws)%nat -> shaped n acts C ->
    exists e, load_cmat conds (total_data ws, acts) (run_steps (write_steps put_cmat (mkCmatFile conds' C)) fs) = Err e.
Proof.
  intros ws n acts conds conds' C fs Hn Hlt [HL _]. apply load_cmat_short. cbn [fst]. unfold mat, vec in *. lia.
Qed.
Print Assumptions C110_reload_control_refuted.

Example C110_instance :
  first_sh cx_ws 2 /\ (2 < total_data cx_ws)%nat /\
  la_imat cx_ws cx_imat2 = Ok [[qz 1; qz 0]; [qz 0; qz 1]; [qz 0; qz 2]].
Proof. split; [eexists _, _, 1%nat; repeat split|]. split; [cbn; lia | qc_compute; reflexivity]. Qed.

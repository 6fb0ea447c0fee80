(** C175: tip and tilt go to the tip-tilt mirror. *)
From Verif.Base Require Import Vec.
From Verif.Model Require Import Recon Control.
From Verif.Spec Require Import ControlSpec TipTiltSpec.
From Verif.Proofs Require Import TipTiltProofs.
From Verif.Props Require Import ControlProps.
From Coq Require Import Lia.

(** C175: LearnAndApply with a first mirror of type TT.  When the estimates of the on-axis slopes in two frames differ by a common tip and tilt, the commands
    of all other mirrors are the same, and those of the tip-tilt mirror differ by what that tip and tilt alone asks for. *)
Theorem C175_split (ws : list sensor) (ms : list mirror) (net : vec -> vec) (acts : nat) (c : calibration) (s : recon_state) (m m' : vec)
    (d0 : mirror) (r : list mirror) (n h : nat) (cx cy : Qc) (out out' : vec) (t t' : recon_state) :
  ms = d0 :: r -> m_tt d0 = true -> first_sh ws n -> n = (2 * h)%nat -> (2 <= length (k_ctrl c))%nat ->
  mvm (k_tomo c) (skipn n m') = with_tt h cx cy (mvm (k_tomo c) (skipn n m)) ->
  frame_of ws ms net LearnAndApply acts c s m = Ok (out, t) -> frame_of ws ms net LearnAndApply acts c s m' = Ok (out', t') ->
  firstn 2 out' = vadd (firstn 2 out) (mvm (firstn 2 (k_ctrl c)) (pure_tt h cx cy)) /\ skipn 2 out' = skipn 2 out.
Proof. exact (tt_split ws ms net acts c s m m' d0 r n h cx cy out out' t t'). Qed.
Print Assumptions C175_split.

(** Two sub-apertures on each sensor; a tip-tilt mirror and one with a single actuator.  The second measurement has 1 more in x and 2 more in y. *)
Definition tt_ws : list sensor := [mkSensor 4 (Some 2%nat) None; mkSensor 4 (Some 2%nat) None].
Definition tt_cal : calibration := mkCalib 4 [[qz 1; qz 1; qz 0; qz 0]; [qz 0; qz 0; qz 1; qz 1]; [qz 1; qz 0; qz 0; qz 3]]
  [[qz 1; qz 0; qz 0; qz 0]; [qz 0; qz 1; qz 0; qz 0]; [qz 0; qz 0; qz 1; qz 0]; [qz 0; qz 0; qz 0; qz 1]].
Example C175_instance :
  first_sh tt_ws 4 /\
  mvm (k_tomo tt_cal) (skipn 4 [qz 0; qz 0; qz 0; qz 0; qz 6; qz 3; qz 5; qz 9]) = with_tt 2 (qz 1) (qz 2) [qz 5; qz 2; qz 3; qz 7] /\
  frame_of tt_ws (cx_tt true (qz 1)) cx_net LearnAndApply 3 tt_cal None [qz 0; qz 0; qz 0; qz 0; qz 5; qz 2; qz 3; qz 7]
  = Ok ([qz 7; qz 10; qfrac 15 2], None) /\
  frame_of tt_ws (cx_tt true (qz 1)) cx_net LearnAndApply 3 tt_cal None [qz 0; qz 0; qz 0; qz 0; qz 6; qz 3; qz 5; qz 9]
  = Ok ([qz 9; qz 14; qfrac 15 2], None).
Proof.
  split; [exists (mkSensor 4 (Some 2%nat) None), [mkSensor 4 (Some 2%nat) None], 2%nat; repeat split|].
  split; [|split]; qc_compute; reflexivity.
Qed.

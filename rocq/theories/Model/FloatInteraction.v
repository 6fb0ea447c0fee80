(** Interaction matrices in floating-point arithmetic. *)
From Coq Require Import ZArith List.
From Flocq Require Import BinarySingleNaN.
From Verif.Base Require Import Float64.
From Verif.Model Require Import Rounding64 FloatInterp FloatLos FloatLoop FloatGradChain FloatDriven FloatWhole.
Import ListNotations.

(** soapy/lineofsight.py:380-382  scrns=None: screens of zeros, one for every layer of the atmosphere; [alts]: the layers' altitudes *)
Definition no_turbulence (size : Z) (alts : list b64) : list (farr * b64) := map (fun a => (mkFarr size size (fun _ _ => ofZ64 0), a)) alts.
(** soapy/reconstruction.py:286-290  actCommands[:] = 0; actCommands[i] = 1, i counted over all mirrors *)
Definition poked (total i : nat) : list b64 := repeat (ofZ64 0) i ++ ofZ64 1 :: repeat (ofZ64 0) (total - i - 1).
(** soapy/reconstruction.py:256-266, 285-307  every actuator of every mirror in turn, the slopes of all sensors times -1.  The code sends zeros for the other mirrors, the model the surfaces they
    have with commands of zero.  All actuators are kept (reconstruction.py:320-343 drops those without effect: those in [mm_infl] are the rest). *)
Definition imat64 (me : list meas) (ms : list mirror64) (size : Z) (alts : list b64) (total : nat) (imat : list (list b64)) : Prop :=
  Forall2 (fun i row => exists s, measured64 me ms (no_turbulence size alts) (poked total i) s /\ row = map (mul64 (ofZ64 (-1))) s) (seq 0 total) imat.

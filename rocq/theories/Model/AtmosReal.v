(** The parts of the atmosphere that use fractional powers, over the real numbers: layer strengths and the
    scaling of the wind speeds to a requested coherence time. *)
From Coq Require Import Reals List.
Import ListNotations.
Open Scope R_scope.

Definition rsum (l : list R) : R := fold_right Rplus 0 l.

(** soapy/atmosphere.py:112-113  normScrnStrengths, over reals *)
Definition rnorm (scrnNo : nat) (st : list R) : list R := map (fun x => x / rsum (firstn scrnNo st)) st.

(** soapy/atmosphere.py:117-118 (and 374-375)  scrnStrengths = (r0**(-5/3) * norm)**(-3/5), the r0 of each layer.
    [Rpower] is the power for a positive base; a zero strength (numpy: infinity) is outside the model. *)
Definition layer_r0 (r0 norm : R) : R := Rpower (Rpower r0 (-5/3) * norm) (-3/5).

(** soapy/atmosphere.py:377  the factor applied to a screen made with r0 = wholeScrnR0 = 1 (line 151) *)
Definition layer_scale (r0 norm : R) : R := Rpower (layer_r0 r0 norm / 1) (-5/6).

(** soapy/atmosphere.py:121, 130  vBar53 over the layers in use; the lists are those already cut to scrnNo *)
Definition vbar53 (speeds norms : list R) : R :=
  Rpower (rsum (map (fun p => Rpower (fst p) (5/3) * snd p) (combine speeds norms))) (3/5).
(** soapy/atmosphere.py:122, 131 *)
Definition tau0_of (r0 : R) (speeds norms : list R) : R := 314/1000 * r0 / vbar53 speeds norms.
(** soapy/atmosphere.py:125-128  windSpeeds * tau0 / requested *)
Definition scale_speeds (r0 : R) (speeds norms : list R) (req : R) : list R :=
  map (fun v => v * tau0_of r0 speeds norms / req) speeds.

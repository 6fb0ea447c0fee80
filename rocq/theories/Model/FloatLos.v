(** A geometric line of sight in floating-point arithmetic, pixel by pixel. *)
From Coq Require Import ZArith List.
From Flocq Require Import BinarySingleNaN.
From Verif.Base Require Import Float64.
From Verif.Model Require Import Rounding64 FloatInterp.
Import ListNotations.
Local Open Scope Z_scope.

(** Conversion to single precision (numpy's assignment of float64 to a float32 array), the result as a float64. *)
Definition single (x : b64) : b64 :=
  match x with
  | B754_finite s m e _ =>
      match @binary_normalize 24 128 eq_refl eq_refl mode_NE (SpecFloat.cond_Zopp s (Zpos m)) e s with
      | B754_finite s m e _ => lit64 (SpecFloat.cond_Zopp s (Zpos m)) e
      | B754_zero s => B754_zero s
      | B754_infinity s => B754_infinity s
      | B754_nan => B754_nan
      end
  | _ => x
  end.
(** A screen (or mirror surface) and the coordinates on it of the pixel in question, before they are clipped. *)
Record crossing := mkCr { cr_screen : farr; cr_x : b64; cr_y : b64 }.
(** soapy/lineofsight.py:271-274, 333-336  bilinear_interp of each screen at the clipped coordinates.  None: as [kernel64] *)
Fixpoint crossings64 (l : list crossing) : option (list b64) :=
  match l with
  | [] => Some []
  | c :: r => match los_interp64 (cr_screen c) (cr_x c) (cr_y c), crossings64 r with Some v, Some vs => Some (v :: vs) | _, _ => None end
  end.
(** soapy/lineofsight.py:293, 338  sum(0): numpy adds the screens one after the other *)
Definition sum64 (l : list b64) : b64 := match l with [] => ofZ64 0 | v :: r => fold_left add64 r v end.
(** What is left of the dtype of LineOfSight.phase: an array of float32 (allocDataArrays, soapy/lineofsight.py:34, 247) until performCorrection first assigns the float64 array
    residual * phs2Rad to it (348), which zeroData (257) keeps. *)
Inductive phase_dtype := Single | Double.
(** numpy stores the sum of float32 or float64 and float64, computed in float64, in the array *)
Definition stored (d : phase_dtype) (x : b64) : b64 := match d with Single => single x | Double => x end.
(** soapy/lineofsight.py:286-306 (EField left out; propagationMode "Geometric")  the pixel of phase after zeroData and makePhase; [c]: phs2Rad *)
Definition make_phase64 (d : phase_dtype) (c : b64) (vs : list b64) : b64 := stored d (add64 (ofZ64 0) (mul64 (sum64 vs) c)).
(** soapy/lineofsight.py:353-398 with 326-348, propagating down, with screens and a correction: the pixel of the residual returned, that of phase, and the dtype from then on *)
Definition frame64 (d : phase_dtype) (c : b64) (screens corr : list crossing) : option (b64 * b64 * phase_dtype) :=
  match crossings64 screens, crossings64 corr with
  | Some vs, Some ws =>
      let residual := div64 (sub64 (make_phase64 d c vs) (mul64 (sum64 ws) c)) c in
      Some (residual, mul64 residual c, Double)
  | _, _ => None
  end.
(** Frames one after the other, each with its screens and correction: the residuals *)
Fixpoint los_run64 (d : phase_dtype) (c : b64) (frames : list (list crossing * list crossing)) : option (list b64) :=
  match frames with
  | [] => Some []
  | (screens, corr) :: rest =>
      match frame64 d c screens corr with
      | Some (residual, _, d') => match los_run64 d' c rest with Some l => Some (residual :: l) | None => None end
      | None => None
      end
  end.

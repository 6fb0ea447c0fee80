(** Specification vocabulary for the legacy line of sight. *)
From Verif.Base Require Import Vec.
From Verif.Model Require Import Numerics Los LegacyLos.
From Verif.Spec Require Import LosSpec.

Local Open Scope Qc_scope.

(** The telescope's diameter covers the pupil's pixels. *)
Definition consistent (l : llos) : Prop := 0 < ll_pix l /\ (0 < ll_pupil l)%Z /\ ll_diam l = qz (ll_pupil l) * ll_pix l /\ (2 <= ll_nout l)%Z /\ 0 <= ll_height l.
(** A layer that light from the source comes through *)
Definition below_source (l : llos) (h : Qc) : Prop := ll_height l = 0 \/ h < ll_height l.
(** Half the width of the beam at the ground, in whole pixels, and at altitude h: the cone to the source *)
Definition half_width (l : llos) : Z := qc_round (ll_outscale l * qz (ll_nout l) / qz 2 / ll_pix l).
Definition half_beam (l : llos) (h : Qc) : Qc := (if qc_eqb (ll_height l) 0 then 1 else 1 - h / ll_height l) * qz (half_width l).
(** The first edge of the beam on a screen of N elements, along an axis on which it is displaced by tangent [t] times the altitude *)
Definition beam_start (l : llos) (N : Z) (t h : Qc) : Qc := qz N / qz 2 + t * h / ll_pix l - half_beam l h.
(** Where on the screen element k of the output is: equally spaced over the beam *)
Definition spot (l : llos) (N : Z) (t h : Qc) (k : Z) : Qc := beam_start l N t h + qz k * ((qz 2 * half_beam l h - 1) / qz (ll_nout l - 1)).
(** The beam is at least a pixel wide and wholly on the screen. *)
Definition axis_fits (l : llos) (N : Z) (t h : Qc) : Prop := 0 <= beam_start l N t h /\ beam_start l N t h + qz 2 * half_beam l h <= qz N.
Definition fits (l : llos) (N : Z) (h : Qc) : Prop := axis_fits l N (fst (ll_tan l)) h /\ axis_fits l N (snd (ll_tan l)) h.
Definition wide (l : llos) (h : Qc) : Prop := 1 <= qz 2 * half_beam l h.
(** What output element (i, j) gets of an array at altitude h: the X component of the position goes along the columns. *)
Definition legacy_see (l : llos) (N : Z) (a : arr Qc) (h : Qc) (i j : Z) : Qc :=
  between_pixels a (spot l N (snd (ll_tan l)) h i) (spot l N (fst (ll_tan l)) h j).
Definition legacy_stack (l : llos) (N : Z) (ls : list (arr Qc)) (hs : list Qc) (i j : Z) : Qc :=
  lsum (map (fun p => legacy_see l N (fst p) (snd p) i j) (combine ls hs)).
(** Arrays and altitudes that a line of sight sees in full *)
Definition all_seen (l : llos) (N : Z) (ls : list (arr Qc)) (hs : list Qc) : Prop :=
  screens_ok N ls /\ length ls = length hs /\ Forall (fun h => below_source l h /\ fits l N h /\ wide l h) hs.
(** Corrections with their altitudes *)
Definition at_heights (ls : list (arr Qc)) (hs : list Qc) : list (arr Qc * option Qc) := map (fun p => (fst p, Some (snd p))) (combine ls hs).
(** A current line of sight with the same sizes, scales, source and altitudes as a legacy one, looking down in direction (px, py) *)
Definition same_line (l : llos) (N : Z) (dmalts : list Qc) (p : Qc * Qc) : geom :=
  mkGeom (fst p) (snd p) false (ll_height l) 0 0 (ll_nout l) (ll_outscale l) (ll_pix l) N (ll_heights l) dmalts (ll_rad l).
(** The beam's width at the ground is an even number of screen pixels, and it ends clear of the last element of the screen. *)
Definition even_width (l : llos) : Prop := qz (half_width l) = ll_outscale l * qz (ll_nout l) / qz 2 / ll_pix l.
Definition clear_of_end (l : llos) (N : Z) (h : Qc) : Prop :=
  beam_start l N (fst (ll_tan l)) h + qz 2 * half_beam l h <= qz N - interp_eps /\ beam_start l N (snd (ll_tan l)) h + qz 2 * half_beam l h <= qz N - interp_eps.
Definition transposed (a : arr Qc) : arr Qc := mkArr (ncol a) (nrow a) (fun i j => at2 a j i).
Definition swap (p : Qc * Qc) : Qc * Qc := (snd p, fst p).
(** +1 looking down, -1 looking up *)
Definition sgn (l : llos) : Qc := if ll_up l then - (1) else 1.

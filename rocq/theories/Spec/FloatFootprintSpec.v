(** Specification of footprints in exact arithmetic. *)
From Coq Require Import ZArith List Reals.
From Flocq Require Import Core BinarySingleNaN.
From Verif.Base Require Import Float64.
From Verif.Model Require Import FloatInterp FloatLos.
From Verif.Spec Require Import FloatInterpSpec FloatLosSpec.
From Verif.Model Require Import FloatFootprint.
Import ListNotations.
Local Open Scope R_scope.

(** How large the beam is at an altitude, in metres: that of the pupil, or a cone with its tip at the source. *)
Definition beam (g : geometry64) (alt : R) : R :=
  IZR (g_nout g) * B2R (g_opix g) * (if Req_EM_T (B2R (g_src g)) 0 then 1 else 1 - alt / B2R (g_src g)).
(** The position on a screen, in its pixels, of the k-th of [g_nout g] points evenly spaced from one edge of the beam to a pixel before the other edge.  The beam is centred on the direction
    [pos] (arcsec), the screen on the axis. *)
Definition footprint (g : geometry64) (pos alt : R) (k : Z) : R :=
  let centre := B2R (g_asec g) * pos * alt / B2R (g_pix g) + IZR (g_scrn g) / 2 in
  let width := beam g alt / B2R (g_pix g) in
  centre - width / 2 + IZR k * ((width - 1) / IZR (g_nout g - 1)).
(** What is seen through pixel (p, q) of screens at their altitudes. *)
Definition exact_seen (g : geometry64) (posx posy : b64) (p q : Z) (l : list (farr * b64)) : R :=
  fold_right Rplus 0 (map (fun sa => bilinear (numbers (fst sa)) (nearest_on (fa_rows (fst sa)) (footprint g (B2R posx) (B2R (snd sa)) p))
                                                             (nearest_on (fa_cols (fst sa)) (footprint g (B2R posy) (B2R (snd sa)) q))) l).
(** A geometry in which the footprints of layers up to the altitude [h] and directions up to [theta] (radians) lie within G pixels of the axis, and no number is extreme. *)
Definition sensible (g : geometry64) (theta h G : R) : Prop :=
  is_finite (g_asec g) = true /\ is_finite (g_src g) = true /\ is_finite (g_pix g) = true /\ is_finite (g_opix g) = true /\
  (2 <= g_nout g <= 2 ^ 20)%Z /\ (0 <= g_scrn g <= 2 ^ 20)%Z /\
  bpow radix2 (-100) <= theta <= bpow radix2 100 /\ bpow radix2 (-100) <= h <= bpow radix2 100 /\ bpow radix2 (-100) <= B2R (g_pix g) <= bpow radix2 100 /\
  bpow radix2 (-100) <= B2R (g_opix g) <= bpow radix2 100 /\
  theta * h <= G * B2R (g_pix g) /\ IZR (g_nout g) * B2R (g_opix g) <= G * B2R (g_pix g) /\ IZR (g_scrn g) <= G /\ 1 <= G <= bpow radix2 100.
(** A direction and an altitude within these limits; the altitude not above the source. *)
Definition within (g : geometry64) (theta h : R) (pos alt : b64) : Prop :=
  is_finite pos = true /\ is_finite alt = true /\ Rabs (B2R (g_asec g) * B2R pos) <= theta /\ 0 <= B2R alt <= h /\ (B2R (g_src g) = 0 \/ B2R alt <= B2R (g_src g)).
(** Screens that fit, at altitudes within these limits, the k-th no larger than the k-th bound. *)
Definition fine (g : geometry64) (theta h : R) (posx posy : b64) (l : list (farr * b64)) (As : list R) : Prop :=
  Forall2 (fun sa A => fits (fst sa) /\ bounded_by (fst sa) A /\ within g theta h posx (snd sa) /\ within g theta h posy (snd sa)) l As.

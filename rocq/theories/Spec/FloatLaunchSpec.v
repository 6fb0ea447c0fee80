(** Specification of the way of a laser in exact arithmetic. *)
From Coq Require Import ZArith List Reals.
From Flocq Require Import Core BinarySingleNaN.
From Verif.Base Require Import Float64.
From Verif.Model Require Import FloatInterp FloatLos FloatFootprint.
From Verif.Spec Require Import FloatInterpSpec FloatLosSpec FloatFootprintSpec.
From Verif.Model Require Import FloatLaunch.
Import ListNotations.
Local Open Scope R_scope.

(** Where the axis of the laser is at an altitude, in metres: on the straight line from the launch position on the ground to the guide star, which is seen in the direction [pos] (arcsec)
    from the centre of the telescope; a star at infinity is met in this direction. *)
Definition laser_axis (g : geometry64) (pos launch alt : R) : R :=
  if Req_EM_T (B2R (g_src g)) 0 then launch + alt * (B2R (g_asec g) * pos)
  else let star := B2R (g_src g) * (B2R (g_asec g) * pos) in launch + alt / B2R (g_src g) * (star - launch).
(** The position on a screen, in its pixels, of the k-th of [g_nout g] points evenly spaced from one edge of the beam to a pixel before the other edge. *)
Definition laser_footprint (g : geometry64) (pos launch alt : R) (k : Z) : R :=
  let centre := laser_axis g pos launch alt / B2R (g_pix g) + IZR (g_scrn g) / 2 in
  let width := beam g alt / B2R (g_pix g) in
  centre - width / 2 + IZR k * ((width - 1) / IZR (g_nout g - 1)).
Definition laser_seen (g : geometry64) (posx posy lx ly : R) (p q : Z) (l : list (farr * b64)) : R :=
  fold_right Rplus 0 (map (fun sa => bilinear (numbers (fst sa)) (nearest_on (fa_rows (fst sa)) (laser_footprint g posx lx (B2R (snd sa)) p))
                                                             (nearest_on (fa_cols (fst sa)) (laser_footprint g posy ly (B2R (snd sa)) q))) l).
(** A launch position (in radii of a telescope) from which the laser stays within G pixels of the axis of the screens *)
Definition launched (g : geometry64) (theta h G : R) (at_ diam : b64) : Prop :=
  is_finite at_ = true /\ is_finite diam = true /\ theta * h + Rabs (B2R at_ * B2R diam / 2) <= G * B2R (g_pix g) /\ 
  Rabs (B2R at_ * B2R diam) <= G * B2R (g_pix g).

(** The way of a laser up through the atmosphere in binary64. *)
From Coq Require Import ZArith List.
From Flocq Require Import BinarySingleNaN.
From Verif.Base Require Import Float64.
From Verif.Model Require Import Rounding64 FloatInterp FloatLos FloatFootprint.
Import ListNotations.
Local Open Scope Z_scope.

(** soapy/lineofsight.py:85  launch_position, along one axis: [at_] is launchPosition in units of the telescope's radius, [diam] telDiam *)
Definition launch64 (at_ diam : b64) : b64 := div64 (mul64 at_ diam) (ofZ64 2).
(** soapy/lineofsight.py:211-220  centre along one axis, propagating up *)
Definition up_centre64 (g : geometry64) (pos launch alt : b64) : b64 :=
  add64 (mul64 (mul64 (g_asec g) pos) alt)
    (if nonzero64 (g_src g) then mul64 launch (sub64 (ofZ64 1) (div64 alt (g_src g))) else launch).
(** soapy/lineofsight.py:227-230  x1 and x2 (or y1 and y2) *)
Definition up_low64 (g : geometry64) (pos launch alt : b64) : b64 :=
  add64 (div64 (sub64 (up_centre64 g pos launch alt) (div64 (size64 g alt) (ofZ64 2))) (g_pix g)) (div64 (ofZ64 (g_scrn g)) (ofZ64 2)).
Definition up_high64 (g : geometry64) (pos launch alt : b64) : b64 :=
  add64 (div64 (add64 (up_centre64 g pos launch alt) (div64 (size64 g alt) (ofZ64 2))) (g_pix g)) (div64 (ofZ64 (g_scrn g)) (ofZ64 2)).
(** soapy/lineofsight.py:177-178, 187-188  not yet clipped *)
Definition up_footprint64 (g : geometry64) (pos launch alt : b64) (k : Z) : b64 :=
  linspace64 (up_low64 g pos launch alt) (sub64 (up_high64 g pos launch alt) (ofZ64 1)) (g_nout g) k.
(** The crossings of pixel (p, q), propagating up (soapy/LGS.py:85-95): the position and the launch position have two components each *)
Definition up_cross64 (g : geometry64) (posx posy lx ly : b64) (p q : Z) (l : list (farr * b64)) : list crossing :=
  map (fun sa => mkCr (fst sa) (up_footprint64 g posx lx (snd sa) p) (up_footprint64 g posy ly (snd sa) q)) l.

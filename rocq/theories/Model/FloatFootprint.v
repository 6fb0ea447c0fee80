(** The footprints of a line of sight on the screens in binary64. *)
From Coq Require Import ZArith List.
From Flocq Require Import BinarySingleNaN.
From Verif.Base Require Import Float64.
From Verif.Model Require Import Rounding64 FloatInterp FloatLos.
Import ListNotations.
Local Open Scope Z_scope.

(** What does not depend on the layer: ASEC2RAD (a number), source_altitude (0: at infinity), in_pixel_scale, out_pixel_scale, nx_out_pixels and nx_scrn_size. *)
Record geometry64 := mkGeo { g_asec : b64; g_src : b64; g_pix : b64; g_opix : b64; g_nout : Z; g_scrn : Z }.
(** x != 0 *)
Definition nonzero64 (x : b64) : bool := match Bcompare x (ofZ64 0) with Some Eq => false | _ => true end.
(** soapy/lineofsight.py:212-214  centre, along one axis of the position, propagating down *)
Definition centre64 (g : geometry64) (pos alt : b64) : b64 := mul64 (mul64 (g_asec g) pos) alt.
(** soapy/lineofsight.py:174, 223-226  meta_pupil_size *)
Definition size64 (g : geometry64) (alt : b64) : b64 :=
  let diameter := mul64 (ofZ64 (g_nout g)) (g_opix g) in
  if nonzero64 (g_src g) then mul64 diameter (sub64 (ofZ64 1) (div64 alt (g_src g))) else diameter.
(** soapy/lineofsight.py:228-231  x1 and x2 (or y1 and y2) *)
Definition low64 (g : geometry64) (pos alt : b64) : b64 :=
  add64 (div64 (sub64 (centre64 g pos alt) (div64 (size64 g alt) (ofZ64 2))) (g_pix g)) (div64 (ofZ64 (g_scrn g)) (ofZ64 2)).
Definition high64 (g : geometry64) (pos alt : b64) : b64 :=
  add64 (div64 (add64 (centre64 g pos alt) (div64 (size64 g alt) (ofZ64 2))) (g_pix g)) (div64 (ofZ64 (g_scrn g)) (ofZ64 2)).
(** numpy.linspace(start, stop, n)[k] for n >= 2: arange(n) * step + start, or, if the step underflows, arange(n) / (n - 1) * (stop - start) + start; the last one is stop *)
Definition linspace64 (start stop : b64) (n k : Z) : b64 :=
  let delta := sub64 stop start in
  let step := div64 delta (ofZ64 (n - 1)) in
  if k =? n - 1 then stop
  else add64 (if nonzero64 step then mul64 (ofZ64 k) step else mul64 (div64 (ofZ64 k) (ofZ64 (n - 1))) delta) start.
(** soapy/lineofsight.py:177-180, 185-188  layer_metapupil_coords[i, axis, k] (dm_metapupil_coords), not yet clipped *)
Definition footprint64 (g : geometry64) (pos alt : b64) (k : Z) : b64 :=
  linspace64 (low64 g pos alt) (sub64 (high64 g pos alt) (ofZ64 1)) (g_nout g) k.
(** The crossings of pixel (p, q) with screens (or mirror surfaces) at their altitudes *)
Definition cross64 (g : geometry64) (posx posy : b64) (p q : Z) (l : list (farr * b64)) : list crossing :=
  map (fun sa => mkCr (fst sa) (footprint64 g posx (snd sa) p) (footprint64 g posy (snd sa) q)) l.

(** Property theorems C30-C34, C74, C75: lines of sight. *)
From Verif.Base Require Import Vec.
From Verif.Model Require Import Numerics Los.
From Verif.Spec Require Import LosSpec.
From Verif.Proofs Require Import LosProofs.
Open Scope Z_scope.

(** A geometry used by the examples: 4 pixels out of 10, two layers, the upper one seen 2 pixels off-axis in
    x and 1 the other way in y, one DM at the ground. *)
Definition ex_geom (up : bool) (src : Qc) : geom :=
  mkGeom (qfrac 1 1000) (qfrac (-1) 2000) up src 0%Qc 0%Qc 4 (qfrac 1 2) (qfrac 1 2) 10 [0%Qc; qz 1000] [0%Qc] (qz 3).
Definition ex_low : arr Qc := mkArr 10 10 (fun i j => qz (i + 2 * j)).
Definition ex_high : arr Qc := mkArr 10 10 (fun i j => qz (i * i + j)).

(** C30: whatever frames came before, an uncorrected geometric frame gives at every pixel the sum over the
    layers of the layer interpolated at the footprint of its altitude, in radians, as phase and as the
    argument of the complex field. *)
Theorem C30_superposition :
  forall (g : geom) (i j : Z) (l : list (arr Qc)) (s : px),
    2 <= g_nscrn g -> g_rad g <> 0%Qc -> reachable g i j s -> screens_ok (g_nscrn g) l -> (length l <= length (g_alts g))%nat ->
    exists s', los_frame g false i j (Some l) None s = Ok s' /\
      p_phase s' = (g_rad g * stack_sum g i j l (g_alts g))%Qc /\ p_field s' = Some (p_phase s') /\ p_resid s' = p_phase s'.
Proof. exact frame_plain. Qed.
Print Assumptions C30_superposition.
(** C30: for a source at infinity in a direction that displaces every layer by whole pixels, this is the plain
    sum of the layers' own pixels, displaced by direction times altitude from the centred window. *)
Theorem C30_footprint_pixels :
  forall (g : geom) (i j : Z) (l : list (arr Qc)) (s : px) (m : Z) (dx dy : Qc -> Z),
    g_rad g <> 0%Qc -> reachable g i j s -> screens_ok (g_nscrn g) l ->
    (length l <= length (g_alts g))%nat -> g_up g = false -> g_src g = 0%Qc -> g_outscale g = g_inscale g -> g_inscale g <> 0%Qc ->
    2 <= g_nscrn g ->
    whole_shift (g_posx g) (g_inscale g) (g_nout g) (g_nscrn g) m dx (g_alts g) ->
    whole_shift (g_posy g) (g_inscale g) (g_nout g) (g_nscrn g) m dy (g_alts g) ->
    0 <= i < g_nout g -> 0 <= j < g_nout g ->
    exists s', los_frame g false i j (Some l) None s = Ok s' /\
      p_phase s' = (g_rad g * lsum (map (fun p => at2 (fst p) (m + dx (snd p) + i)%Z (m + dy (snd p) + j)%Z) (combine l (g_alts g))))%Qc.
Proof. exact frame_whole. Qed.
Print Assumptions C30_footprint_pixels.
(** C30: linear in the screens, also when the three frames are taken at different points of the history. *)
Theorem C30_linear :
  forall (g : geom) (i j : Z) (a b : Qc) (l l' : list (arr Qc)) (s1 s2 s3 : px), 2 <= g_nscrn g -> g_rad g <> 0%Qc ->
    reachable g i j s1 -> reachable g i j s2 -> reachable g i j s3 ->
    screens_ok (g_nscrn g) l -> screens_ok (g_nscrn g) l' -> length l = length l' -> (length l <= length (g_alts g))%nat ->
    exists r1 r2 r3, los_frame g false i j (Some l) None s1 = Ok r1 /\ los_frame g false i j (Some l') None s2 = Ok r2 /\
      los_frame g false i j (Some (comb_stack a b l l')) None s3 = Ok r3 /\
      p_phase r3 = (a * p_phase r1 + b * p_phase r2)%Qc.
Proof. exact frame_linear. Qed.
Print Assumptions C30_linear.
(** C30: no frame, in either mode and with or without a correction, depends on earlier frames: the returned
    residual, the phase, the field and the per-layer and per-DM screens (or the exception) are the same. *)
Theorem C30_history_independent :
  forall (g : geom) (ph : bool) (i j : Z) (sc co : option (list (arr Qc))) (s t : px), reachable g i j s -> reachable g i j t ->
    seen_r (los_frame g ph i j sc co s) = seen_r (los_frame g ph i j sc co t).
Proof. exact frame_history. Qed.
Print Assumptions C30_history_independent.
Example C30_instance :
  let g := ex_geom false 0%Qc in
  reachable g 1 2 (px_init g) /\ screens_ok 10 [ex_low; ex_high] /\
  whole_shift (g_posx g) (g_inscale g) 4 10 3 (fun h => if qc_eqb h 0 then 0 else 2) (g_alts g) /\
  whole_shift (g_posy g) (g_inscale g) 4 10 3 (fun h => if qc_eqb h 0 then 0 else -1) (g_alts g) /\
  match los_frame g false 1 2 (Some [ex_low; ex_high]) None (px_init g) with
  | Ok s => p_phase s = (qz 3 * (at2 ex_low 4 5 + at2 ex_high 6 4))%Qc | Err _ => False end.
Proof.
  cbn zeta. split; [constructor|]. split; [repeat constructor|].
  split; [|split; [|vm_compute; apply Qc_is_canon; reflexivity]];
    (split; [reflexivity|]); intros h [<-|[<-|[]]]; (split; [apply Qc_is_canon; vm_compute; reflexivity|vm_compute; split; congruence]).
Qed.

(** C31: every coordinate used to interpolate a layer or a DM surface, for any direction, source, launch
    position and altitude, lies where all four neighbouring pixels are stored. *)
Theorem C31_in_bounds :
  forall (g : geom) (h : Qc) (i : Z), 2 <= g_nscrn g ->
    on_grid (g_nscrn g) (coord g (x_edges g h) i) /\ on_grid (g_nscrn g) (coord g (y_edges g h) i).
Proof. exact (fun g h i H => conj (coord_range g (x_edges g h) i H) (coord_range g (y_edges g h) i H)). Qed.
Print Assumptions C31_in_bounds.
Example C31_instance :
  let g := ex_geom false (qz 500) in
  map (coord g (x_edges g (qz 1000))) [0; 3] = [qz 9 - interp_eps; qz 4]%Qc /\ 2 <= g_nscrn g.
Proof. split; [qc_compute; repeat constructor | vm_compute; congruence]. Qed.

(** C32: at altitude h the footprint of a source at height H has size (1 - h/H) times that of the pupil and is
    centred on the straight line from the pupil (or the launch position) to the source. *)
Theorem C32_cone_partial :
  forall (g : geom) (pos launch h : Qc), g_inscale g <> 0%Qc -> g_src g <> 0%Qc ->
    let '(e1, e2) := edges g (centre (g_up g) (g_src g) pos launch h) h in
    (e2 - e1 = (1 - h / g_src g) * (qz (g_nout g) * g_outscale g / g_inscale g))%Qc /\
    ((e1 + e2) / qz 2 - qz (g_nscrn g) / qz 2 =
     on_line (if g_up g then launch else 0) (pos * g_src g) (g_src g) h / g_inscale g)%Qc.
Proof. exact cone. Qed.
Print Assumptions C32_cone_partial.
(** C32: the beam of a source at infinity has the size of the pupil at every altitude. *)
Theorem C32_infinite_partial :
  forall (g : geom) (pos launch h : Qc), g_inscale g <> 0%Qc -> g_src g = 0%Qc ->
    let '(e1, e2) := edges g (centre (g_up g) (g_src g) pos launch h) h in
    (e2 - e1 = qz (g_nout g) * g_outscale g / g_inscale g)%Qc /\
    ((e1 + e2) / qz 2 - qz (g_nscrn g) / qz 2 = ((if g_up g then launch else 0) + pos * h) / g_inscale g)%Qc.
Proof. exact beam. Qed.
Print Assumptions C32_infinite_partial.
(** C32 is FALSE of the code above the source: the footprint of a layer above it has negative size and the
    samples run backwards over the screen (point-inverted turbulence). *)
Theorem C32_above_source_refuted :
  forall (g : geom) (c h : Qc) (i : Z), 2 <= g_nout g -> (0 < g_outscale g)%Qc -> (0 < g_inscale g)%Qc ->
    (0 < g_src g)%Qc -> (g_src g < h)%Qc ->
    (snd (edges g c h) < fst (edges g c h))%Qc /\ (raw_coord g (edges g c h) (i + 1) < raw_coord g (edges g c h) i)%Qc.
Proof. exact above_source. Qed.
Print Assumptions C32_above_source_refuted.
Example C32_instance :
  x_edges (ex_geom false (qz 4000)) (qz 1000) = (qfrac 11 2, qfrac 17 2)%Qc /\
  x_edges (ex_geom false (qz 500)) (qz 1000) = (qz 9, qz 5)%Qc.
Proof. qc_compute; repeat constructor. Qed.

(** C33, upwards: for strictly increasing altitudes and a source at infinity (0) or not below the highest layer,
    the light starts on the ground, meets every screen once, in order, exactly at its altitude, never travels
    backwards, and ends at the source (at the highest layer for infinity). *)
Theorem C33_up_partial :
  forall (alts : list Qc) (src : Qc), altitudes alts -> (0 <= src)%Qc ->
    exists ops, propagate true (length alts) alts src = Ok ops /\
      journey 1 0 ops = (stations alts, if qc_eqb src 0 then top alts else src) /\
      ((src = 0 \/ top alts <= src)%Qc -> never_backwards ops).
Proof. exact propagate_up. Qed.
Print Assumptions C33_up_partial.
(** C33, downwards: it starts at the highest layer, meets every screen once, from the highest to the lowest,
    exactly at its altitude, never travels backwards and ends on the ground. *)
Theorem C33_down_partial :
  forall (alts : list Qc) (src : Qc), altitudes alts ->
    exists ops, propagate false (length alts) alts src = Ok ops /\
      journey (-(1)) (top alts) ops = (rev (stations alts), 0%Qc) /\ never_backwards ops.
Proof. exact propagate_down. Qed.
Print Assumptions C33_down_partial.
(** C33 is FALSE of the code for a source below the highest layer: upwards the light still crosses the layers
    above the source and is then propagated by a negative distance; downwards the source height has no effect,
    so the light starts above the source. *)
Theorem C33_source_below_refuted :
  (forall (alts : list Qc) (src : Qc), altitudes alts -> (0 < src)%Qc -> (src < top alts)%Qc ->
     exists ops, propagate true (length alts) alts src = Ok ops /\ fst (journey 1 0 ops) = stations alts /\ ~ never_backwards ops) /\
  (forall (n : nat) (alts : list Qc) (s1 s2 : Qc), propagate false n alts s1 = propagate false n alts s2).
Proof. exact (conj source_below propagate_down_src). Qed.
Print Assumptions C33_source_below_refuted.
Example C33_instance :
  altitudes [0%Qc; qz 4; qz 9] /\ altitudes [qz 2; qz 5] /\
  propagate true 2 [qz 2; qz 5] (qz 90) = Ok [Travel (qz 2); Screen 0; Travel (qz 3); Screen 1; Travel (qz 85)] /\
  propagate true 2 [qz 2; qz 5] (qz 4) = Ok [Travel (qz 2); Screen 0; Travel (qz 3); Screen 1; Travel (- qz 1)%Qc] /\
  propagate false 3 [0%Qc; qz 4; qz 9] 0%Qc = Ok [Screen 2; Travel (qz 5); Screen 1; Travel (qz 4); Screen 0; Travel 0%Qc].
Proof.
  split; [vm_compute; intuition congruence|]. split; [vm_compute; intuition congruence|].
  split; [qc_compute; repeat constructor|]. split; qc_compute; repeat constructor.
Qed.

(** C34 is FALSE of the code: looking down, the same turbulence is returned in radians without a correction and
    in nanometres with one (here a correction of zero). *)
Theorem C34_units_refuted :
  forall (g : geom) (i j : Z) (l : list (arr Qc)) (s : px), 2 <= g_nscrn g -> g_rad g <> 0%Qc -> g_rad g <> 1%Qc ->
    reachable g i j s -> screens_ok (g_nscrn g) l ->
    (length l <= length (g_alts g))%nat -> g_up g = false -> stack_sum g i j l (g_alts g) <> 0%Qc ->
    exists s1 s2, los_frame g false i j (Some l) None s = Ok s1 /\
      los_frame g false i j (Some l) (Some (zero_stack g (g_dmalts g))) s = Ok s2 /\ p_resid s1 <> p_resid s2 /\
      p_resid s1 = (g_rad g * p_resid s2)%Qc.
Proof. exact units_differ. Qed.
Print Assumptions C34_units_refuted.
(** C34, the part that holds: with a correction and looking down, the returned residual is turbulence minus
    correction in nanometres, and phase and field are that residual in radians. *)
Theorem C34_residual_partial :
  forall (g : geom) (i j : Z) (l c : list (arr Qc)) (s : px), 2 <= g_nscrn g -> g_rad g <> 0%Qc -> reachable g i j s ->
    screens_ok (g_nscrn g) l -> (length l <= length (g_alts g))%nat ->
    screens_ok (g_nscrn g) c -> (length c <= length (g_dmalts g))%nat -> g_up g = false ->
    exists s', los_frame g false i j (Some l) (Some c) s = Ok s' /\
      p_resid s' = (stack_sum g i j l (g_alts g) - stack_sum g i j c (g_dmalts g))%Qc /\
      p_field s' = Some (g_rad g * p_resid s')%Qc /\ p_phase s' = (g_rad g * p_resid s')%Qc.
Proof. exact residual_down. Qed.
Print Assumptions C34_residual_partial.
Example C34_instance :
  let g := ex_geom false 0%Qc in
  stack_sum g 1 2 [ex_low; ex_high] (g_alts g) = qz 54 /\
  match los_frame g false 1 2 (Some [ex_low; ex_high]) (Some [ex_low]) (px_init g) with
  | Ok s => p_resid s = qz 40 /\ p_field s = Some (qz 120) | Err _ => False end.
Proof. qc_compute; repeat constructor. Qed.

(** C74: correcting with DM surfaces equal to the turbulence of their conjugate altitudes leaves nothing, in
    every direction, for every source height and for both propagation directions. *)
Theorem C74_conjugate :
  forall (g : geom) (i j : Z) (l : list (arr Qc)) (s : px), 2 <= g_nscrn g -> g_rad g <> 0%Qc -> reachable g i j s ->
    screens_ok (g_nscrn g) l -> (length l <= length (g_alts g))%nat -> g_dmalts g = g_alts g ->
    exists s', los_frame g false i j (Some l) (Some l) s = Ok s' /\ p_resid s' = 0%Qc /\ p_phase s' = 0%Qc /\ p_field s' = Some 0%Qc.
Proof. exact conjugate. Qed.
Print Assumptions C74_conjugate.
Example C74_instance :
  let g := mkGeom (qfrac 1 700) 0%Qc true (qz 9000) (qz 1) 0%Qc 4 (qfrac 1 2) (qfrac 1 2) 10 [0%Qc; qz 1000] [0%Qc; qz 1000] (qz 3) in
  reachable g 0 3 (px_init g) /\ g_dmalts g = g_alts g /\ stack_sum g 0 3 [ex_low; ex_high] (g_alts g) <> 0%Qc.
Proof. cbn zeta. split; [constructor|]. split; [reflexivity|]. intros H. apply (f_equal this) in H. vm_compute in H. discriminate. Qed.

(** C75 is FALSE of the code: in physical mode an uncorrected frame returns zero, whatever the turbulence. *)
Theorem C75_physical_refuted :
  forall (g : geom) (i j : Z) (l : list (arr Qc)) (s : px), 2 <= g_nscrn g -> reachable g i j s -> screens_ok (g_nscrn g) l ->
    (length l <= length (g_alts g))%nat ->
    exists s', los_frame g true i j (Some l) None s = Ok s' /\ p_resid s' = 0%Qc /\ p_phase s' = 0%Qc.
Proof. exact phys_residual. Qed.
Print Assumptions C75_physical_refuted.
Example C75_instance :
  let g := ex_geom false 0%Qc in
  match los_frame g true 1 2 (Some [ex_low; ex_high]) None (px_init g) with
  | Ok s => p_resid s = 0%Qc /\ p_scr s = [qz 14; qz 40] /\ p_field s = None | Err _ => False end.
Proof. qc_compute; repeat constructor. Qed.

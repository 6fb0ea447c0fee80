(** Lines of sight: footprint geometry, geometric phase, DM correction, and the schedule of the physical
    propagation.  Floats are exact rationals; angles are in radians (the position times ASEC2RAD). *)
From Verif.Base Require Import Vec.
From Verif.Model Require Import Numerics.

(** ** Geometry *)
(** The values set by __init__ and calcInitParams, soapy/lineofsight.py:64-87, 150-171. *)
Record geom := mkGeom {
  g_posx : Qc; g_posy : Qc;       (* ASEC2RAD * position, line 211 *)
  g_up : bool;                    (* propagation_direction == "up", otherwise "down" *)
  g_src : Qc;                     (* source_altitude, 0 for infinity *)
  g_lx : Qc; g_ly : Qc;           (* launch_position *)
  g_nout : Z;                     (* nx_out_pixels *)
  g_outscale : Qc;                (* out_pixel_scale *)
  g_inscale : Qc;                 (* in_pixel_scale *)
  g_nscrn : Z;                    (* nx_scrn_size *)
  g_alts : list Qc;               (* layer_altitudes[:n_layers] *)
  g_dmalts : list Qc;             (* dm_altitudes *)
  g_rad : Qc                      (* phs2Rad *) }.

(** soapy/lineofsight.py:211-220  one component of the centre of the footprint *)
Definition centre (up : bool) (src pos launch h : Qc) : Qc :=
  let c := (pos * h)%Qc in
  if up then
    if qc_eqb src 0 then (c + launch)%Qc else (c + launch * (1 - h / src))%Qc
  else c.
(** soapy/lineofsight.py:222-225 *)
Definition meta_pupil_size (g : geom) (h : Qc) : Qc :=
  let d := (qz (g_nout g) * g_outscale g)%Qc in
  if qc_eqb (g_src g) 0 then d else (d * (1 - h / g_src g))%Qc.
(** soapy/lineofsight.py:227-230  (x1, x2) from the first component, (y1, y2) from the second *)
Definition edges (g : geom) (c h : Qc) : Qc * Qc :=
  let m := meta_pupil_size g h in
  (((c - m / qz 2) / g_inscale g + qz (g_nscrn g) / qz 2)%Qc, ((c + m / qz 2) / g_inscale g + qz (g_nscrn g) / qz 2)%Qc).
Definition x_edges (g : geom) (h : Qc) : Qc * Qc := edges g (centre (g_up g) (g_src g) (g_posx g) (g_lx g) h) h.
Definition y_edges (g : geom) (h : Qc) : Qc * Qc := edges g (centre (g_up g) (g_src g) (g_posy g) (g_ly g) h) h.

(** numpy.linspace(a, b, n)[i] *)
Definition linspace (a b : Qc) (n i : Z) : Qc := if n =? 1 then a else (a + qz i * ((b - a) / qz (n - 1)))%Qc.
(** numpy clip *)
Definition clip (lo hi x : Qc) : Qc := qc_min (qc_max x lo) hi.
(** soapy/lineofsight.py:177-178, 187-188  before the clip of lines 181 and 189 *)
Definition raw_coord (g : geom) (e : Qc * Qc) (i : Z) : Qc := linspace (fst e) (snd e - 1)%Qc (g_nout g) i.
(** soapy/lineofsight.py:181, 189  clip(0, nx_scrn_size - 1.000000001) *)
Definition coord (g : geom) (e : Qc * Qc) (i : Z) : Qc := clip 0%Qc (qz (g_nscrn g) - (1 + interp_eps))%Qc (raw_coord g e i).

(** ** One frame, at one output pixel *)
(** Everything between the interpolations is elementwise, so the state is kept for one output pixel (i, j).
    [p_field] is the exponent e of EField = exp(1j e) while the field is a pure phase factor, [None] after a
    physical propagation. *)
Record px := mkPx { p_phase : Qc; p_field : option Qc; p_scr : list Qc; p_corr : list Qc; p_pcorr : Qc; p_resid : Qc }.

(** soapy/lineofsight.py:253-260 *)
Definition zero_data (s : px) : px :=
  mkPx 0%Qc (Some 0%Qc) (map (fun _ => 0%Qc) (p_scr s)) (map (fun _ => 0%Qc) (p_corr s)) (p_pcorr s) (p_resid s).

(** soapy/lineofsight.py:272-275 and 334-337  for i in range(shape[0]): interpolate array i at the coordinates of
    altitude i into slot i; an array beyond the last slot raises IndexError. *)
Fixpoint interp_into (g : geom) (i j : Z) (arrs : list (arr Qc)) (alts slots : list Qc) : result (list Qc) :=
  match arrs, alts, slots with
  | [], _, _ => Ok slots
  | a :: arrs', h :: alts', _ :: slots' =>
      let* v := bilinear_point false a (coord g (x_edges g h) i) (coord g (y_edges g h) j) in
      let* r := interp_into g i j arrs' alts' slots' in Ok (v :: r)
  | _, _, _ => Err IndexError
  end.

Definition field_add (f : option Qc) (d : Qc) : option Qc := match f with Some e => Some (e + d)%Qc | None => None end.

(** soapy/lineofsight.py:263-306, 318-324  makePhase; [phys]: propagationMode == "Physical", where only EField
    is changed *)
Definition make_phase (g : geom) (phys : bool) (i j : Z) (scrns : list (arr Qc)) (s : px) : result px :=
  let* ps := interp_into g i j scrns (g_alts g) (p_scr s) in
  if phys then Ok (mkPx (p_phase s) None ps (p_corr s) (p_pcorr s) (p_resid s))
  else
    let ap := (lsum ps * g_rad g)%Qc in
    Ok (mkPx (p_phase s + ap)%Qc (field_add (p_field s) ap) ps (p_corr s) (p_pcorr s) (p_resid s)).

(** soapy/lineofsight.py:327-348 *)
Definition perform_correction (g : geom) (i j : Z) (corr : list (arr Qc)) (s : px) : result px :=
  let* cs := interp_into g i j corr (g_dmalts g) (p_corr s) in
  let pc := (lsum cs * g_rad g)%Qc in
  let resid := ((p_phase s - pc) / g_rad g)%Qc in
  Ok (mkPx (resid * g_rad g)%Qc (field_add (p_field s) (- pc)) (p_scr s) cs pc resid).

Definition zeros (n : Z) : arr Qc := mkArr n n (fun _ _ => 0%Qc).

(** soapy/lineofsight.py:351-392  frame; the value returned is [p_resid] of the new state *)
Definition los_frame (g : geom) (phys : bool) (i j : Z) (scrns corr : option (list (arr Qc))) (s : px) : result px :=
  let s0 := zero_data s in
  let* s1 := match g_up g, corr with true, Some c => perform_correction g i j c s0 | _, _ => Ok s0 end in
  let sc := match scrns with Some l => l | None => repeat (zeros (g_nscrn g)) (length (g_alts g)) end in
  let* s2 := make_phase g phys i j sc s1 in
  let s3 := mkPx (p_phase s2) (p_field s2) (p_scr s2) (p_corr s2) (p_pcorr s2) (p_phase s2) in
  match g_up g, corr with false, Some c => perform_correction g i j c s3 | _, _ => Ok s3 end.

(** soapy/lineofsight.py:194-198, 247-249  the freshly allocated state *)
Definition px_init (g : geom) : px :=
  mkPx 0%Qc (Some 0%Qc) (map (fun _ => 0%Qc) (g_alts g)) (map (fun _ => 0%Qc) (g_dmalts g)) 0%Qc 0%Qc.

(** ** Physical propagation: the sequence of operations *)
(** [Travel z]: angularSpectrum over distance z; [Screen k]: multiply by exp(1j * phase of screen k), k being
    the index in the caller's order. *)
Inductive op := Travel (z : Qc) | Screen (k : Z).

(** soapy/lineofsight.py:450-484  the loop from screen i on; [alts] and [order] are scrnAlts[i:] and the
    indices of phase_screens[i:]; [n] is what is left of the range.  scrnAlts[i+1] may raise IndexError. *)
Fixpoint prop_loop (up : bool) (ht ht_final : Qc) (n : nat) (alts : list Qc) (order : list Z) (zt : Qc) : result (list op) :=
  match n, order with
  | O, _ => Ok []
  | S m, k :: order' =>
      match m with
      | O =>
          if qc_eqb ht_final 0 && up then Ok [Screen k]
          else Ok [Screen k; Travel (qc_abs (ht_final - ht) - zt)]
      | S _ =>
          match alts with
          | a :: ((b :: _) as alts') =>
              let z := qc_abs (b - a) in
              let* r := prop_loop up ht ht_final m alts' order' (zt + z) in
              Ok (Screen k :: Travel z :: r)
          | _ => Err IndexError
          end
      end
  | S _, [] => Err IndexError
  end.

(** soapy/lineofsight.py:395-488  physical_atmosphere_propagation for n screens; the mask of line 430 and the
    field itself are left out. *)
Definition propagate (up : bool) (n : nat) (alts : list Qc) (src : Qc) : result (list op) :=
  let order := map Z.of_nat (seq 0 n) in
  let* ht := if up then Ok 0%Qc else pyget alts (Z.of_nat n - 1) in
  let ht_final := if up then src else 0%Qc in
  let scrnAlts := if up then alts else rev alts in
  let order' := if up then order else rev order in
  match scrnAlts with
  | [] => Err IndexError
  | a0 :: _ =>
      let z := qc_abs (a0 - ht) in
      if qc_eqb ht a0 then prop_loop up ht ht_final n scrnAlts order' 0%Qc
      else let* r := prop_loop up ht ht_final n scrnAlts order' z in Ok (Travel z :: r)
  end.

(** Moving a guide star: the position and the height of a light path, set after it was built. *)
From Verif.Base Require Import Vec.
Local Open Scope Qc_scope.

(** The attributes of a configuration a light path looks at; None: there is no such attribute *)
Record conf := mkConf { c_position : option (Qc * Qc); c_gs_position : option (Qc * Qc); c_height : option Qc; c_gs_height : option Qc }.
(** soapy/lineofsight.py:103-108, 119-124, soapy/lineofsight_legacy.py:94-99, 110-115: the properties *)
Definition get_height (c : conf) : result Qc :=
  match c_height c with Some h => Ok h | None => match c_gs_height c with Some h => Ok h | None => Err AttributeError end end.
Definition get_position (c : conf) : result (Qc * Qc) :=
  match c_position c with Some p => Ok p | None => match c_gs_position c with Some p => Ok p | None => Err AttributeError end end.
(** soapy/lineofsight.py:110-117, 126-133, soapy/lineofsight_legacy.py:101-108, 117-124: their setters *)
Definition set_height (h : Qc) (c : conf) : result conf :=
  match c_height c, c_gs_height c with
  | Some _, _ => Ok (mkConf (c_position c) (c_gs_position c) (Some h) (c_gs_height c))
  | None, Some _ => Ok (mkConf (c_position c) (c_gs_position c) (c_height c) (Some h))
  | None, None => Err AttributeError
  end.
Definition set_position (p : Qc * Qc) (c : conf) : result conf :=
  match c_position c, c_gs_position c with
  | Some _, _ => Ok (mkConf (Some p) (c_gs_position c) (c_height c) (c_gs_height c))
  | None, Some _ => Ok (mkConf (c_position c) (Some p) (c_height c) (c_gs_height c))
  | None, None => Err AttributeError
  end.
(** The user assigns the attribute the documentation gives: GSPosition and GSHeight of a sensor (soapy/confParse.py:668), position and height of a camera (1102, 1129) *)
Definition assign_position (p : Qc * Qc) (c : conf) : conf :=
  match c_gs_position c with
  | Some _ => mkConf (c_position c) (Some p) (c_height c) (c_gs_height c)
  | None => mkConf (Some p) None (c_height c) (c_gs_height c)
  end.
Definition assign_height (h : Qc) (c : conf) : conf :=
  match c_gs_height c with
  | Some _ => mkConf (c_position c) (c_gs_position c) (c_height c) (Some h)
  | None => mkConf (c_position c) (c_gs_position c) (Some h) None
  end.
(** soapy/confParse.py:828-830 (sensors), 1172-1173 (cameras: only the type of the values) *)
Definition calc_params (c : conf) : conf :=
  match c_gs_position c with
  | Some p => mkConf (Some p) (Some p) (c_height c) (c_gs_height c)
  | None => c
  end.

(** ASEC2RAD; out_pixel_scale * nx_out_pixels and phase_pixel_scale (metres); the size of the screens (pixels); telDiam; pupilSize; phaseCoord *)
Record scene := mkScene { asec : Qc; beam : Qc; px : Qc; scrn : Qc; tel : Qc; pupil : Qc; coord : Qc }.
(** x1, x2, y1, y2 of a piece of a screen *)
Definition square : Type := Qc * Qc * Qc * Qc.
(** soapy/lineofsight.py:211-233 for a path down (without clipping at the edges of the screen, 181 and 189) *)
Definition edges (g : scene) (pos : Qc * Qc) (src a : Qc) : square :=
  let cx := asec g * fst pos * a in let cy := asec g * snd pos * a in
  let size := if Qc_eq_dec src 0 then beam g else beam g * (1 - a / src) in
  ((cx - size / qz 2) / px g + scrn g / qz 2, (cx + size / qz 2) / px g + scrn g / qz 2,
   (cy - size / qz 2) / px g + scrn g / qz 2, (cy + size / qz 2) / px g + scrn g / qz 2).

(** A current light path: its configuration, source_altitude, layer_metapupil_coords and dm_metapupil_coords (by the corners they are made from) *)
Record path := mkPath { p_conf : conf; p_src : Qc; p_layers : list square; p_dms : list square }.
(** soapy/lineofsight.py:139-200: calcInitParams *)
Definition recalc (g : scene) (layers dms : list Qc) (p : path) : result path :=
  let* pos := get_position (p_conf p) in Ok (mkPath (p_conf p) (p_src p) (map (edges g pos (p_src p)) layers) (map (edges g pos (p_src p)) dms)).
(** soapy/lineofsight.py:59-99 *)
Definition build (g : scene) (layers dms : list Qc) (c : conf) : result path :=
  let* h := get_height c in recalc g layers dms (mkPath c h [] []).
(** soapy/lineofsight.py:272-276, 334-338: the pieces of the screens and of the mirrors a frame reads *)
Definition reads (p : path) : list square * list square := (p_layers p, p_dms p).

(** A legacy light path: its configuration and radii *)
Record legacy := mkLegacy { l_conf : conf; l_radii : option (list Qc) }.
(** soapy/lineofsight_legacy.py:192-216: calcMetaPupilSize; [h]: the height of the path, [s]: the argument GSHeight *)
Definition meta_pupil (g : scene) (h a s : Qc) : Qc :=
  if Qc_eq_dec h 0 then tel g / qz 2 else if Qclt_le_dec a s then tel g / qz 2 * (1 - a / s) else 0.
(** soapy/lineofsight_legacy.py:82-86, 172-189 *)
Definition legacy_build (g : scene) (layers : list Qc) (c : conf) : result legacy :=
  let* h := get_height c in
  Ok (mkLegacy c (if Qc_eq_dec h 0 then None else Some (map (fun a => meta_pupil g h a h / px g) layers))).
(** soapy/lineofsight_legacy.py:231-240, 260-290: the piece of a screen getMetaPupilPhase wants; None: nothing is read.  [tn]: tan.  That it raises when the piece is not on the screen
    is left out. *)
Definition piece (g : scene) (tn : Qc -> Qc) (pos : Qc * Qc) (radius : option Qc) (a : Qc) : option square :=
  let fact := match radius with None => 1 | Some r => qz 2 * r / pupil g end in
  let cx := tn (asec g * fst pos) * a / px g in let cy := tn (asec g * snd pos) * a / px g in
  let sq := (scrn g / qz 2 + cx - fact * coord g, scrn g / qz 2 + cx + fact * coord g, scrn g / qz 2 + cy - fact * coord g, scrn g / qz 2 + cy + fact * coord g) in
  match radius with Some r => if Qc_eq_dec r 0 then None else Some sq | None => Some sq end.
(** soapy/lineofsight_legacy.py:341-357, 468-481, 523-527: the pieces a frame reads; metaPupilPos is not given *)
Definition legacy_reads (g : scene) (tn : Qc -> Qc) (layers dms : list Qc) (q : legacy) : result (list (option square) * list (option square)) :=
  let* pos := get_position (l_conf q) in let* h := get_height (l_conf q) in
  Ok (match l_radii q with
      | None => map (piece g tn pos None) layers
      | Some rs => map (fun p => piece g tn pos (Some (fst p)) (snd p)) (combine rs layers)
      end,
      map (fun a => piece g tn pos (Some (meta_pupil g h a h / px g)) a) dms).

(** What a user does: los.position = p, los.height = h, an assignment to the configuration, config.calcParams() and los.calcInitParams() *)
Inductive move := SetPosition (p : Qc * Qc) | SetHeight (h : Qc) | AssignPosition (p : Qc * Qc) | AssignHeight (h : Qc) | CalcParams | Recalc.
Definition conf_move (m : move) (c : conf) : result conf :=
  match m with
  | SetPosition p => set_position p c
  | SetHeight h => set_height h c
  | AssignPosition p => Ok (assign_position p c)
  | AssignHeight h => Ok (assign_height h c)
  | CalcParams => Ok (calc_params c)
  | Recalc => Ok c
  end.
Definition path_move (g : scene) (layers dms : list Qc) (m : move) (p : path) : result path :=
  let* c := conf_move m (p_conf p) in
  let p' := mkPath c (p_src p) (p_layers p) (p_dms p) in
  match m with Recalc => recalc g layers dms p' | _ => Ok p' end.
Fixpoint path_moves (g : scene) (layers dms : list Qc) (ms : list move) (p : path) : result path :=
  match ms with [] => Ok p | m :: r => let* p' := path_move g layers dms m p in path_moves g layers dms r p' end.
(** soapy/lineofsight_legacy.py:129-156: the legacy calcInitParams uses neither *)
Fixpoint legacy_moves (ms : list move) (q : legacy) : result legacy :=
  match ms with [] => Ok q | m :: r => let* c := conf_move m (l_conf q) in legacy_moves r (mkLegacy c (l_radii q)) end.

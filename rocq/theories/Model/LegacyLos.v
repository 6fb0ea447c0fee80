(** The legacy line of sight (soapy/lineofsight_legacy.py), which no other module imports.  Floats are exact rationals; the tangents of the
    position are given. *)
From Verif.Base Require Import Vec.
From Verif.Model Require Import Recon Numerics Los.

(** The values set by __init__ and calcInitParams, soapy/lineofsight_legacy.py:59-91, 139-156 *)
Record llos := mkLlos {
  ll_tan : Qc * Qc;                  (* tan(position * ASEC2RAD), lines 233-239; the components X, Y *)
  ll_up : bool;                      (* propagationDirection == "up" *)
  ll_height : Qc;                    (* height, 0 for infinity *)
  ll_nout : Z;                       (* nx_out_pixels *)
  ll_sim : Z;                        (* sim_size *)
  ll_outscale : Qc;                  (* out_pixel_scale *)
  ll_pix : Qc;                       (* phase_pixel_scale *)
  ll_diam : Qc;                      (* telescope_diameter *)
  ll_pupil : Z;                      (* pupil_size *)
  ll_scrns : nat;                    (* atmosConfig.scrnNo *)
  ll_heights : list Qc;              (* atmosConfig.scrnHeights *)
  ll_meta : option (list (Qc * Qc)); (* metaPupilPos, as a list *)
  ll_rad : Qc                        (* phs2Rad *) }.

(** soapy/lineofsight_legacy.py:192-216  calcMetaPupilSize(scrnHeight, height) *)
Definition meta_radius (l : llos) (h : Qc) : Qc :=
  if qc_eqb (ll_height l) 0 then (ll_diam l / qz 2)%Qc
  else if qc_leb (ll_height l) h then 0%Qc
  else (ll_diam l / qz 2 * (1 - h / ll_height l))%Qc.
(** soapy/lineofsight_legacy.py:172-189, 82-86  the radii of the layers in pixels, for a source at a finite height *)
Definition layer_radii (l : llos) : result (option (list Qc)) :=
  if qc_eqb (ll_height l) 0 then Ok None
  else let* rs := mapM (fun i => let* h := pyget (ll_heights l) (Z.of_nat i) in Ok (meta_radius l h / ll_pix l)%Qc) (seq 0 (ll_scrns l)) in Ok (Some rs).

(** scipy.interpolate.interp2d on the grid of whole numbers, linear: row y, column x; outside the grid the value of its edge *)
Definition grid_clip (n : Z) (x : Qc) : Qc := clip 0%Qc (qz (n - 1)) x.
Definition grid_cell (n : Z) (x : Qc) : Z := Z.min (qc_floor x) (n - 2).
Definition interp2d_at (a : arr Qc) (x y : Qc) : Qc :=
  let r := grid_clip (nrow a) y in let c := grid_clip (ncol a) x in
  let i := grid_cell (nrow a) r in let j := grid_cell (ncol a) c in
  let s := (r - qz i)%Qc in let t := (c - qz j)%Qc in
  ((1 - s) * ((1 - t) * at2 a i j + t * at2 a i (j + 1)) + s * ((1 - t) * at2 a (i + 1) j + t * at2 a (i + 1) (j + 1)))%Qc.
(** The coordinates it is called with are sorted first: those of a linspace that descends are turned round. *)
Definition sorted_linspace (a b : Qc) (n i : Z) : Qc := if qc_leb a b then linspace a b n i else linspace b a n i.

(** soapy/lineofsight_legacy.py:272-285  half the size of the beam, in pixels, and the scaling by the cone *)
Definition phase_coord (l : llos) : Z := qc_round (ll_outscale l * qz (ll_nout l) / qz 2 / ll_pix l)%Qc.
Definition cone_scale (l : llos) (radius : option Qc) : Qc := match radius with Some r => (qz 2 * r / qz (ll_pupil l))%Qc | None => 1%Qc end.
(** soapy/lineofsight_legacy.py:265-270, 288-291  from and to, along one axis of a screen of n elements *)
Definition reach (l : llos) (n : Z) (radius : option Qc) (c : Qc) : Qc * Qc :=
  ((qz n / qz 2 + c - cone_scale l radius * qz (phase_coord l))%Qc, (qz n / qz 2 + c + cone_scale l radius * qz (phase_coord l))%Qc).

(** soapy/lineofsight_legacy.py:243-308  getMetaPupilPhase, its element (i, j).  With a radius of 0 the array returned has sim_size elements a side
    and is then combined with one of nx_out_pixels: numpy refuses that unless they are equal or the former is 1 (done here, where each use does it).
    Lines 233-236 leave [pos] unset if [apos] is given, which no caller does.  interp2d refuses a screen that is not square. *)
Definition meta_pupil_phase (l : llos) (a : arr Qc) (h : Qc) (radius : option Qc) (pos : option (Qc * Qc)) (i j : Z) : result Qc :=
  if match radius with Some r => qc_eqb r 0 | None => false end then
    (if (ll_sim l =? ll_nout l) || (ll_sim l =? 1) then Ok 0%Qc else Err ValueError)
  else
    let c := match pos with Some p => p | None => (fst (ll_tan l) * h, snd (ll_tan l) * h)%Qc end in
    let x := reach l (nrow a) radius (fst c / ll_pix l)%Qc in
    let y := reach l (ncol a) radius (snd c / ll_pix l)%Qc in
    if qc_ltb (fst x) 0 || qc_ltb (qz (nrow a)) (snd x) || qc_ltb (fst y) 0 || qc_ltb (qz (ncol a)) (snd y) then Err ValueError
    else if negb (nrow a =? ncol a) then Err ValueError
    else Ok (interp2d_at a (sorted_linspace (fst x) (snd x - 1) (ll_nout l) j) (sorted_linspace (fst y) (snd y - 1) (ll_nout l) i)).

(** ** One frame, at one output pixel (all else is elementwise) *)
(** [q_field] is the exponent e of EField = exp(1j e). *)
Record lpx := mkLpx { q_phase : Qc; q_field : Qc; q_resid : Qc }.

(** soapy/lineofsight_legacy.py:342-358  the loop over the screens from number k on, adding to the phase; radii is a dict *)
Fixpoint add_layers (l : llos) (radii : option (list Qc)) (i j : Z) (k : nat) (scrns : list (arr Qc)) (ph : Qc) : result Qc :=
  match scrns with
  | [] => Ok ph
  | a :: rest =>
      let* radius := match radii with None => Ok None | Some rs => match nth_error rs k with Some r => Ok (Some r) | None => Err KeyError end end in
      let* pos := match ll_meta l with None => Ok None | Some ps => let* p := pyget ps (Z.of_nat k) in Ok (Some p) end in
      let* h := pyget (ll_heights l) (Z.of_nat k) in
      let* v := meta_pupil_phase l a h radius pos i j in
      add_layers l radii i j (S k) rest (ph + v)%Qc
  end.
(** soapy/lineofsight_legacy.py:318-369  makePhase, makePhaseGeometric: the phase, also the exponent of the field *)
Definition make_phase_geometric (l : llos) (radii : option (list Qc)) (i j : Z) (scrns : list (arr Qc)) (ph : Qc) : result Qc :=
  let* p := add_layers l radii i j 0 scrns ph in
  let p := (p * ll_rad l)%Qc in
  Ok (if ll_up l then (- p)%Qc else p).

(** soapy/lineofsight_legacy.py:460-491  the corrections, each with its altitude (0 for a plain array) *)
Fixpoint legacy_correction (l : llos) (i j : Z) (corr : list (arr Qc * option Qc)) (s : lpx) : result lpx :=
  match corr with
  | [] => Ok s
  | (a, alt) :: rest =>
      let h := match alt with Some h => h | None => 0%Qc end in
      let* c := meta_pupil_phase l a h (Some (meta_radius l h / ll_pix l)%Qc) None i j in
      let resid := (q_phase s / ll_rad l - c)%Qc in
      legacy_correction l i j rest (mkLpx (resid * ll_rad l)%Qc (q_field s - c * ll_rad l)%Qc resid)
  end.

(** soapy/lineofsight_legacy.py:311-316, 493-529  zeroData, frame, geometric; the value returned is [q_resid].  The radii are those found by __init__. *)
Definition legacy_frame (l : llos) (i j : Z) (scrns : option (list (arr Qc))) (corr : option (list (arr Qc * option Qc))) : result lpx :=
  let* radii := layer_radii l in
  let* p := match scrns with Some sc => make_phase_geometric l radii i j sc 0%Qc | None => Ok 0%Qc end in
  let s := mkLpx p p p in
  match corr with Some c => legacy_correction l i j c s | None => Ok s end.

(** ** Physical propagation: the sequence of operations (those of Model/Los.v) *)
(** soapy/lineofsight_legacy.py:412-454  the loop over the screens [order]; [n] is their number *)
Fixpoint legacy_prop_loop (n : Z) (ht ht_final : Qc) (alts : list Qc) (order : list Z) (zt : Qc) : result (list op) :=
  match order with
  | [] => Ok []
  | i :: rest =>
      let* z := if i =? n - 1 then Ok (qc_abs (ht_final - ht) - zt)%Qc
                else let* a := pyget alts (i + 1) in let* b := pyget alts i in Ok (qc_abs (a - b))%Qc in
      let* r := legacy_prop_loop n ht ht_final alts rest (zt + z)%Qc in
      Ok (Screen i :: Travel z :: r)
  end.
(** soapy/lineofsight_legacy.py:371-458  makePhasePhys for n screens; fields and phases left out (line 435 changes the sign of self.phase, not of the
    phase it applies) *)
Definition legacy_propagate (up : bool) (n : nat) (heights : list Qc) (src : Qc) : result (list op) :=
  let order := map Z.of_nat (seq 0 n) in
  let* start := if up then (if qc_eqb src 0 then Err ValueError else Ok (0%Qc, src))
                else let* h := pyget heights (Z.of_nat n - 1) in Ok (h, 0%Qc) in
  let order := if up then order else rev order in
  let alts := if up then heights else rev heights in
  let* first := pyget alts 0 in
  let go := if qc_eqb (fst start) first then [] else [Travel (qc_abs (first - fst start))] in
  let* r := legacy_prop_loop (Z.of_nat n) (fst start) (snd start) alts order 0%Qc in
  Ok (go ++ r).

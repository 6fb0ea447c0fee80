(** Deformable mirrors: sizes of the influence functions, the surface, and its placing in the screen;
    the correction buffers of the simulation. *)
From Verif.Base Require Import Vec.
From Verif.Model Require Import Recon.

(** ** Sizes *)
(** The DM classes of soapy/DM.py by how they size their influence functions. *)
Inductive dm_kind :=
| Padded      (* CustomShapes, KarhunenLoeve, Zernike, GaussStack: lines 238-324, 409-446 *)
| TipTilt     (* TT: lines 448-480 *)
| PiezoStack  (* Piezo: lines 326-406 *)
| PiezoFast.  (* FastPiezo: lines 482-525 *)

(** soapy/DM.py:104  nx_dm_elements = int(round(pupil_size * diameter / telescope_diameter)) *)
Definition nx_dm_elements (pupil : Z) (diameter tel : Qc) : Z := qc_round (qz pupil * diameter / tel)%Qc.

(** soapy/DM.py:355, 376  and 494: size with one actuator spacing on each side; spcing = nx/nxActuators *)
Definition piezo_size (nx xacts : Z) : Z := nx + 2 * round_div nx xacts.

(** numpy.pad by p on both sides gives n + 2p; x[c:-c] gives slice_len n c (-c). *)
(** soapy/DM.py:391-401  size of a Piezo influence function; equal sizes read self.dm_shape, which does
    not exist yet (line 392). *)
Definition piezo_shape_size (dms scrn : Z) : result Z :=
  if dms =? scrn then Err AttributeError
  else if scrn <? dms then let c := round_div (dms - scrn) 2 in Ok (slice_len dms c (- c))
  else Ok (dms + 2 * round_div (scrn - dms) 2).

(** Size of the arrays makeDMFrame returns, for each class. *)
Definition surface_size (k : dm_kind) (nx xacts simpad scrn : Z) : result Z :=
  match k with
  | Padded => Ok (nx + 2 * simpad)
  | TipTilt => Ok nx
  | PiezoStack => piezo_shape_size (piezo_size nx xacts) scrn
  | PiezoFast => Ok (piezo_size nx xacts)
  end.

(** ** One mirror *)
Definition arr_zero (n : Z) : arr Qc := mkArr n n (fun _ _ => 0%Qc).
Definition arr_sum (a : arr Qc) : Qc := zsum (nrow a) (fun i => zsum (ncol a) (fun j => at2 a i j)).
Definition arr_mean (a : arr Qc) : Qc := (arr_sum a / qz (nrow a * ncol a))%Qc.

(** soapy/DM.py:199-202  makeDMFrame on arrays; broadcasting and the exceptions as in Model/Recon.v
    make_dm_frame. *)
Definition weighted (m : Z) (cs : list Qc) (sh : list (arr Qc)) : arr Qc :=
  mkArr m m (fun i j => lsum (map (fun p => (fst p * at2 (snd p) i j)%Qc) (combine cs sh))).
Definition make_surface (sh : list (arr Qc)) (cs : vec) : result (arr Qc) :=
  match sh with
  | [] => if (length cs <=? 1)%nat then Err IndexError else Err ValueError
  | s0 :: _ =>
      let m := nrow s0 in
      if (length sh =? length cs)%nat then Ok (weighted m cs sh)
      else if (length sh =? 1)%nat then Ok (weighted m cs (repeat s0 (length cs)))
      else match cs with
           | [c] => Ok (weighted m (repeat c (length sh)) sh)
           | _ => Err ValueError
           end
  end.

(** soapy/DM.py:168  dm_shape -= dm_shape.mean() *)
Definition remove_piston (a : arr Qc) : arr Qc :=
  let m := arr_mean a in mkArr (nrow a) (ncol a) (fun i j => (at2 a i j - m)%Qc).

(** numpy assignment x[a:b, a:b] = v of a square v into a square x: the sizes must agree, or v have one
    element (ValueError otherwise). *)
Definition assign_block (x : arr Qc) (a b : Z) (v : arr Qc) : result (arr Qc) :=
  let lo := norm_ix (nrow x) a in
  let n := slice_len (nrow x) a b in
  if (nrow v =? n) then
    Ok (mkArr (nrow x) (ncol x) (fun i j =>
          if (lo <=? i) && (i <? lo + n) && (lo <=? j) && (j <? lo + n) then at2 v (i - lo) (j - lo) else at2 x i j))
  else if (nrow v =? 1) then
    Ok (mkArr (nrow x) (ncol x) (fun i j =>
          if (lo <=? i) && (i <? lo + n) && (lo <=? j) && (j <? lo + n) then at2 v 0 0 else at2 x i j))
  else Err ValueError.

(** soapy/DM.py:182-195  crop or pad: [screen] is dm_screen before, [a] the surface. *)
Definition fit_screen (scrn : Z) (screen a : arr Qc) : result (arr Qc) :=
  let m := nrow a in
  if m =? scrn then Ok a
  else if scrn <? m then
    let c := round_div (m - scrn) 2 in
    assign_block screen 0 scrn (slice2 a c (- c) c (- c))
  else
    let p := round_div (scrn - m) 2 in
    assign_block screen p (- p) a.

(** soapy/DM.py:148-197  dmFrame: new dm_screen (also the returned value).  A non-zero rotation indexes a
    2-d array with three float slices (lines 176-181), which raises IndexError.  dm_screen is created as
    zeros (line 108). *)
Definition dm_frame2 (scrn : Z) (rotation : Qc) (sh : list (arr Qc)) (screen : arr Qc) (cs : vec) : result (arr Qc) :=
  let* f := make_surface sh cs in
  let a := remove_piston f in
  if negb (qc_eqb rotation 0) then Err IndexError else fit_screen scrn screen a.

(** successive frames of one mirror; an exception leaves dm_screen as it was *)
Fixpoint dm_history (scrn : Z) (rotation : Qc) (sh : list (arr Qc)) (screen : arr Qc) (css : list vec)
  : list (result (arr Qc)) :=
  match css with
  | [] => []
  | cs :: r =>
      let out := dm_frame2 scrn rotation sh screen cs in
      out :: dm_history scrn rotation sh (match out with Ok a => a | Err _ => screen end) r
  end.

(** soapy/DM.py:204-206  reset: dm_shape exists only once dmFrame has run. *)
Definition dm_reset (surface : option (arr Qc)) : result (option (arr Qc)) :=
  match surface with
  | None => Err AttributeError
  | Some a => Ok (Some (mkArr (nrow a) (ncol a) (fun _ _ => 0%Qc)))
  end.

(** ** All mirrors *)
(** soapy/simulation.py:497-509  runDM on the buffer of one group; [flags]: config.dms[dm].closed,
    [surf dm]: dmFrame of the slice of the commands of that mirror (see Model/Recon.v run_dms). *)
Fixpoint run_group_from (k : nat) (closed : bool) (flags : list bool) (surf : nat -> result vec) (buf : list vec)
  : result (list vec) :=
  match flags, buf with
  | f :: flags', b :: buf' =>
      let* v := (if Bool.eqb f closed then surf k else Ok b) in
      let* r := run_group_from (S k) closed flags' surf buf' in
      Ok (v :: r)
  | _, _ => Ok []
  end.
Definition run_group := run_group_from 0.

(** closed_correction and open_correction *)
Record corr := mkCorr { cl : list vec; op : list vec }.

(** soapy/simulation.py:555-567  the part of loopFrame concerned with corrections: what the WFSs see, what
    the science cameras see. *)
Definition loop_corr (flags : list bool) (surf : nat -> result vec) (c : corr)
  : result (corr * list vec * list vec) :=
  let* cl' := run_group true flags surf (cl c) in
  let* op' := run_group false flags surf (op c) in
  Ok (mkCorr cl' op', cl', map (fun p => vadd (fst p) (snd p)) (combine op' cl')).

(** a run: flags and surfaces of each frame *)
Fixpoint corr_run (c : corr) (frames : list (list bool * (nat -> result vec)))
  : result (corr * list (list vec * list vec)) :=
  match frames with
  | [] => Ok (c, [])
  | (flags, surf) :: r =>
      let* x := loop_corr flags surf c in
      let* y := corr_run (fst (fst x)) r in
      Ok (fst y, (snd (fst x), snd x) :: snd y)
  end.
(** soapy/simulation.py:297-300 *)
Definition corr_init (ndm npix : nat) : corr := mkCorr (repeat (vzero npix) ndm) (repeat (vzero npix) ndm).

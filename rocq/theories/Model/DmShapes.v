(** Influence functions of the mirror classes of soapy/DM.py. *)
From Verif.Base Require Import Vec.
From Verif.Model Require Import Recon Numerics Dm.

(** soapy/DM.py:356-363, 489  Piezo.getActiveActs: valid_act_coords, x outermost *)
Definition piezo_coords (n : nat) : list (Z * Z) :=
  flat_map (fun x => map (fun y => (Z.of_nat x, Z.of_nat y)) (seq 0 n)) (seq 0 n).

(** soapy/DM.py:221-222, 523-524  the elements whose flag is set *)
Definition keep {A} (flags : list bool) (l : list A) : list A := map snd (filter fst (combine flags l)).

Section Piezo.
  (** RectBivariateSpline of the configured order (see Model/Numerics.v spl_zoom) *)
  Variable spl : arr Qc -> Qc -> Qc -> Qc.
  (** nxActuators, dmSize, scrn_size, iMatValue *)
  Variables (n : nat) (dms scrn : Z) (ival : Qc).

  (** soapy/DM.py:380-384  one actuator of the padded grid pushed *)
  Definition poke (c : Z * Z) : arr Qc :=
    let m := Z.of_nat n + 2 in
    mkArr m m (fun i j => if (i =? fst c + 1) && (j =? snd c + 1) then 1%Qc else 0%Qc).

  (** numpy.pad of one influence function by p zeros on each side *)
  Definition pad_zero (p : Z) (s : arr Qc) : arr Qc :=
    mkArr (nrow s + 2 * p) (ncol s + 2 * p) (fun i j =>
      if (0 <=? i - p) && (i - p <? nrow s) && (0 <=? j - p) && (j - p <? ncol s) then at2 s (i - p) (j - p) else 0%Qc).

  (** soapy/DM.py:391-401  crop or pad; equal sizes read self.dm_shape, which does not exist yet *)
  Definition piezo_cut (s : arr Qc) : result (arr Qc) :=
    if dms =? scrn then Err AttributeError
    else if scrn <? dms then let c := round_div (dms - scrn) 2 in Ok (slice2 s c (- c) c (- c))
    else Ok (pad_zero (round_div (scrn - dms) 2) s).

  (** soapy/DM.py:133  iMatShapes *= iMatValue *)
  Definition scale_arr (c : Qc) (s : arr Qc) : arr Qc := mkArr (nrow s) (ncol s) (fun i j => (at2 s i j * c)%Qc).

  (** soapy/DM.py:366-404  Piezo.makeIMatShapes, then line 133.  Storage in float32 is left out. *)
  Definition piezo_shapes : result (list (arr Qc)) :=
    mapM (fun c => let* s := piezo_cut (remove_piston (spl_zoom spl (poke c) dms dms)) in Ok (scale_arr ival s)) (piezo_coords n).

  (** soapy/DM.py:502-506  FastPiezo: actGrid[coords] = actCoeffs*iMatValue on a zeroed grid (a later
      coordinate wins), padded by one *)
  Definition fast_grid (coords : list (Z * Z)) (vals : vec) : arr Qc :=
    let m := Z.of_nat n + 2 in
    mkArr m m (fun i j =>
      fold_left (fun acc p => if (i =? fst (fst p) + 1) && (j =? snd (fst p) + 1) then snd p else acc) (combine coords vals) 0%Qc).
  (** soapy/DM.py:500-513  FastPiezo.makeDMFrame; commands of another length raise ValueError unless there is
      one.  The size handed to zoom_rbs is a numpy float, whose indexing raises IndexError, which is caught. *)
  Definition fast_surface (coords : list (Z * Z)) (cs : vec) : result (arr Qc) :=
    let* v := (if (length cs =? length coords)%nat then Ok cs
               else match cs with [c] => Ok (repeat c (length coords)) | _ => Err ValueError end) in
    Ok (spl_zoom spl (fast_grid coords (map (fun c => c * ival)%Qc v)) dms dms).
  (** soapy/DM.py:148-197  dmFrame with it *)
  Definition fast_frame (rotation : Qc) (coords : list (Z * Z)) (screen : arr Qc) (cs : vec) : result (arr Qc) :=
    let* f := fast_surface coords cs in
    let a := remove_piston f in
    if negb (qc_eqb rotation 0) then Err IndexError else fit_screen scrn screen a.
  Fixpoint fast_history (rotation : Qc) (coords : list (Z * Z)) (screen : arr Qc) (css : list vec) : list (result (arr Qc)) :=
    match css with
    | [] => []
    | cs :: r =>
        let out := fast_frame rotation coords screen cs in
        out :: fast_history rotation coords (match out with Ok a => a | Err _ => screen end) r
    end.
End Piezo.

(** ** Tip-tilt mirror *)
(** numpy.linspace(-1, 1, n)[k] *)
Definition linspace_pm (n k : Z) : Qc := if n =? 1 then qz (-1) else (qz (-1) + qz 2 * qz k / qz (n - 1))%Qc.
(** soapy/DM.py:465-480 and 133  TT.makeIMatShapes: meshgrid's first array varies along the columns.
    [asec]: ASEC2RAD, [tel]: telDiam. *)
Definition tt_amp (asec tel : Qc) : Qc := (- (asec * tel / qz 2) * qz 1000000000)%Qc.
Definition tt_shapes (nx : Z) (asec tel ival : Qc) : list (arr Qc) :=
  [ mkArr nx nx (fun _ j => linspace_pm nx j * tt_amp asec tel * ival)%Qc;
    mkArr nx nx (fun i _ => linspace_pm nx i * tt_amp asec tel * ival)%Qc ].

(** ** Gaussian stack *)
(** soapy/DM.py:430-436  GaussStack: the centre handed to gaussian2d for actuator k of one axis, in elements
    of the mirror; one actuator divides by zero. *)
Definition gauss_centre (pupil nacts k : Z) : result Qc :=
  if nacts =? 1 then Err ZeroDivisionError else Ok (qz k * (qz pupil / qz (nacts - 1)))%Qc.

(** soapy/DM.py:433-436  the influence function of actuator c: aotools.gaussian2d (not in /repo) is some
    function [bump] of the distances in x (columns) and y (rows) from the centre. *)
Definition gauss_shape (bump : Qc -> Qc -> Qc) (pupil nx nacts : Z) (c : Z * Z) : result (arr Qc) :=
  let* x := gauss_centre pupil nacts (fst c) in
  let* y := gauss_centre pupil nacts (snd c) in
  Ok (mkArr nx nx (fun i j => bump (x - qz j) (y - qz i))%Qc).

(** ** Construction *)
Inductive dm_class := CustomShapes (in_file : Z) | KarhunenLoeve | ZernikeDM | Piezo | GaussStack | TT | FastPiezo.
(** Number of actuators of a mirror, or the exception raised on the way: getActiveActs (soapy/DM.py:140-146,
    345-363, 456-461, 487-496) and makeIMatShapes (254; 289-296:
    self.nacts does not exist; 384-388: RectBivariateSpline needs more than [order] points; 391-392; 430).
    [order]: interpOrder. *)
Definition dm_build (k : dm_class) (nx nacts scrn order : Z) : result Z :=
  match k with
  | CustomShapes f => if f <? nacts then Err AssertionError else Ok nacts
  | KarhunenLoeve => if nacts <=? 1000 then Ok nacts else Err AttributeError
  | ZernikeDM => Ok nacts
  | Piezo =>
      if nacts + 2 <=? order then Err ValueError
      else if piezo_size nx nacts =? scrn then Err AttributeError else Ok (nacts * nacts)
  | GaussStack => if nacts =? 1 then Err ZeroDivisionError else Ok (nacts * nacts)
  | TT => Ok 2
  | FastPiezo => Ok (nacts * nacts)
  end.

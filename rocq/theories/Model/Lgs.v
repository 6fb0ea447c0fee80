(** Laser guide stars: launch geometry, elongation, sizes of the beacon images, precompensation, and the logger.  One component of positions;
    numpy treats both alike.  Floats are exact rationals here, see LgsReal.v for the terms with square roots and transforms. *)
From Verif.Base Require Import Vec.
From Verif.Model Require Import Los.

(** ** Launch geometry *)
(** soapy/LGS.py:281-301  lgsOALaunchMetaPupilPos; [rad2asec] is the constant of LGS.py:32 *)
Definition launch_meta_pupil (rad2asec gs launch lgsHt h : Qc) : Qc :=
  let gs_rad := (gs / rad2asec)%Qc in
  (launch + h * gs_rad - h * launch / lgsHt)%Qc.
Definition lgs_rad2asec : Qc := qz 206265.
(** ndarray.max() of a non-empty array *)
Definition qmax_list (l : list Qc) : Qc := match l with [] => 0%Qc | x :: t => fold_left qc_max t x end.
(** soapy/LGS.py:106-113  [positions]: the two components for every layer, in metres; true = the warning is logged *)
Definition off_axis_warning (positions : list Qc) (pxlScale : Qc) (pupil sim : Z) : bool :=
  negb (qc_leb (qz 2 * (qmax_list positions * pxlScale + qz pupil / qz 2))%Qc (qz sim)).

(** ** Elongation *)
(** soapy/wfs/wfs.py:236-240 *)
Definition elong_height (gsHeight depth : Qc) (n i : Z) : Qc := linspace (gsHeight - depth / qz 2)%Qc (gsHeight + depth / qz 2)%Qc n i.
(** soapy/wfs/wfs.py:100 *)
Definition rad2asec : Qc := qfrac 206264849159 1000000.
(** soapy/wfs/wfs.py:335-362  calcElongPos: GSPosition in arcseconds, [xl] in metres *)
Definition elong_pos (gs xl gsHeight h : Qc) : Qc :=
  let dh := (h - gsHeight)%Qc in
  let gsPos := (gs * rad2asec)%Qc in
  let theta := (gsPos - (dh * xl) / (gsHeight * (gsHeight + dh)))%Qc in
  ((gsPos + theta) * rad2asec)%Qc.
(** soapy/confParse.py:945-955 *)
Definition na_profile (given : option vec) (layers : nat) : result vec :=
  let p := match given with None => repeat 1%Qc layers | Some p => p end in
  if (length p <? layers)%nat then Err ConfigurationError else Ok p.
(** soapy/wfs/wfs.py:368-393 with soapy/wfs/shackhartmann.py:348-351  the focal plane of a frame: starting from [f], layer i adds its spots
    [spots i] times naProfile[i] (an intensity of exactly one is not multiplied, which is the same); IndexError cannot occur after na_profile *)
Fixpoint elong_focus (spots : list vec) (profile : vec) (f : vec) : result vec :=
  match spots, profile with
  | [], _ => Ok f
  | s :: t, w :: p => elong_focus t p (vadd f (vscale w s))
  | _ :: _, [] => Err IndexError
  end.
(** soapy/wfs/shackhartmann.py:386-390  the detector scaled to the flux of the guide star; [None]: 0/0 *)
Definition scale_flux (flux : Qc) (d : vec) : option vec := if qc_eqb (lsum d) 0 then None else Some (vscale (flux / lsum d) d).

(** ** Beacon image sizes *)
(** soapy/LGS.py:134-177, 180-196  LGS_Geometric: [pxlScale] pixels per metre, [ratio] = fov_rad * pupilDiam / wavelength.
    Returns nFovPxls.  ZeroDivisionError at line 170, ValueError at line 193. *)
Definition geometric_sizes (pupilDiam pxlScale ratio : Qc) (nOut : Z) : result Z :=
  if qc_round (pupilDiam * pxlScale) =? 0 then Err ZeroDivisionError
  else let n := qc_round ratio in if nOut <? n then Err ValueError else Ok n.
(** soapy/LGS.py:242-268  LGS_Physical: the slot of the focus term in an array of 3 * nOut; [L] = lgsPupilPxls.  A negative start counts from the
    end, so the slice is empty or has another length and the assignment raises ValueError. *)
Definition py_slice_len (n a b : Z) : Z := let f k := Z.min n (Z.max 0 (if k <? 0 then k + n else k)) in Z.max 0 (f b - f a).
Definition physical_slot (nOut L : Z) : Z * Z := let c := (3 * nOut) / 2 in (c - L / 2, if L mod 2 =? 0 then c + L / 2 else c + L / 2 + 1).
Definition physical_sizes (nOut L : Z) : result Z :=
  let (s, e) := physical_slot nOut L in if py_slice_len (3 * nOut) s e =? L then Ok (py_slice_len (3 * nOut) nOut (- nOut)) else Err ValueError.
(** soapy/wfs/shackhartmann.py:64-78, 218-221  nx_subap_interp; the angular size of a focal plane sample of the sub-aperture transforms, which is
    wavelength over (transform size times pupil-plane pitch); and the pixel scale asked of the beacon *)
Definition subap_interp (oversize : Z) (diam fov wavelength : Qc) : Z := qc_round (diam * fov / wavelength)%Qc * oversize.
Definition spot_scale (oversize : Z) (diam fov wavelength : Qc) (padding : Z) : Qc :=
  (wavelength / (qz padding * (diam / qz (subap_interp oversize diam fov wavelength))))%Qc.
Definition beacon_scale (fov : Qc) (padding : Z) : Qc := (fov / qz padding)%Qc.

(** ** Precompensation *)
(** soapy/wfs/wfs.py:427-444 and soapy/LGS.py:117  one frame: what the sensor stores as the beacon's precorrection.  [beacon] = None when uplink is
    off, otherwise its current precorrection *)
Definition precomp_frame {A} (elongated precompensated : bool) (correction : option A) (beacon : option (option A)) : result (option (option A)) :=
  if elongated then Ok beacon
  else match correction with
       | None => Ok beacon
       | Some c => if precompensated then match beacon with None => Err AttributeError | Some _ => Ok (Some (Some c)) end else Ok beacon
       end.

(** ** Logger *)
Inductive sink := SFile | SStatus | SStdout.
(** soapy/logger.py:81-103  _printMessage: the sinks written to, in order.  The caller's name in front of the text is left out; a level other than
    1 to 4 has no colour and raises KeyError when there is a file *)
Definition print_message (verbosity : Z) (file status : bool) (level : Z) : result (list sink) :=
  if level <=? verbosity then
    if file && negb ((1 <=? level) && (level <=? 4)) then Err KeyError
    else Ok ((if file then [SFile] else []) ++ (if status then [SStatus] else []) ++ [SStdout])
  else Ok [].
(** soapy/logger.py:105-143 *)
Inductive call := CPrint | CInfo | CDebug | CWarning.
Definition call_level (c : call) : Z := match c with CPrint => 3 | CInfo => 2 | CDebug => 3 | CWarning => 1 end.
Definition log (verbosity : Z) (file status : bool) (c : call) : result (list sink) := print_message verbosity file status (call_level c).

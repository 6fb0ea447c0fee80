(** Configuration objects and the parameters derived from them. *)
From Coq Require Import String.
From Verif.Base Require Import Vec.
Open Scope string_scope.
Open Scope list_scope.
Open Scope Z_scope.

(** ** Loading parameters *)
(** The values a parameter file can hold. *)
Inductive val := VNone | VBool (b : bool) | VNum (q : Qc) | VStr (s : string) | VList (l : list val).
Definition pdict := string -> option val.
(** soapy/confParse.py:436-440  __setattr__ of ConfigObj; attributes of an object not set yet are absent *)
Record cls := mkCls { required : list string; optional : list (string * val); calculated : list string }.
(** soapy/confParse.py:568-571 (and the same lines in every class): requiredParams + calculatedParams + CONFIG_ATTRIBUTES and the
    names of optionalParams *)
Definition allowed (k : cls) : list string := required k ++ calculated k ++ ["N"] ++ map fst (optional k).
Definition set_attr (k : cls) (o : pdict) (name : string) (v : val) : result unit * pdict :=
  if existsb (String.eqb name) (allowed k) then (Ok tt, fun n => if String.eqb n name then Some v else o n) else (Err ConfigurationError, o).
(** the object after an assignment that did not raise *)
Definition assigned (k : cls) (o : pdict) (name : string) (v : val) : result pdict :=
  match set_attr k o name v with (Ok _, o') => Ok o' | (Err e, _) => Err e end.
(** value[N] *)
Definition subscript (v : val) (n : nat) : result val :=
  match v with
  | VList l => match nth_error l n with Some x => Ok x | None => Err IndexError end
  | VStr s => match String.get n s with Some c => Ok (VStr (String c EmptyString)) | None => Err IndexError end
  | _ => Err TypeError
  end.
(** the value used for a parameter found in the file: the whole value (YAML), or entry N (python files) *)
Definition entry (N : option nat) (v : val) : result val := match N with None => Ok v | Some n => subscript v n end.
(** any exception other than KeyError becomes ConfigurationError *)
Definition as_config {A} (r : result A) : result A := match r with Ok a => Ok a | Err _ => Err ConfigurationError end.
(** soapy/confParse.py:368-378, 392-399 *)
Fixpoint load_required (k : cls) (N : option nat) (d : pdict) (ps : list string) (o : pdict) : result pdict :=
  match ps with
  | [] => Ok o
  | p :: r => match d p with
              | None => Err ConfigurationError
              | Some v => let* o' := as_config (let* x := entry N v in assigned k o p x) in load_required k N d r o'
              end
  end.
(** soapy/confParse.py:380-390, 401-408 *)
Fixpoint load_optional (k : cls) (N : option nat) (d : pdict) (ps : list (string * val)) (o : pdict) : result pdict :=
  match ps with
  | [] => Ok o
  | (p, dflt) :: r => match d p with
              | None => let* o' := assigned k o p dflt in load_optional k N d r o'
              | Some v => let* o' := as_config (let* x := entry N v in assigned k o p x) in load_optional k N d r o'
              end
  end.
(** soapy/confParse.py:359-409  loadParams up to calcParams *)
Definition load_params (k : cls) (N : option nat) (d : pdict) : result pdict :=
  let* o := load_required k N d (required k) (fun _ => None) in load_optional k N d (optional k) o.

(** ** The parameter tables *)
Definition num (a : Z) (b : positive) : val := VNum (qfrac a b).
(** soapy/confParse.py:524-571 *)
Definition sim_cls : cls := mkCls ["pupilSize"; "nIters"; "loopTime"]
  [("nGS", num 0 1); ("nDM", num 0 1); ("nSci", num 0 1); ("gain", num 6 10); ("reconstructor", VStr "MVM"); ("simName", VNone);
   ("saveSlopes", VBool false); ("saveDmCommands", VBool false); ("saveLgsPsf", VBool false); ("saveLearn", VBool false);
   ("saveStrehl", VBool false); ("saveWfsFrames", VBool false); ("saveSciPsf", VBool false); ("saveInstPsf", VBool false);
   ("saveInstScieField", VBool false); ("saveWfe", VBool false); ("saveSciRes", VBool false); ("saveCalib", VBool false);
   ("wfsMP", VBool false); ("verbosity", num 2 1); ("logfile", VNone); ("learnIters", num 0 1); ("learnAtmos", VStr "random");
   ("simOversize", num 102 100); ("loopDelay", num 0 1); ("threads", num 1 1)]
  ["pxlScale"; "simPad"; "simSize"; "scrnSize"; "totalWfsData"; "totalActs"; "saveHeader"].
(** soapy/confParse.py:622-647 *)
Definition atmos_cls : cls := mkCls ["scrnNo"; "scrnHeights"; "scrnStrengths"; "r0"; "windDirs"; "windSpeeds"]
  [("scrnNames", VNone); ("subHarmonics", VBool false); ("L0", VNone); ("randomScrns", VBool false); ("tau0", VNone);
   ("infinite", VBool false); ("wholeScrnSize", VNone); ("randomSeed", VNone)]
  ["normScrnStrengths"].
(** soapy/confParse.py:773-825 *)
Definition wfs_cls : cls := mkCls ["GSPosition"; "wavelength"; "nxSubaps"]
  [("propagationMode", VStr "Geometric"); ("fftwThreads", num 1 1); ("fftwFlag", VStr "FFTW_PATIENT"); ("angleEquivNoise", num 0 1);
   ("subapFieldStop", VBool false); ("removeTT", VStr "False"); ("angleEquivNoise", num 0 1); ("fftOversamp", num 3 1); ("GSHeight", num 0 1);
   ("subapThreshold", num 5 10); ("lgs", VNone); ("centThreshold", num 0 1); ("centMethod", VStr "centre_of_gravity");
   ("type", VStr "ShackHartmann"); ("exposureTime", VNone); ("referenceImage", VNone); ("throughput", num 1 1); ("eReadNoise", num 0 1);
   ("photonNoise", VBool false); ("GSMag", num 0 1); ("wvlBandWidth", num 100 1); ("extendedObject", VNone); ("pxlsPerSubap", num 10 1);
   ("subapFOV", num 5 1); ("correlationFFTPad", VNone); ("nx_guard_pixels", num 0 1); ("loadModule", VNone); ("photometric_zp", num 2000000000 1);
   ("nb_modulation", num 4 1); ("amplitude_modulation", num 1 10); ("FOV", num 5 10); ("detector_size", VNone); ("detector", VStr "CCD");
   ("nb_of_photon", VNone); ("pupil_separation", num 10 1)]
  ["position"; "pxlsPerSubap2"; "dataStart"; "lgs"].
(** soapy/confParse.py:863-873 *)
Definition tel_cls : cls := mkCls ["telDiam"] [("obsDiam", num 0 1); ("mask", VStr "circle")] [].
(** soapy/confParse.py:922-943 *)
Definition lgs_cls : cls := mkCls []
  [("uplink", VBool false); ("pupilDiam", num 3 10); ("obsDiam", num 0 1); ("wavelength", num 600 1000000000); ("propagationMode", VStr "Physical");
   ("height", num 90000 1); ("fftwFlag", VStr "FFTW_PATIENT"); ("fftwThreads", num 0 1); ("elongationDepth", num 0 1); ("elongationLayers", num 10 1);
   ("launchPosition", VList [num 0 1; num 0 1]); ("naProfile", VNone); ("precompensated", VBool false)]
  ["position"].
(** soapy/confParse.py:1013-1038 *)
Definition dm_cls : cls := mkCls ["type"]
  [("nxActuators", VNone); ("svdConditioning", num 0 1); ("gain", num 6 10); ("closed", VBool true); ("iMatValue", num 10 1); ("wfs", VNone);
   ("rotation", num 0 1); ("interpOrder", num 2 1); ("gaussWidth", num 5 10); ("altitude", num 0 1); ("diameter", VNone); ("gauss_width", num 7 10);
   ("dmShapesFilename", VNone); ("loadModule", VNone)] [].
(** soapy/confParse.py:1074-1088 *)
Definition recon_cls : cls := mkCls []
  [("type", VStr "MVM"); ("svdConditioning", num 0 1); ("gain", num 6 10); ("imat_noise", VBool true); ("loadModule", VNone)] [].
(** soapy/confParse.py:1147-1169 *)
Definition sci_cls : cls := mkCls ["position"; "wavelength"; "pxls"]
  [("pxlScale", VNone); ("FOV", VNone); ("type", VStr "PSF"); ("fftOversamp", num 2 1); ("fftwFlag", VStr "FFTW_MEASURE"); ("fftwThreads", num 1 1);
   ("instStrehlWithTT", VBool false); ("height", num 0 1); ("propagationMode", VStr "Geometric"); ("loadModule", VNone); ("propagationDir", VStr "down")] [].
Definition all_cls : list cls := [sim_cls; atmos_cls; wfs_cls; tel_cls; lgs_cls; dm_cls; recon_cls; sci_cls].

(** ** Sizes *)
(** soapy/confParse.py:47-48 *)
Definition RAD2ASEC : Qc := qfrac 206264849159 1000000.
Definition ASEC2RAD : Qc := (1 / RAD2ASEC)%Qc.
(** soapy/confParse.py:158-159 *)
Definition pxl_scale (pupil : Z) (diam : Qc) : Qc := (qz pupil / diam)%Qc.
(** soapy/confParse.py:162-164 *)
Definition sim_pad (pupil : Z) (oversize : Qc) : Z := Z.max (qc_round (qz pupil * ((oversize - 1) / qz 2))%Qc) 1.
Definition sim_size (pupil : Z) (oversize : Qc) : Z := pupil + 2 * sim_pad pupil oversize.
(** Elongated laser guide stars: depth, height, largest |launchPosition|.  soapy/confParse.py:173-184.  [el_height] is the guide star's
    GSHeight; a zero height (numpy inf/nan in the code) is outside the model. *)
Record elongation := mkElong { el_depth : Qc; el_height : Qc; el_launch : Qc }.
Definition elong_shift (diam : Qc) (e : elongation) (x y : Qc) : Qc :=
  let ml := (el_launch e * diam / qz 2)%Qc in
  let t dh := (qc_max x y - (dh * ml) / (el_height e * (el_height e + dh)) * RAD2ASEC)%Qc in
  qc_max (t (- el_depth e / qz 2)%Qc) (t (el_depth e / qz 2)%Qc).
(** soapy/confParse.py:169-185  position of a guide star as it enters the maximum *)
Definition gs_entry (diam : Qc) (g : (Qc * Qc) * option elongation) : Qc * Qc :=
  let '((x, y), e) := g in
  match e with
  | None => (qc_abs x, qc_abs y)
  | Some e => if qc_eqb (el_depth e) 0 then (qc_abs x, qc_abs y)
              else let t := elong_shift diam e x y in (qc_abs (x + t)%Qc, qc_abs (y + t)%Qc)
  end.
Fixpoint list_max (a : Qc) (l : list Qc) : Qc := match l with [] => a | b :: r => qc_max a (list_max b r) end.
Definition flat (l : list (Qc * Qc)) : list Qc := flat_map (fun p => [fst p; snd p]) l.
(** soapy/confParse.py:187-193  science positions enter with their sign *)
Definition max_pos (diam : Qc) (gs : list ((Qc * Qc) * option elongation)) (sci : list (Qc * Qc)) : Qc :=
  match flat (map (gs_entry diam) gs ++ sci) with [] => 0%Qc | a :: r => list_max a r end.
(** soapy/confParse.py:195-213  [hmax] is scrnHeights.max() *)
Definition scrn_size (pupil : Z) (oversize diam hmax : Qc) (gs : list ((Qc * Qc) * option elongation)) (sci : list (Qc * Qc)) (phys : bool) : Z :=
  let s := qc_ceil (qz 2 * pxl_scale pupil diam * hmax * qc_abs (max_pos diam gs sci) * ASEC2RAD)%Qc + sim_size pupil oversize in
  let s := if Z.eqb (s mod 2) 0 then s else s + 1 in
  if phys then s * 2 else s.

(** ** Derived parameters that are written back *)
Record wcfg := mkW { w_exposure : option Qc; w_nx : Z; w_stop : bool }.
Record scfg := mkS { s_scale : option Qc; s_fov : option Qc; s_pxls : Qc }.
Record cfg := mkCfg {
  c_loop : Qc; c_diam : Qc; c_scrns : nat; c_L0 : option (list Qc);
  c_wfss : list wcfg; c_dms : list (option Qc); c_scis : list scfg }.
(** soapy/confParse.py:1171-1184; [None] FOV with a given scale differs from the product *)
Definition calc_sci (s : scfg) : result scfg :=
  match s_scale s, s_fov s with
  | None, None => Err ConfigurationError
  | Some p, f => if match f with Some f => qc_eqb (p * s_pxls s)%Qc f | None => false end
                 then match f with Some f => Ok (mkS (Some (f / s_pxls s)%Qc) (Some f) (s_pxls s)) | None => Err TypeError end
                 else Ok (mkS (Some p) (Some (p * s_pxls s)%Qc) (s_pxls s))
  | None, Some f => Ok (mkS (Some (f / s_pxls s)%Qc) (Some f) (s_pxls s))
  end.
Fixpoint calc_scis (l : list scfg) : result (list scfg) :=
  match l with [] => Ok [] | s :: r => let* s' := calc_sci s in let* r' := calc_scis r in Ok (s' :: r') end.
(** soapy/confParse.py:215-218, 230-234 *)
Definition calc_wfs (loop : Qc) (w : wcfg) : wcfg :=
  mkW (match w_exposure w with None => Some loop | Some e => if qc_eqb e 0 then Some loop else Some e end)
      (w_nx w) (if (w_nx w =? 1) && negb (w_stop w) then true else w_stop w).
(** soapy/confParse.py:138-239  calcParams on what it writes back *)
Definition calc_params (c : cfg) : result cfg :=
  let* sc := calc_scis (c_scis c) in
  Ok (mkCfg (c_loop c) (c_diam c) (c_scrns c)
            (match c_L0 c with None => Some (repeat (qz 10000000000) (c_scrns c)) | l => l end)
            (map (calc_wfs (c_loop c)) (c_wfss c))
            (map (fun d => match d with None => Some (c_diam c) | _ => d end) (c_dms c)) sc).

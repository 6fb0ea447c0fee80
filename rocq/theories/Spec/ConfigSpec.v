(** What the configuration theorems talk about. *)
From Coq Require Import String.
From Verif.Base Require Import Vec.
From Verif.Model Require Import Config.
Open Scope string_scope.
Open Scope list_scope.
Open Scope Z_scope.

(** A parameter the class declares in any of its tables ("N" is the index every configuration object has). *)
Definition declared (k : cls) (name : string) : Prop :=
  In name (required k) \/ In name (calculated k) \/ name = "N" \/ exists v, In (name, v) (optional k).

(** Entry [n] of a list value, or character [n] of a string; other values have no entries. *)
Definition has_entry (v : val) (n : nat) (x : val) : Prop :=
  (exists l, v = VList l /\ nth_error l n = Some x) \/ (exists s c, v = VStr s /\ String.get n s = Some c /\ x = VStr (String c EmptyString)).

(** The parameter tables of the class documentation in soapy/confParse.py (449-520, 573-619, 660-771, 839-861, 876-920, 957-1011,
    1045-1073, 1090-1145): the parameters listed as required, and the optional ones with their documented default. *)
Definition doc_tables : list (string * (cls * (list string * list (string * val)))) :=
  [("Sim", (sim_cls, (["pupilSize"; "nIters"; "loopTime"],
    [("nGS", num 0 1); ("nDM", num 0 1); ("nSci", num 0 1); ("reconstructor", VStr "MVM"); ("simName", VNone); ("wfsMP", VBool false);
     ("verbosity", num 2 1); ("logfile", VNone); ("learnIters", num 0 1); ("learnAtmos", VStr "random"); ("simOversize", num 12 10);
     ("loopDelay", num 0 1); ("threads", num 1 1); ("saveSlopes", VBool false); ("saveDmCommands", VBool false); ("saveWfsFrames", VBool false);
     ("saveStrehl", VBool false); ("saveWfe", VBool false); ("saveSciPsf", VBool false); ("saveInstPsf", VBool false);
     ("saveInstScieField", VBool false); ("saveSciRes", VBool false); ("saveCalib", VBool false)])));
   ("Atmosphere", (atmos_cls, (["scrnNo"; "scrnHeights"; "scrnStrengths"; "windDirs"; "windSpeeds"; "r0"],
    [("scrnNames", VNone); ("subHarmonics", VBool false); ("L0", VNone); ("randomScrns", VBool false); ("infinite", VBool false); ("tau0", VNone);
     ("wholeScrnSize", VNone); ("randomSeed", VNone)])));
   ("WFS", (wfs_cls, (["GSPosition"; "wavelength"; "nxSubaps"],
    [("type", VStr "ShackHartmann"); ("GSMag", num 0 1); ("photonNoise", VBool false); ("eReadNoise", num 0 1); ("throughput", num 1 1);
     ("propagationMode", VStr "Geometric"); ("subapFieldStop", VBool false); ("removeTT", VBool false); ("fftOversamp", num 3 1); ("GSHeight", num 0 1);
     ("subapThreshold", num 5 10); ("lgs", VBool false); ("centMethod", VStr "centre_of_gravity"); ("referenceImage", VNone);
     ("angleEquivNoise", num 0 1); ("centThreshold", num 1 10); ("exposureTime", VNone); ("wvlBandWidth", num 100 1); ("extendedObject", VNone);
     ("fftwThreads", num 1 1); ("fftwFlag", VStr "FFTW_PATIENT"); ("pxlsPerSubap", num 10 1); ("subapFOV", num 5 1); ("correlationFFTPad", VNone);
     ("nx_guard_pixels", num 0 1); ("loadModule", VNone); ("photometric_zp", num 2000000000 1); ("nb_modulation", num 4 1);
     ("amplitude_modulation", num 1 10); ("FOV", num 5 10); ("detector_size", VNone); ("detector", VStr "CCD"); ("nb_of_photon", num 36000 1);
     ("pupil_separation", num 10 1)])));
   ("Telescope", (tel_cls, (["telDiam"], [("obsDiam", num 0 1); ("mask", VStr "circle")])));
   ("LGS", (lgs_cls, ([],
    [("uplink", VBool false); ("pupilDiam", num 3 10); ("obsDiam", num 0 1); ("wavelength", num 600 1000000000); ("propagationMode", VStr "Physical");
     ("height", num 90000 1); ("elongationDepth", num 0 1); ("elongationLayers", num 10 1); ("launchPosition", VList [num 0 1; num 0 1]);
     ("fftwThreads", num 1 1); ("fftwFlag", VStr "FFTW_PATIENT"); ("naProfile", VNone); ("precompensated", VBool false)])));
   ("DM", (dm_cls, (["type"; "nxActuators"; "gain"; "svdConditioning"],
    [("closed", VBool true); ("iMatValue", num 10 1); ("wfs", num 0 1); ("rotation", num 0 1); ("interpOrder", num 2 1); ("gaussWidth", num 5 10);
     ("altitude", num 0 1); ("diameter", VNone); ("gauss_width", num 1 1); ("loadModule", VNone)])));
   ("Reconstructor", (recon_cls, ([],
    [("type", VStr "MVM"); ("svdConditioning", num 0 1); ("gain", num 6 10); ("imat_noise", VBool true); ("loadModule", VNone)])));
   ("Science", (sci_cls, (["position"; "FOV"; "wavelength"; "pxls"],
    [("pxlScale", VNone); ("type", VStr "PSF"); ("fftOversamp", num 2 1); ("fftwThreads", num 1 1); ("fftwFlag", VStr "FFTW_MEASURE");
     ("height", num 0 1); ("propagationMode", VStr "Geometric"); ("propagationDir", VStr "down"); ("instStrehlWithTT", VBool false);
     ("loadModule", VNone)])))].
(** The documented defaults that are not what one gets. *)
Definition wrong_defaults : list (string * string) :=
  [("Sim", "simOversize"); ("WFS", "removeTT"); ("WFS", "lgs"); ("WFS", "centThreshold"); ("WFS", "nb_of_photon"); ("LGS", "fftwThreads");
   ("DM", "wfs"); ("DM", "gauss_width")].
(** The parameters documented as required that may be left out. *)
Definition not_required : list (string * string) :=
  [("DM", "nxActuators"); ("DM", "gain"); ("DM", "svdConditioning"); ("Science", "FOV")].

(** A beam of width [k] times the simulated aperture ([sim] pixels at [scale] pixels per metre), centred [c] metres off axis, falls within
    a screen of [scrn] pixels centred on the axis: both edges, in screen pixels, are between 0 and scrn. *)
Definition beam_inside (scrn sim : Z) (scale c k : Qc) : Prop :=
  let half := (k * (qz sim / scale) / qz 2)%Qc in
  ((0 <= (c - half) * scale + qz scrn / qz 2) /\ ((c + half) * scale + qz scrn / qz 2 <= qz scrn))%Qc.

(** The two coordinates of a target. *)
Definition coord (x : Qc) (p : Qc * Qc) : Prop := x = fst p \/ x = snd p.

(** A configuration in which no parameter is left for [calcParams] to fill in. *)
Definition wfs_full (w : wcfg) : Prop := (exists e, w_exposure w = Some e /\ e <> 0%Qc) /\ (w_nx w = 1 -> w_stop w = true).
Definition sci_full (s : scfg) : Prop := exists p, s_scale s = Some p /\ s_fov s = Some (p * s_pxls s)%Qc /\ s_pxls s <> 0%Qc.
Definition fully_given (c : cfg) : Prop :=
  c_L0 c <> None /\ Forall wfs_full (c_wfss c) /\ Forall (fun d => d <> None) (c_dms c) /\ Forall sci_full (c_scis c).
Definition set_loop (t : Qc) (c : cfg) : cfg := mkCfg t (c_diam c) (c_scrns c) (c_L0 c) (c_wfss c) (c_dms c) (c_scis c).
Definition set_diam (t : Qc) (c : cfg) : cfg := mkCfg (c_loop c) t (c_scrns c) (c_L0 c) (c_wfss c) (c_dms c) (c_scis c).
Definition set_scrns (n : nat) (c : cfg) : cfg := mkCfg (c_loop c) (c_diam c) n (c_L0 c) (c_wfss c) (c_dms c) (c_scis c).
Definition set_scis (l : list scfg) (c : cfg) : cfg := mkCfg (c_loop c) (c_diam c) (c_scrns c) (c_L0 c) (c_wfss c) (c_dms c) l.
Definition set_fov (f : Qc) (s : scfg) : scfg := mkS (s_scale s) (Some f) (s_pxls s).

(** What every method of the simulation's classes does to the attributes of its
    own object.  GENERATED by tools/extract_attrs.py from the text of /repo; the
    language is that of Model/Attrs.v.  Each definition cites the lines of the
    method it stands for; the script's header says what is kept and what is
    dropped. *)
From Coq Require Import List String Bool.
From Verif Require Import Model.Attrs.
Import ListNotations.
Open Scope string_scope.

(** ** DM: soapy/DM.py, lines 62-228 *)

(* soapy/DM.py:77-136 __init__ *)
Definition m_DM_init : stmt :=
  (Put "soapy_config") ;; (Put "n_dm") ;; (Put "simConfig") ;; (Put "config") ;;
  (Put "dmConfig") ;; (Put "pupil_size") ;; (Put "sim_size") ;; (Put "scrn_size") ;;
  (Put "altitude") ;; (Put "diameter") ;; (Put "telescope_diameter") ;; (Put "wfss") ;;
  (Or
     (Put "mask")
     ((Get "pupil_size") ;; (Get "sim_size") ;; (Put "mask"))) ;;
  (Put "nx_dm_elements") ;; (Put "dm_frame") ;; (Put "dm_screen") ;;
  (Put "screen_coord") ;; (Inv "getActiveActs") ;; (Put "n_acts") ;; (Put "actCoeffs") ;;
  (Or
     (Try false false
         ((Get "dmConfig") ;; (Put "wfss") ;; (Put "wfs"))
         ((Get "dmConfig") ;; Rse))
     (Put "wfss")) ;;
  (Inv "makeIMatShapes") ;;
  (IfHas "iMatShapes"
     ((Get "iMatShapes") ;; (Get "config") ;; (Put "iMatShapes"))
     Skip) ;;
  (Put "_valid_actuators").

(* soapy/DM.py:139-146 getActiveActs *)
Definition m_DM_getActiveActs : stmt :=
  (Get "dmConfig") ;; Ret.

(* soapy/DM.py:148-197 dmFrame *)
Definition m_DM_dmFrame : stmt :=
  (Inv "makeDMFrame") ;; (Put "dm_shape") ;; (Get "dmConfig") ;;
  (Or
     ((Get "dm_shape") ;; (Get "dmConfig") ;; (Put "dm_shape"))
     Skip) ;;
  (Get "scrn_size") ;;
  (Or
     ((Get "dm_shape") ;; (Put "dm_screen"))
     ((Get "scrn_size") ;; (Get "dm_shape") ;; (Get "dm_screen"))) ;;
  (Get "dm_screen") ;; Ret.

(* soapy/DM.py:199-202 makeDMFrame *)
Definition m_DM_makeDMFrame : stmt :=
  (Get "iMatShapes") ;; Ret.

(* soapy/DM.py:204-206 reset *)
Definition m_DM_reset : stmt :=
  (Get "dm_shape") ;; (Get "actCoeffs").

(* soapy/DM.py:210-215 makeIMatShapes *)
Definition m_DM_makeIMatShapes : stmt :=
  (Get "n_acts") ;; (Put "iMatShapes").

(* soapy/DM.py:218-219 property valid_actuators *)
Definition g_DM_valid_actuators : stmt :=
  (Get "_valid_actuators") ;; Ret.

(* soapy/DM.py:222-228 setter of valid_actuators *)
Definition s_DM_valid_actuators : stmt :=
  (Put "_valid_actuators") ;; (Put "n_valid_actuators") ;;
  (Loop
     (Get "iMatShapes")) ;;
  (Put "iMatShapes").

(* soapy/DM.py:62-228 *)
Definition cls_DM : cls :=
  {| c_name := "DM";
     c_meth := [ ("__init__", m_DM_init);
      ("getActiveActs", m_DM_getActiveActs);
      ("dmFrame", m_DM_dmFrame);
      ("makeDMFrame", m_DM_makeDMFrame);
      ("reset", m_DM_reset);
      ("makeIMatShapes", m_DM_makeIMatShapes) ];
     c_get := [ ("valid_actuators", g_DM_valid_actuators) ];
     c_set := [ ("valid_actuators", s_DM_valid_actuators) ];
     c_attrs := [] |}.

(** ** CustomShapes: soapy/DM.py, lines 231-276 *)

(* soapy/DM.py:237-276 makeIMatShapes *)
Definition m_CustomShapes_makeIMatShapes : stmt :=
  (Try true true
     (Get "config")
     ((Get "config") ;; Rse)) ;;
  (Get "n_acts") ;; (Get "nx_dm_elements") ;;
  (Or
     Skip
     (Get "nx_dm_elements")) ;;
  (Or
     (Get "nx_dm_elements")
     Skip) ;;
  (Get "simConfig") ;; (Put "iMatShapes").

(* soapy/DM.py:231-276 *)
Definition cls_CustomShapes : cls :=
  {| c_name := "CustomShapes";
     c_meth := [ ("makeIMatShapes", m_CustomShapes_makeIMatShapes) ];
     c_get := [];
     c_set := [];
     c_attrs := [] |}.

(** ** KarhunenLoeve: soapy/DM.py, lines 279-303 *)

(* soapy/DM.py:284-303 makeIMatShapes *)
Definition m_KarhunenLoeve_makeIMatShapes : stmt :=
  (Get "soapy_config") ;; (Get "n_acts") ;;
  (Or
     Skip
     ((Get "n_acts") ;;
       (Or
          Skip
          (Get "nacts")))) ;;
  (Get "nx_dm_elements") ;; (Get "simConfig") ;; (Put "iMatShapes").

(* soapy/DM.py:279-303 *)
Definition cls_KarhunenLoeve : cls :=
  {| c_name := "KarhunenLoeve";
     c_meth := [ ("makeIMatShapes", m_KarhunenLoeve_makeIMatShapes) ];
     c_get := [];
     c_set := [];
     c_attrs := [] |}.

(** ** Zernike: soapy/DM.py, lines 306-323 *)

(* soapy/DM.py:311-323 makeIMatShapes *)
Definition m_Zernike_makeIMatShapes : stmt :=
  (Get "n_acts") ;; (Get "nx_dm_elements") ;; (Get "simConfig") ;; (Put "iMatShapes").

(* soapy/DM.py:306-323 *)
Definition cls_Zernike : cls :=
  {| c_name := "Zernike";
     c_meth := [ ("makeIMatShapes", m_Zernike_makeIMatShapes) ];
     c_get := [];
     c_set := [];
     c_attrs := [] |}.

(** ** Piezo: soapy/DM.py, lines 326-406 *)

(* soapy/DM.py:341-355 getActiveActs *)
Definition m_Piezo_getActiveActs : stmt :=
  (Get "dmConfig") ;; (Get "nx_dm_elements") ;; (Put "spcing") ;;
  (Put "valid_act_coords") ;; (Put "xActs") ;; Ret.

(* soapy/DM.py:358-406 makeIMatShapes *)
Definition m_Piezo_makeIMatShapes : stmt :=
  (Get "nx_dm_elements") ;; (Get "spcing") ;; (Get "n_acts") ;;
  (Loop
     ((Get "valid_act_coords") ;; (Get "xActs") ;; (Get "dmConfig"))) ;;
  (Get "scrn_size") ;;
  (Or
     ((Get "dm_shape") ;; (Put "dm_screen"))
     (Get "scrn_size")) ;;
  (Put "iMatShapes").

(* soapy/DM.py:326-406 *)
Definition cls_Piezo : cls :=
  {| c_name := "Piezo";
     c_meth := [ ("getActiveActs", m_Piezo_getActiveActs);
      ("makeIMatShapes", m_Piezo_makeIMatShapes) ];
     c_get := [];
     c_set := [];
     c_attrs := [] |}.

(** ** GaussStack: soapy/DM.py, lines 411-444 *)

(* soapy/DM.py:420-444 makeIMatShapes *)
Definition m_GaussStack_makeIMatShapes : stmt :=
  (Get "n_acts") ;; (Get "nx_dm_elements") ;; (Get "pupil_size") ;; (Get "dmConfig") ;;
  (Loop
     ((Get "valid_act_coords") ;; (Get "nx_dm_elements"))) ;;
  (Put "iMatShapes") ;; (Get "simConfig").

(* soapy/DM.py:411-444 *)
Definition cls_GaussStack : cls :=
  {| c_name := "GaussStack";
     c_meth := [ ("makeIMatShapes", m_GaussStack_makeIMatShapes) ];
     c_get := [];
     c_set := [];
     c_attrs := [] |}.

(** ** TT: soapy/DM.py, lines 446-479 *)

(* soapy/DM.py:455-460 getActiveActs *)
Definition m_TT_getActiveActs : stmt :=
  (Put "n_active_actuators") ;; Ret.

(* soapy/DM.py:463-479 makeIMatShapes *)
Definition m_TT_makeIMatShapes : stmt :=
  (Get "nx_dm_elements") ;; (Put "iMatShapes") ;; (Get "soapy_config").

(* soapy/DM.py:446-479 *)
Definition cls_TT : cls :=
  {| c_name := "TT";
     c_meth := [ ("getActiveActs", m_TT_getActiveActs);
      ("makeIMatShapes", m_TT_makeIMatShapes) ];
     c_get := [];
     c_set := [];
     c_attrs := [] |}.

(** ** FastPiezo: soapy/DM.py, lines 482-525 *)

(* soapy/DM.py:487-495 getActiveActs *)
Definition m_FastPiezo_getActiveActs : stmt :=
  (Sup "FastPiezo" "getActiveActs") ;; (Get "dmConfig") ;; (Put "actGrid") ;;
  (Get "nx_dm_elements") ;; (Get "spcing") ;; (Put "dmSize") ;; Ret.

(* soapy/DM.py:497-498 makeIMatShapes *)
Definition m_FastPiezo_makeIMatShapes : stmt :=
  Skip.

(* soapy/DM.py:500-513 makeDMFrame *)
Definition m_FastPiezo_makeDMFrame : stmt :=
  (Get "actGrid") ;; (Get "config") ;; (Get "valid_act_coords") ;; (Get "dmSize") ;;
  (Get "dmConfig") ;; Ret.

(* soapy/DM.py:516-517 property valid_actuators *)
Definition g_FastPiezo_valid_actuators : stmt :=
  (Get "_valid_actuators") ;; Ret.

(* soapy/DM.py:520-525 setter of valid_actuators *)
Definition s_FastPiezo_valid_actuators : stmt :=
  (Put "_valid_actuators") ;; (Put "n_valid_actuators") ;;
  (Loop
     (Get "valid_act_coords")) ;;
  (Put "valid_act_coords").

(* soapy/DM.py:482-525 *)
Definition cls_FastPiezo : cls :=
  {| c_name := "FastPiezo";
     c_meth := [ ("getActiveActs", m_FastPiezo_getActiveActs);
      ("makeIMatShapes", m_FastPiezo_makeIMatShapes);
      ("makeDMFrame", m_FastPiezo_makeDMFrame) ];
     c_get := [ ("valid_actuators", g_FastPiezo_valid_actuators) ];
     c_set := [ ("valid_actuators", s_FastPiezo_valid_actuators) ];
     c_attrs := [] |}.

(** ** LGS: soapy/LGS.py, lines 35-119 *)

(* soapy/LGS.py:48-77 __init__ *)
Definition m_LGS_init : stmt :=
  (Put "wfsConfig") ;; (Put "config") ;; (Put "soapyConfig") ;; (Put "simConfig") ;;
  (Put "atmosConfig") ;; (Put "outPxlScale") ;; (Put "nOutPxls") ;; (Put "losNOutPxls") ;;
  (Put "losOutPxlScale") ;; (Put "losMask") ;; (Put "precorrection") ;;
  (Inv "calcInitParams") ;; (Inv "initLos") ;; (Inv "initFFTs").

(* soapy/LGS.py:79-80 calcInitParams *)
Definition m_LGS_calcInitParams : stmt :=
  Skip.

(* soapy/LGS.py:82-86 initFFTs *)
Definition m_LGS_initFFTs : stmt :=
  Skip.

(* soapy/LGS.py:88-113 initLos *)
Definition m_LGS_initLos : stmt :=
  (Get "config") ;; (Get "soapyConfig") ;; (Get "losNOutPxls") ;; (Get "losMask") ;;
  (Get "losOutPxlScale") ;; (Put "los") ;; (Get "atmosConfig") ;;
  (Loop
     ((Get "config") ;; (Get "los") ;; (Get "atmosConfig"))) ;;
  (Get "simConfig").

(* soapy/LGS.py:115-119 getLgsPsf *)
Definition m_LGS_getLgsPsf : stmt :=
  (Get "los") ;; (Get "precorrection") ;; (Put "EField") ;; (Put "phase").

(* soapy/LGS.py:35-119 *)
Definition cls_LGS : cls :=
  {| c_name := "LGS";
     c_meth := [ ("__init__", m_LGS_init);
      ("calcInitParams", m_LGS_calcInitParams);
      ("initFFTs", m_LGS_initFFTs);
      ("initLos", m_LGS_initLos);
      ("getLgsPsf", m_LGS_getLgsPsf) ];
     c_get := [];
     c_set := [];
     c_attrs := [] |}.

(** ** LGS_Geometric: soapy/LGS.py, lines 122-196 *)

(* soapy/LGS.py:135-170 calcInitParams *)
Definition m_LGS_Geometric_calcInitParams : stmt :=
  (Get "config") ;; (Get "simConfig") ;; (Put "lgsPupilPxls") ;; (Get "outPxlScale") ;;
  (Or
     ((Get "simConfig") ;; (Put "outPxlScale_m"))
     ((Get "outPxlScale") ;; (Get "config") ;; (Put "outPxlScale_m"))) ;;
  (Get "outPxlScale_m") ;; (Put "outPxlScale_rad") ;; (Get "nOutPxls") ;;
  (Or
     ((Get "simConfig") ;; (Put "nOutPxls"))
     Skip) ;;
  (Put "fov") ;; (Put "nFovPxls") ;; (Put "mask") ;;
  (Or
     ((Get "nFovPxls") ;; (Get "config") ;; (Get "mask") ;; (Put "mask"))
     Skip) ;;
  (Put "losNOutPxls") ;; (Put "losOutPxlScale").

(* soapy/LGS.py:173-181 initFFTs *)
Definition m_LGS_Geometric_initFFTs : stmt :=
  (Get "nOutPxls") ;; (Get "config") ;; (Put "FFT").

(* soapy/LGS.py:183-196 getLgsPsf *)
Definition m_LGS_Geometric_getLgsPsf : stmt :=
  (Sup "LGS_Geometric" "getLgsPsf") ;; (Get "EField") ;; (Get "nFovPxls") ;;
  (Get "mask") ;; (Get "FFT") ;; (Put "psf") ;; Ret.

(* soapy/LGS.py:122-196 *)
Definition cls_LGS_Geometric : cls :=
  {| c_name := "LGS_Geometric";
     c_meth := [ ("calcInitParams", m_LGS_Geometric_calcInitParams);
      ("initFFTs", m_LGS_Geometric_initFFTs);
      ("getLgsPsf", m_LGS_Geometric_getLgsPsf) ];
     c_get := [];
     c_set := [];
     c_attrs := [] |}.

(** ** LGS_Physical: soapy/LGS.py, lines 199-278 *)

(* soapy/LGS.py:212-265 calcInitParams *)
Definition m_LGS_Physical_calcInitParams : stmt :=
  (Get "config") ;; (Get "simConfig") ;; (Put "mask") ;; (Get "outPxlScale") ;;
  (Or
     ((Get "simConfig") ;; (Put "outPxlScale_m"))
     ((Get "outPxlScale") ;; (Get "config") ;; (Put "outPxlScale_m"))) ;;
  (Get "outPxlScale_m") ;; (Put "outPxlScale_rad") ;; (Get "nOutPxls") ;;
  (Or
     ((Get "simConfig") ;; (Put "nOutPxls"))
     Skip) ;;
  (Put "fov") ;; (Put "nFovPxls") ;; (Put "lgsPupilPxls") ;;
  (Or
     ((Get "config") ;; (Get "outPxlScale_m") ;; (Get "mask") ;; (Put "mask"))
     Skip) ;;
  (Put "losMask") ;; (Put "losOutPxlScale") ;; (Put "losNOutPxls").

(* soapy/LGS.py:267-278 getLgsPsf *)
Definition m_LGS_Physical_getLgsPsf : stmt :=
  (Sup "LGS_Physical" "getLgsPsf") ;; (Get "EField") ;; (Get "nOutPxls") ;; (Put "psf") ;;
  Ret.

(* soapy/LGS.py:199-278 *)
Definition cls_LGS_Physical : cls :=
  {| c_name := "LGS_Physical";
     c_meth := [ ("calcInitParams", m_LGS_Physical_calcInitParams);
      ("getLgsPsf", m_LGS_Physical_getLgsPsf) ];
     c_get := [];
     c_set := [];
     c_attrs := [] |}.

(** ** atmos: soapy/atmosphere.py, lines 74-405 *)

(* soapy/atmosphere.py:89-264 __init__ *)
Definition m_atmos_init : stmt :=
  (Put "simConfig") ;; (Put "config") ;; (Put "scrn_size") ;; (Put "windDirs") ;;
  (Put "windSpeeds") ;; (Put "pixel_scale") ;; (Put "wholeScrnSize") ;; (Put "scrnNo") ;;
  (Put "r0") ;; (Put "L0s") ;; (Put "looptime") ;; (Put "_R") ;;
  (Or
     ((Get "config") ;; (Put "_R"))
     Skip) ;;
  (Put "scrnStrengths") ;;
  (Or
     ((Get "config") ;; (Get "windSpeeds") ;; (Put "windSpeeds") ;; (Get "scrnNo") ;;
       (Get "r0"))
     Skip) ;;
  (Put "scrnPos") ;; (Put "wholeScrns") ;; (Put "scrns") ;; (Put "wholeScrnR0") ;;
  (Cond "config.infinite"
     ((Put "infinite_phase_screens") ;; (Get "config") ;;
       (Loop
          ((Get "scrn_size") ;; (Get "pixel_scale") ;; (Get "scrnStrengths") ;;
            (Get "L0s") ;; (Get "windSpeeds") ;; (Get "looptime") ;; (Get "windDirs") ;;
            (Get "_R") ;; (Get "infinite_phase_screens"))))
     ((Get "config") ;;
       (Or
          ((Get "scrnNo") ;;
            (Loop
               ((Get "config") ;; (Get "wholeScrns") ;; (Get "scrns") ;;
                 (Try false false
                    ((Get "pixel_scale") ;; (Get "wholeScrns") ;; (Get "wholeScrnR0"))
                    Skip))) ;;
            (Get "wholeScrnSize") ;; (Get "wholeScrns") ;; (Put "wholeScrnSize") ;;
            (Get "scrn_size") ;;
            (Or
               Rse
               Skip))
          ((Get "scrnNo") ;;
            (Loop
               ((Get "scrnStrengths") ;; (Get "wholeScrnSize") ;; (Get "config") ;;
                 (Get "wholeScrnR0") ;; (Get "pixel_scale") ;; (Get "_R") ;;
                 (Get "wholeScrns") ;; (Get "scrns"))))) ;;
       (Get "windDirs") ;; (Get "windSpeeds") ;; (Get "looptime") ;; (Get "pixel_scale") ;;
       (Put "windV") ;; (Get "scrnNo") ;;
       (Loop
          ((Get "scrnPos") ;;
            (Or
               ((Get "wholeScrns") ;; (Get "scrn_size") ;; (Get "scrnPos"))
               Skip) ;;
            (Or
               ((Get "wholeScrns") ;; (Get "scrn_size") ;; (Get "scrnPos"))
               Skip))) ;;
       (Put "interpScrns") ;; (Put "xCoords") ;; (Put "yCoords") ;;
       (Loop
          ((Get "wholeScrnSize") ;; (Get "wholeScrns") ;; (Get "interpScrns") ;;
            (Get "scrn_size") ;; (Get "scrnPos") ;; (Get "xCoords") ;; (Get "yCoords"))))).

(* soapy/atmosphere.py:267-285 saveScrns *)
Definition m_atmos_saveScrns : stmt :=
  (Get "scrnNo") ;;
  (Loop
     ((Get "wholeScrns") ;; (Get "wholeScrnR0") ;; (Get "pixel_scale"))).

(* soapy/atmosphere.py:288-380 moveScrns *)
Definition m_atmos_moveScrns : stmt :=
  (Get "config") ;;
  (Or
     ((Get "config") ;; (Get "_R") ;;
       (Or
          (Inv "randomScrns[subHarmonics=True]")
          (Inv "randomScrns[subHarmonics=False]")) ;;
       Ret)
     Skip) ;;
  (Cond "config.infinite"
     ((Get "scrnNo") ;;
       (Loop
          ((Get "infinite_phase_screens") ;; (Get "scrns"))) ;;
       (Get "scrns") ;; (Put "scrns") ;; (Get "scrns") ;; Ret)
     Skip) ;;
  (Get "wholeScrns") ;;
  (Loop
     ((Get "scrnPos") ;; (Get "scrn_size") ;; (Get "wholeScrnSize") ;;
       (Or
          ((Get "wholeScrns") ;; (Get "scrnPos") ;; (Get "scrn_size") ;;
            (Get "xCoords") ;; (Get "wholeScrnSize") ;; (Get "interpScrns"))
          Skip) ;;
       (Or
          ((Get "wholeScrns") ;; (Get "wholeScrnSize") ;; (Get "scrnPos") ;;
            (Get "scrn_size") ;; (Get "xCoords") ;; (Get "interpScrns"))
          Skip) ;;
       (Or
          ((Get "wholeScrns") ;; (Get "scrnPos") ;; (Get "scrn_size") ;;
            (Get "yCoords") ;; (Get "wholeScrnSize") ;; (Get "interpScrns"))
          Skip) ;;
       (Or
          ((Get "wholeScrns") ;; (Get "wholeScrnSize") ;; (Get "scrnPos") ;;
            (Get "scrn_size") ;; (Get "yCoords") ;; (Get "interpScrns"))
          Skip) ;;
       (Get "interpScrns") ;; (Get "xCoords") ;; (Get "yCoords") ;; (Get "scrns") ;;
       (Get "windV") ;; (Get "config") ;; (Get "scrnNo") ;; (Get "r0") ;;
       (Put "scrnStrengths") ;; (Get "scrns") ;; (Get "wholeScrnR0") ;; (Get "scrns"))) ;;
  (Get "scrns") ;; Ret.

(* soapy/atmosphere.py:382-405 randomScrns[subHarmonics=True] *)
Definition m_atmos_randomScrns_subHarmonics_1 : stmt :=
  (Get "scrnNo") ;;
  (Loop
     ((Get "scrnStrengths") ;; (Get "scrn_size") ;; (Get "pixel_scale") ;;
       (Get "config") ;; (Get "_R") ;; (Get "scrns") ;; (Get "scrns"))) ;;
  (Get "scrns") ;; Ret.

(* soapy/atmosphere.py:382-405 randomScrns[subHarmonics=False] *)
Definition m_atmos_randomScrns_subHarmonics_0 : stmt :=
  (Get "scrnNo") ;;
  (Loop
     ((Get "scrnStrengths") ;; (Get "scrn_size") ;; (Get "pixel_scale") ;;
       (Get "config") ;; (Get "_R") ;; (Get "scrns") ;; (Get "scrns"))) ;;
  (Get "scrns") ;; Ret.

(* soapy/atmosphere.py:382-405 randomScrns *)
Definition m_atmos_randomScrns : stmt :=
  Or
    (Inv "randomScrns[subHarmonics=True]")
    (Inv "randomScrns[subHarmonics=False]").

(* soapy/atmosphere.py:74-405 *)
Definition cls_atmos : cls :=
  {| c_name := "atmos";
     c_meth := [ ("__init__", m_atmos_init);
      ("saveScrns", m_atmos_saveScrns);
      ("moveScrns", m_atmos_moveScrns);
      ("randomScrns[subHarmonics=True]", m_atmos_randomScrns_subHarmonics_1);
      ("randomScrns[subHarmonics=False]", m_atmos_randomScrns_subHarmonics_0);
      ("randomScrns", m_atmos_randomScrns) ];
     c_get := [];
     c_set := [];
     c_attrs := [] |}.

(** ** LineOfSight: soapy/lineofsight.py, lines 46-392 *)

(* soapy/lineofsight.py:59-99 __init__ *)
Definition m_LineOfSight_init : stmt :=
  (Put "config") ;; (Put "soapy_config") ;; (Put "pupil_size") ;;
  (Put "phase_pixel_scale") ;; (Put "sim_size") ;; (Put "wavelength") ;;
  (Put "telescope_diameter") ;; (Put "propagation_direction") ;; (Get "height") ;;
  (Put "source_altitude") ;; (Put "nx_scrn_size") ;; (Put "n_layers") ;;
  (Put "layer_altitudes") ;; (Put "n_dm") ;;
  (Loop
     (Get "soapy_config")) ;;
  (Put "dm_altitudes") ;;
  (Try true false
     ((Get "config") ;; (Get "telescope_diameter") ;; (Put "launch_position"))
     (Put "launch_position")) ;;
  (Put "simConfig") ;; (Put "atmosConfig") ;; (Put "mask") ;; (Inv "calcInitParams") ;;
  (Inv "allocDataArrays") ;; (Put "metaPupilPos").

(* soapy/lineofsight.py:139-200 calcInitParams *)
Definition m_LineOfSight_calcInitParams : stmt :=
  (Get "wavelength") ;; (Put "phs2Rad") ;; (Get "phase_pixel_scale") ;;
  (Put "in_pixel_scale") ;;
  (Or
     ((Get "phase_pixel_scale") ;; (Put "out_pixel_scale"))
     (Put "out_pixel_scale")) ;;
  (Or
     ((Get "simConfig") ;; (Put "nx_out_pixels"))
     (Put "nx_out_pixels")) ;;
  (Get "mask") ;;
  (Or
     ((Get "mask") ;; (Get "nx_out_pixels") ;; (Put "outMask"))
     (Put "outMask")) ;;
  (Get "nx_out_pixels") ;; (Get "out_pixel_scale") ;; (Put "output_phase_diameter") ;;
  (Get "n_layers") ;; (Put "layer_metapupil_coords") ;;
  (Loop
     ((Get "layer_altitudes") ;; (Inv "calculate_altitude_coords") ;;
       (Get "nx_out_pixels") ;; (Get "layer_metapupil_coords"))) ;;
  (Get "nx_scrn_size") ;; (Get "n_dm") ;; (Put "dm_metapupil_coords") ;;
  (Loop
     ((Get "dm_altitudes") ;; (Inv "calculate_altitude_coords") ;;
       (Get "nx_out_pixels") ;; (Get "dm_metapupil_coords"))) ;;
  (Put "radii") ;; (Put "phase_screens") ;; (Put "correction_screens") ;;
  (Put "phase_correction") ;; (Inv "allocDataArrays").

(* soapy/lineofsight.py:203-235 calculate_altitude_coords *)
Definition m_LineOfSight_calculate_altitude_coords : stmt :=
  (Get "position") ;; (Get "propagation_direction") ;;
  (Or
     ((Get "source_altitude") ;;
       (Or
          (Get "launch_position")
          ((Get "launch_position") ;; (Get "source_altitude"))))
     Skip) ;;
  (Get "source_altitude") ;;
  (Or
     ((Get "output_phase_diameter") ;; (Get "source_altitude"))
     (Get "output_phase_diameter")) ;;
  (Get "in_pixel_scale") ;; (Get "nx_scrn_size") ;; Ret.

(* soapy/lineofsight.py:238-249 allocDataArrays *)
Definition m_LineOfSight_allocDataArrays : stmt :=
  (Get "nx_out_pixels") ;; (Put "phase") ;; (Put "EField") ;; (Put "residual").

(* soapy/lineofsight.py:253-260 zeroData *)
Definition m_LineOfSight_zeroData : stmt :=
  (Get "EField") ;; (Get "phase") ;; (Get "phase_screens") ;; (Get "correction_screens").

(* soapy/lineofsight.py:263-281 makePhase *)
Definition m_LineOfSight_makePhase : stmt :=
  (Get "scrns") ;;
  (Loop
     ((Get "scrns") ;; (Get "layer_metapupil_coords") ;; (Get "phase_screens"))) ;;
  (Get "config") ;;
  (Or
     ((Inv "makePhasePhys") ;; Ret)
     ((Inv "makePhaseGeometric") ;; Ret)).

(* soapy/lineofsight.py:284-306 makePhaseGeometric *)
Definition m_LineOfSight_makePhaseGeometric : stmt :=
  (Get "phase_screens") ;; (Put "atmos_phase") ;; (Get "phs2Rad") ;; (Get "phase") ;;
  (Get "EField") ;; (Get "EField") ;; Ret.

(* soapy/lineofsight.py:309-324 makePhasePhys *)
Definition m_LineOfSight_makePhasePhys : stmt :=
  (Get "phase_screens") ;; (Get "outMask") ;; (Get "layer_altitudes") ;;
  (Get "source_altitude") ;; (Get "wavelength") ;; (Get "out_pixel_scale") ;;
  (Get "propagation_direction") ;; (Get "EField") ;; (Get "EField") ;; (Get "EField") ;;
  Ret.

(* soapy/lineofsight.py:327-348 performCorrection *)
Definition m_LineOfSight_performCorrection : stmt :=
  (Loop
     ((Get "dm_metapupil_coords") ;; (Get "correction_screens"))) ;;
  (Get "correction_screens") ;; (Get "phase_correction") ;; (Get "phs2Rad") ;;
  (Put "phase_correction") ;; (Get "EField") ;; (Put "EField") ;; (Get "phase") ;;
  (Put "residual") ;; (Put "phase").

(* soapy/lineofsight.py:351-392 frame *)
Definition m_LineOfSight_frame : stmt :=
  (Inv "zeroData") ;; (Get "propagation_direction") ;;
  (Or
     (Inv "performCorrection")
     Skip) ;;
  (Or
     (Put "scrns")
     ((Get "n_layers") ;; (Get "nx_scrn_size") ;; (Put "scrns"))) ;;
  (Get "radii") ;; (Inv "makePhase") ;; (Get "phase") ;; (Put "residual") ;;
  (Or
     (Inv "performCorrection")
     Skip) ;;
  Ret.

(* soapy/lineofsight.py:104-108 property height *)
Definition g_LineOfSight_height : stmt :=
  Try true false
    ((Get "config") ;; Ret)
    ((Get "config") ;; Ret).

(* soapy/lineofsight.py:120-124 property position *)
Definition g_LineOfSight_position : stmt :=
  Try true false
    ((Get "config") ;; Ret)
    ((Get "config") ;; Ret).

(* soapy/lineofsight.py:111-117 setter of height *)
Definition s_LineOfSight_height : stmt :=
  Try true false
    (Get "config")
    (Get "config").

(* soapy/lineofsight.py:127-133 setter of position *)
Definition s_LineOfSight_position : stmt :=
  Try true false
    (Get "config")
    (Get "config").

(* soapy/lineofsight.py:46-392 *)
Definition cls_LineOfSight : cls :=
  {| c_name := "LineOfSight";
     c_meth := [ ("__init__", m_LineOfSight_init);
      ("calcInitParams", m_LineOfSight_calcInitParams);
      ("calculate_altitude_coords", m_LineOfSight_calculate_altitude_coords);
      ("allocDataArrays", m_LineOfSight_allocDataArrays);
      ("zeroData", m_LineOfSight_zeroData);
      ("makePhase", m_LineOfSight_makePhase);
      ("makePhaseGeometric", m_LineOfSight_makePhaseGeometric);
      ("makePhasePhys", m_LineOfSight_makePhasePhys);
      ("performCorrection", m_LineOfSight_performCorrection);
      ("frame", m_LineOfSight_frame) ];
     c_get := [ ("height", g_LineOfSight_height);
      ("position", g_LineOfSight_position) ];
     c_set := [ ("height", s_LineOfSight_height);
      ("position", s_LineOfSight_position) ];
     c_attrs := [] |}.

(** ** ElongLineOfSight: soapy/lineofsight.py, lines 490-526 *)

(* soapy/lineofsight.py:495-509 __init__ *)
Definition m_ElongLineOfSight_init : stmt :=
  (Put "elongHeights") ;; (Put "elongPos") ;; (Put "config") ;; (Put "los_list") ;;
  (Loop
     ((Get "elongPos") ;; (Get "elongHeights") ;; (Get "los_list"))).

(* soapy/lineofsight.py:511-512 __getitem__ *)
Definition m_ElongLineOfSight_getitem : stmt :=
  (Get "los_list") ;; Ret.

(* soapy/lineofsight.py:514-517 frame *)
Definition m_ElongLineOfSight_frame : stmt :=
  Get "los_list".

(* soapy/lineofsight.py:519-522 zeroData *)
Definition m_ElongLineOfSight_zeroData : stmt :=
  Get "los_list".

(* soapy/lineofsight.py:525-526 property scrns *)
Definition g_ElongLineOfSight_scrns : stmt :=
  (Get "los_list") ;; Ret.

(* soapy/lineofsight.py:490-526 *)
Definition cls_ElongLineOfSight : cls :=
  {| c_name := "ElongLineOfSight";
     c_meth := [ ("__init__", m_ElongLineOfSight_init);
      ("__getitem__", m_ElongLineOfSight_getitem);
      ("frame", m_ElongLineOfSight_frame);
      ("zeroData", m_ElongLineOfSight_zeroData) ];
     c_get := [ ("scrns", g_ElongLineOfSight_scrns) ];
     c_set := [];
     c_attrs := [] |}.

(** ** Reconstructor: soapy/reconstruction.py, lines 42-446 *)

(* soapy/reconstruction.py:46-102 __init__ *)
Definition m_Reconstructor_init : stmt :=
  (Put "soapy_config") ;; (Put "dms") ;; (Put "wfss") ;; (Put "sim_config") ;;
  (Put "atmos") ;; (Put "config") ;; (Put "n_dms") ;; (Put "scrn_size") ;;
  (Put "learnIters") ;; (Put "dmActs") ;; (Put "dmConds") ;; (Put "dmTypes") ;;
  (Loop
     ((Get "dmActs") ;; (Get "dms") ;; (Get "dmConds") ;; (Get "dmTypes"))) ;;
  (Put "first_acts") ;;
  (Loop
     (Get "first_acts")) ;;
  (Put "first_measurements") ;;
  (Loop
     (Get "first_measurements")) ;;
  (Put "runWfs") ;; (Put "moveScrns") ;; (Put "control_matrix") ;; (Put "controlShape") ;;
  (Put "Trecon") ;; (Inv "find_closed_actuators") ;; (Put "actuator_values").

(* soapy/reconstruction.py:104-110 find_closed_actuators *)
Definition m_Reconstructor_find_closed_actuators : stmt :=
  (Get "sim_config") ;; (Put "closed_actuators") ;; (Get "dms") ;;
  (Loop
     (Or
         (Get "closed_actuators")
         Skip)).

(* soapy/reconstruction.py:112-120 saveCMat *)
Definition m_Reconstructor_saveCMat : stmt :=
  (Get "sim_config") ;; (Get "control_matrix").

(* soapy/reconstruction.py:122-163 loadCMat *)
Definition m_Reconstructor_loadCMat : stmt :=
  (Get "sim_config") ;;
  (Try false false
     ((Get "dmConds") ;;
       (Or
          Skip
          Rse) ;;
       (Get "dmActs") ;;
       (Or
          (Get "dmTypes")
          Skip))
     Skip) ;;
  (Get "controlShape") ;;
  (Or
     Rse
     (Put "control_matrix")).

(* soapy/reconstruction.py:165-192 save_interaction_matrix *)
Definition m_Reconstructor_save_interaction_matrix : stmt :=
  (Get "sim_config") ;; (Get "interaction_matrix") ;; (Get "n_dms") ;;
  (Loop
     ((Get "sim_config") ;; (Get "dms") ;;
       (Try true false
          ((Get "sim_config") ;; (Get "dms") ;; (Get "simConfig"))
          Skip))).

(* soapy/reconstruction.py:194-246 load_interaction_matrix *)
Definition m_Reconstructor_load_interaction_matrix : stmt :=
  (Get "sim_config") ;;
  (Or
     Skip
     (Get "sim_config")) ;;
  (Or
     Rse
     Skip) ;;
  (Get "n_dms") ;;
  (Loop
     ((Get "sim_config") ;; (Get "dms") ;;
       (Try false false
          ((Get "sim_config") ;; (Get "dms"))
          Skip))) ;;
  (Or
     Rse
     Skip) ;;
  (Put "interaction_matrix").

(* soapy/reconstruction.py:248-265 makeIMat *)
Definition m_Reconstructor_makeIMat : stmt :=
  (Get "sim_config") ;; (Put "interaction_matrix") ;; (Get "dms") ;;
  (Loop
     (Inv "make_dm_iMat")) ;;
  (Loop
     (Get "interaction_matrix")).

(* soapy/reconstruction.py:268-345 make_dm_iMat *)
Definition m_Reconstructor_make_dm_iMat : stmt :=
  (Get "sim_config") ;; (Get "n_dms") ;; (Get "scrn_size") ;;
  (Loop
     ((Get "wfss") ;;
       (Loop
          (Get "config")))) ;;
  Ret.

(* soapy/reconstruction.py:348-365 get_dm_imat *)
Definition m_Reconstructor_get_dm_imat : stmt :=
  (Get "first_acts") ;; (Get "dms") ;; (Get "wfss") ;; (Get "interaction_matrix") ;; Ret.

(* soapy/reconstruction.py:368-407 makeCMat[loadCMat=True][loadIMat=True] *)
Definition m_Reconstructor_makeCMat_loadCMat_1__loadIMat_1 : stmt :=
  (Try true true
     (Inv "load_interaction_matrix")
     ((Inv "makeIMat") ;; (Get "sim_config") ;;
       (Or
          (Inv "save_interaction_matrix")
          Skip))) ;;
  (Try true true
     (Inv "loadCMat")
     ((Inv "calcCMat") ;; (Get "sim_config") ;;
       (Or
          (Inv "saveCMat")
          Skip))).

(* soapy/reconstruction.py:368-407 makeCMat[loadCMat=True][loadIMat=False] *)
Definition m_Reconstructor_makeCMat_loadCMat_1__loadIMat_0 : stmt :=
  (Inv "makeIMat") ;; (Get "sim_config") ;;
  (Or
     (Inv "save_interaction_matrix")
     Skip) ;;
  (Try true true
     (Inv "loadCMat")
     ((Inv "calcCMat") ;; (Get "sim_config") ;;
       (Or
          (Inv "saveCMat")
          Skip))).

(* soapy/reconstruction.py:368-407 makeCMat[loadCMat=False][loadIMat=True] *)
Definition m_Reconstructor_makeCMat_loadCMat_0__loadIMat_1 : stmt :=
  (Try true true
     (Inv "load_interaction_matrix")
     ((Inv "makeIMat") ;; (Get "sim_config") ;;
       (Or
          (Inv "save_interaction_matrix")
          Skip))) ;;
  (Inv "calcCMat") ;; (Get "sim_config") ;;
  (Or
     (Inv "saveCMat")
     Skip).

(* soapy/reconstruction.py:368-407 makeCMat[loadCMat=False][loadIMat=False] *)
Definition m_Reconstructor_makeCMat_loadCMat_0__loadIMat_0 : stmt :=
  (Inv "makeIMat") ;; (Get "sim_config") ;;
  (Or
     (Inv "save_interaction_matrix")
     Skip) ;;
  (Inv "calcCMat") ;;
  (Or
     (Inv "saveCMat")
     Skip).

(* soapy/reconstruction.py:368-407 makeCMat *)
Definition m_Reconstructor_makeCMat : stmt :=
  Or
    (Inv "makeCMat[loadCMat=True][loadIMat=True]")
    (Or
        (Inv "makeCMat[loadCMat=True][loadIMat=False]")
        (Or
            (Inv "makeCMat[loadCMat=False][loadIMat=True]")
            (Inv "makeCMat[loadCMat=False][loadIMat=False]"))).

(* soapy/reconstruction.py:409-428 apply_gain *)
Definition m_Reconstructor_apply_gain : stmt :=
  (Get "dms") ;;
  (Loop
     (Or
         ((Get "actuator_values") ;; (Get "new_actuator_values"))
         ((Get "new_actuator_values") ;; (Get "actuator_values")))).

(* soapy/reconstruction.py:431-442 reconstruct *)
Definition m_Reconstructor_reconstruct : stmt :=
  (Get "actuator_values") ;;
  (IfHas "actuator_values is not None"
     (Or
         ((Get "sim_config") ;; (Put "actuator_values") ;;
           (Put "actuator_values is not None"))
         Skip)
     ((Get "sim_config") ;; (Put "actuator_values") ;; (Put "actuator_values is not None"))) ;;
  (Get "control_matrix") ;; (Put "new_actuator_values") ;; (Inv "apply_gain") ;;
  (Get "Trecon") ;; (Put "Trecon") ;; Ret.

(* soapy/reconstruction.py:444-446 reset *)
Definition m_Reconstructor_reset : stmt :=
  (Get "actuator_values") ;;
  (IfHas "actuator_values is not None"
     (Or
         (Get "actuator_values")
         Skip)
     Skip).

(* soapy/reconstruction.py:42-446 *)
Definition cls_Reconstructor : cls :=
  {| c_name := "Reconstructor";
     c_meth := [ ("__init__", m_Reconstructor_init);
      ("find_closed_actuators", m_Reconstructor_find_closed_actuators);
      ("saveCMat", m_Reconstructor_saveCMat);
      ("loadCMat", m_Reconstructor_loadCMat);
      ("save_interaction_matrix", m_Reconstructor_save_interaction_matrix);
      ("load_interaction_matrix", m_Reconstructor_load_interaction_matrix);
      ("makeIMat", m_Reconstructor_makeIMat);
      ("make_dm_iMat", m_Reconstructor_make_dm_iMat);
      ("get_dm_imat", m_Reconstructor_get_dm_imat);
      ("makeCMat[loadCMat=True][loadIMat=True]", m_Reconstructor_makeCMat_loadCMat_1__loadIMat_1);
      ("makeCMat[loadCMat=True][loadIMat=False]", m_Reconstructor_makeCMat_loadCMat_1__loadIMat_0);
      ("makeCMat[loadCMat=False][loadIMat=True]", m_Reconstructor_makeCMat_loadCMat_0__loadIMat_1);
      ("makeCMat[loadCMat=False][loadIMat=False]", m_Reconstructor_makeCMat_loadCMat_0__loadIMat_0);
      ("makeCMat", m_Reconstructor_makeCMat);
      ("apply_gain", m_Reconstructor_apply_gain);
      ("reconstruct", m_Reconstructor_reconstruct);
      ("reset", m_Reconstructor_reset) ];
     c_get := [];
     c_set := [];
     c_attrs := [] |}.

(** ** MVM: soapy/reconstruction.py, lines 449-465 *)

(* soapy/reconstruction.py:455-465 calcCMat *)
Definition m_MVM_calcCMat : stmt :=
  (Get "config") ;; (Get "interaction_matrix") ;; (Put "control_matrix").

(* soapy/reconstruction.py:449-465 *)
Definition cls_MVM : cls :=
  {| c_name := "MVM";
     c_meth := [ ("calcCMat", m_MVM_calcCMat) ];
     c_get := [];
     c_set := [];
     c_attrs := [] |}.

(** ** MVM_SeparateDMs: soapy/reconstruction.py, lines 468-507 *)

(* soapy/reconstruction.py:476-507 calcCMat *)
Definition m_MVM_SeparateDMs_calcCMat : stmt :=
  (Get "dms") ;;
  (Loop
     ((Loop
          ((Get "wfss") ;; (Inv "get_dm_imat"))) ;;
       (Loop
          ((Get "wfss") ;; (Get "control_matrix"))))).

(* soapy/reconstruction.py:468-507 *)
Definition cls_MVM_SeparateDMs : cls :=
  {| c_name := "MVM_SeparateDMs";
     c_meth := [ ("calcCMat", m_MVM_SeparateDMs_calcCMat) ];
     c_get := [];
     c_set := [];
     c_attrs := [] |}.

(** ** LearnAndApply: soapy/reconstruction.py, lines 510-657 *)

(* soapy/reconstruction.py:519-523 makeIMat *)
Definition m_LearnAndApply_makeIMat : stmt :=
  (Sup "LearnAndApply" "makeIMat") ;; (Get "interaction_matrix") ;; (Get "wfss") ;;
  (Put "interaction_matrix").

(* soapy/reconstruction.py:525-537 saveCMat *)
Definition m_LearnAndApply_saveCMat : stmt :=
  (Get "sim_config") ;; (Get "control_matrix") ;; (Get "tomoRecon").

(* soapy/reconstruction.py:539-554 loadCMat *)
Definition m_LearnAndApply_loadCMat : stmt :=
  (Sup "LearnAndApply" "loadCMat") ;; (Get "sim_config") ;; (Get "wfss") ;;
  (Or
     Rse
     (Put "tomoRecon")).

(* soapy/reconstruction.py:557-560 initControlMatrix *)
Definition m_LearnAndApply_initControlMatrix : stmt :=
  (Get "wfss") ;; (Get "sim_config") ;; (Put "controlShape") ;; (Put "control_matrix").

(* soapy/reconstruction.py:563-592 learn *)
Definition m_LearnAndApply_learn : stmt :=
  (Get "learnIters") ;; (Get "sim_config") ;; (Put "learnSlopes") ;;
  (Loop
     ((Put "learnIter") ;; (Get "moveScrns") ;; (Get "wfss") ;;
       (Loop
          ((Get "wfss") ;; (Get "learnSlopes"))) ;;
       (Get "learnIters") ;;
       (Or
          (Get "learnIters")
          Skip))) ;;
  (Or
     ((Get "sim_config") ;; (Get "learnSlopes"))
     Skip).

(* soapy/reconstruction.py:595-627 calcCMat *)
Definition m_LearnAndApply_calcCMat : stmt :=
  (Inv "learn") ;; (Get "learnSlopes") ;; (Put "covMat") ;; (Get "wfss") ;;
  (Put "tomoRecon") ;; (Sup "LearnAndApply" "calcCMat").

(* soapy/reconstruction.py:630-657 reconstruct *)
Definition m_LearnAndApply_reconstruct : stmt :=
  (Get "tomoRecon") ;; (Get "wfss") ;; (Get "dms") ;;
  (Or
     ((Get "wfss") ;; (Get "control_matrix") ;; Ret)
     Skip) ;;
  (Sup "LearnAndApply" "reconstruct") ;; Ret.

(* soapy/reconstruction.py:510-657 *)
Definition cls_LearnAndApply : cls :=
  {| c_name := "LearnAndApply";
     c_meth := [ ("makeIMat", m_LearnAndApply_makeIMat);
      ("saveCMat", m_LearnAndApply_saveCMat);
      ("loadCMat", m_LearnAndApply_loadCMat);
      ("initControlMatrix", m_LearnAndApply_initControlMatrix);
      ("learn", m_LearnAndApply_learn);
      ("calcCMat", m_LearnAndApply_calcCMat);
      ("reconstruct", m_LearnAndApply_reconstruct) ];
     c_get := [];
     c_set := [];
     c_attrs := [] |}.

(** ** LearnAndApplyLTAO: soapy/reconstruction.py, lines 660-760 *)

(* soapy/reconstruction.py:670-673 initcontrol_matrix *)
Definition m_LearnAndApplyLTAO_initcontrol_matrix : stmt :=
  (Get "wfss") ;; (Get "sim_config") ;; (Put "controlShape") ;; (Put "control_matrix").

(* soapy/reconstruction.py:676-711 calcCMat *)
Definition m_LearnAndApplyLTAO_calcCMat : stmt :=
  (Inv "learn") ;; (Get "learnSlopes") ;; (Put "covMat") ;; (Get "wfss") ;;
  (Put "tomoRecon") ;; (Own "MVM_SeparateDMs" "calcCMat").

(* soapy/reconstruction.py:713-760 reconstruct *)
Definition m_LearnAndApplyLTAO_reconstruct : stmt :=
  (Get "tomoRecon") ;; (Get "wfss") ;; (Get "control_matrix") ;; Ret.

(* soapy/reconstruction.py:660-760 *)
Definition cls_LearnAndApplyLTAO : cls :=
  {| c_name := "LearnAndApplyLTAO";
     c_meth := [ ("initcontrol_matrix", m_LearnAndApplyLTAO_initcontrol_matrix);
      ("calcCMat", m_LearnAndApplyLTAO_calcCMat);
      ("reconstruct", m_LearnAndApplyLTAO_reconstruct) ];
     c_get := [];
     c_set := [];
     c_attrs := [] |}.

(** ** GLAO_4LGS: soapy/reconstruction.py, lines 767-828 *)

(* soapy/reconstruction.py:777-781 initControlMatrix *)
Definition m_GLAO_4LGS_initControlMatrix : stmt :=
  (Get "wfss") ;; (Get "sim_config") ;; (Put "controlShape") ;; (Put "controlMatrix").

(* soapy/reconstruction.py:784-802 reconstruct *)
Definition m_GLAO_4LGS_reconstruct : stmt :=
  (Get "wfss") ;; (Inv "removeCommonTT") ;; (Sup "LgsTT" "reconstruct") ;; Ret.

(* soapy/reconstruction.py:805-828 removeCommonTT *)
Definition m_GLAO_4LGS_removeCommonTT : stmt :=
  (Loop
     (Get "wfss")) ;;
  (Loop
     (Get "wfss")) ;;
  Ret.

(* soapy/reconstruction.py:767-828 *)
Definition cls_GLAO_4LGS : cls :=
  {| c_name := "GLAO_4LGS";
     c_meth := [ ("initControlMatrix", m_GLAO_4LGS_initControlMatrix);
      ("reconstruct", m_GLAO_4LGS_reconstruct);
      ("removeCommonTT", m_GLAO_4LGS_removeCommonTT) ];
     c_get := [];
     c_set := [];
     c_attrs := [] |}.

(** ** WooferTweeter: soapy/reconstruction.py, lines 830-884 *)

(* soapy/reconstruction.py:841-884 calcCMat *)
Definition m_WooferTweeter_calcCMat : stmt :=
  (Get "sim_config") ;;
  (Or
     Ret
     Skip) ;;
  (Loop
     ((Get "dms") ;;
       (Or
          Skip
          (Get "dms")))) ;;
  (Get "control_matrix") ;; (Get "dms") ;;
  (Loop
     ((Get "dms") ;; (Get "sim_config") ;; (Get "control_matrix"))).

(* soapy/reconstruction.py:830-884 *)
Definition cls_WooferTweeter : cls :=
  {| c_name := "WooferTweeter";
     c_meth := [ ("calcCMat", m_WooferTweeter_calcCMat) ];
     c_get := [];
     c_set := [];
     c_attrs := [] |}.

(** ** LgsTT: soapy/reconstruction.py, lines 887-983 *)

(* soapy/reconstruction.py:896-900 initControlMatrix *)
Definition m_LgsTT_initControlMatrix : stmt :=
  (Get "wfss") ;; (Get "sim_config") ;; (Put "controlShape") ;; (Put "controlMatrix").

(* soapy/reconstruction.py:903-932 calcCMat *)
Definition m_LgsTT_calcCMat : stmt :=
  (Inv "learn") ;; (Get "learnSlopes") ;; (Get "wfss") ;; (Inv "removeCommonTT") ;;
  (Put "covMat") ;; (Put "tomoRecon") ;; (Sup "LgsTT" "calcCMat").

(* soapy/reconstruction.py:935-957 reconstruct *)
Definition m_LgsTT_reconstruct : stmt :=
  (Get "wfss") ;; (Inv "removeCommonTT") ;; (Get "tomoRecon") ;;
  (Sup "LgsTT" "reconstruct") ;; Ret.

(* soapy/reconstruction.py:960-983 removeCommonTT *)
Definition m_LgsTT_removeCommonTT : stmt :=
  (Loop
     (Get "wfss")) ;;
  (Loop
     (Get "wfss")) ;;
  Ret.

(* soapy/reconstruction.py:887-983 *)
Definition cls_LgsTT : cls :=
  {| c_name := "LgsTT";
     c_meth := [ ("initControlMatrix", m_LgsTT_initControlMatrix);
      ("calcCMat", m_LgsTT_calcCMat);
      ("reconstruct", m_LgsTT_reconstruct);
      ("removeCommonTT", m_LgsTT_removeCommonTT) ];
     c_get := [];
     c_set := [];
     c_attrs := [] |}.

(** ** ANN: soapy/reconstruction.py, lines 985-1031 *)

(* soapy/reconstruction.py:995-1011 calcCMat *)
Definition m_ANN_calcCMat : stmt :=
  (Get "wfss") ;; (Get "sim_config") ;; (Put "controlShape") ;; (Put "controlMatrix") ;;
  (Loop
     ((Get "dms") ;;
       (Or
          Skip
          (Get "dmConds")) ;;
       (Get "controlMatrix"))).

(* soapy/reconstruction.py:1013-1031 reconstruct *)
Definition m_ANN_reconstruct : stmt :=
  (Get "wfss") ;; (Get "net") ;; (Get "controlMatrix") ;; (Get "Trecon") ;;
  (Put "Trecon") ;; Ret.

(* soapy/reconstruction.py:985-1031 *)
Definition cls_ANN : cls :=
  {| c_name := "ANN";
     c_meth := [ ("calcCMat", m_ANN_calcCMat);
      ("reconstruct", m_ANN_reconstruct) ];
     c_get := [];
     c_set := [];
     c_attrs := [] |}.

(** ** PSFCamera: soapy/scienceinstrument.py, lines 37-327 *)

(* soapy/scienceinstrument.py:46-174 __init__ *)
Definition m_PSFCamera_init : stmt :=
  (Put "soapy_config") ;; (Put "config") ;; (Put "sciConfig") ;; (Put "simConfig") ;;
  (Put "sim_size") ;; (Put "pupil_size") ;; (Put "sim_pad") ;; (Put "fov") ;;
  (Put "threads") ;; (Put "telescope_diameter") ;; (Put "nx_pixels") ;; (Put "fov_rad") ;;
  (Inv "setMask") ;; (Put "FOVPxlNo") ;; (Put "crop_fov_factor") ;;
  (Put "fov_crop_elements") ;; (Put "padFOVPxlNo") ;;
  (Or
     ((Get "padFOVPxlNo") ;; (Put "padFOVPxlNo"))
     Skip) ;;
  (Put "fov_sim_pad") ;;
  (Or
     (Get "mask")
     Skip) ;;
  (Put "los") ;;
  (Or
     ((Get "telescope_diameter") ;; (Get "FOVPxlNo") ;; (Get "los") ;; (Get "padFOVPxlNo"))
     Skip) ;;
  (Get "mask") ;; (Put "scaledMask") ;; (Put "FFTPadding") ;;
  (Or
     ((Get "FFTPadding") ;; (Get "FOVPxlNo") ;;
       (Loop
          ((Get "config") ;; (Get "nx_pixels") ;; (Put "FFTPadding") ;; (Get "FOVPxlNo"))) ;;
       (Get "config"))
     Skip) ;;
  (Put "fft_crop_elements") ;; (Put "fft_input_data") ;; (Put "fft_output_data") ;;
  (Put "fft_calculator") ;; (Put "phsNm2Rad") ;; (Put "interp_coords") ;;
  (Put "interp_phase") ;; (Put "focus_efield") ;;
  (Or
     ((Get "FFTPadding") ;; (Get "crop_fov_factor"))
     (Get "FFTPadding")) ;;
  (Put "focus_intensity") ;; (Put "detector") ;; (Put "long_exp_image") ;;
  (Put "_long_exp_image") ;; (Inv "calcFocalPlane") ;; (Put "bestPSF") ;; (Put "psfMax") ;;
  (Put "longExpStrehl") ;; (Put "instStrehl") ;; (Inv "reset").

(* soapy/scienceinstrument.py:177-185 reset *)
Definition m_PSFCamera_reset : stmt :=
  (Put "longExpStrehl") ;; (Put "instStrehl") ;; (Get "_long_exp_image") ;;
  (Get "long_exp_image") ;; (Get "detector") ;; (Get "focus_intensity") ;;
  (Get "focus_efield") ;; (Get "interp_phase").

(* soapy/scienceinstrument.py:188-201 setMask *)
Definition m_PSFCamera_setMask : stmt :=
  Or
    (Put "mask")
    ((Get "pupil_size") ;; (Get "sim_size") ;; (Put "mask")).

(* soapy/scienceinstrument.py:204-273 calcFocalPlane *)
Definition m_PSFCamera_calcFocalPlane : stmt :=
  (Get "config") ;;
  (Or
     ((Get "los") ;; (Get "fov_sim_pad") ;; (Put "EField_fov"))
     ((Get "los") ;; (Get "mask") ;; (Put "residual") ;; (Get "interp_coords") ;;
       (Get "interp_phase") ;; (Put "EField_fov"))) ;;
  (Or
     ((Get "EField_fov") ;; (Get "scaledMask") ;; (Put "EField_fov"))
     Skip) ;;
  (Get "fft_input_data") ;; (Get "EField_fov") ;; (Get "FFTPadding") ;; (Get "FOVPxlNo") ;;
  (Get "fft_calculator") ;; (Get "fft_output_data") ;; (Get "fft_crop_elements") ;;
  (Or
     ((Get "fft_output_data") ;; (Get "fft_crop_elements") ;; (Put "fov_focus_efield"))
     ((Get "fft_output_data") ;; (Put "fov_focus_efield"))) ;;
  (Get "fov_focus_efield") ;; (Get "focus_intensity") ;; (Get "detector") ;;
  (Get "_long_exp_image") ;; (Put "_long_exp_image") ;; (Put "detector") ;;
  (Put "long_exp_image").

(* soapy/scienceinstrument.py:276-285 calcInstStrehl *)
Definition m_PSFCamera_calcInstStrehl : stmt :=
  (Get "sciConfig") ;;
  (Or
     ((Get "detector") ;; (Get "sciConfig") ;; (Get "psfMax") ;; (Put "instStrehl") ;;
       (Get "long_exp_image") ;; (Put "longExpStrehl"))
     ((Get "detector") ;; (Get "psfMax") ;; (Put "instStrehl") ;;
       (Get "long_exp_image") ;; (Put "longExpStrehl"))).

(* soapy/scienceinstrument.py:288-308 calc_wavefronterror *)
Definition m_PSFCamera_calc_wavefronterror : stmt :=
  (Get "config") ;;
  (Or
     Ret
     Skip) ;;
  (Get "los") ;; (Get "mask") ;; Ret.

(* soapy/scienceinstrument.py:311-327 frame *)
Definition m_PSFCamera_frame : stmt :=
  (Get "los") ;; (Inv "calcFocalPlane") ;; (Inv "calcInstStrehl") ;; (Get "detector") ;;
  Ret.

(* soapy/scienceinstrument.py:37-327 *)
Definition cls_PSFCamera : cls :=
  {| c_name := "PSFCamera";
     c_meth := [ ("__init__", m_PSFCamera_init);
      ("reset", m_PSFCamera_reset);
      ("setMask", m_PSFCamera_setMask);
      ("calcFocalPlane", m_PSFCamera_calcFocalPlane);
      ("calcInstStrehl", m_PSFCamera_calcInstStrehl);
      ("calc_wavefronterror", m_PSFCamera_calc_wavefronterror);
      ("frame", m_PSFCamera_frame) ];
     c_get := [];
     c_set := [];
     c_attrs := [] |}.

(** ** singleModeFibre: soapy/scienceinstrument.py, lines 330-353 *)

(* soapy/scienceinstrument.py:332-339 __init__ *)
Definition m_singleModeFibre_init : stmt :=
  (Own "PSFCamera" "__init__") ;; (Get "mask") ;; (Put "normMask") ;;
  (Get "refCouplingLoss") ;;
  (Loop
     (Inv "refCouplingLoss")) ;;
  (Get "sim_size") ;; (Put "fibreSize") ;; (Inv "refCouplingLoss") ;; (Put "refStrehl") ;;
  (Inv "fibreEfield") ;; (Put "fibre_efield").

(* soapy/scienceinstrument.py:342-345 fibreEfield *)
Definition m_singleModeFibre_fibreEfield : stmt :=
  (Get "sim_size") ;; Ret.

(* soapy/scienceinstrument.py:348-349 refCouplingLoss *)
Definition m_singleModeFibre_refCouplingLoss : stmt :=
  (Inv "fibreEfield") ;; (Get "normMask") ;; Ret.

(* soapy/scienceinstrument.py:352-353 calcInstStrehl *)
Definition m_singleModeFibre_calcInstStrehl : stmt :=
  (Get "fibre_efield") ;; (Get "los") ;; (Get "normMask") ;; (Put "instStrehl").

(* soapy/scienceinstrument.py:330-353 *)
Definition cls_singleModeFibre : cls :=
  {| c_name := "singleModeFibre";
     c_meth := [ ("__init__", m_singleModeFibre_init);
      ("fibreEfield", m_singleModeFibre_fibreEfield);
      ("refCouplingLoss", m_singleModeFibre_refCouplingLoss);
      ("calcInstStrehl", m_singleModeFibre_calcInstStrehl) ];
     c_get := [];
     c_set := [];
     c_attrs := [] |}.

(** ** Sim: soapy/simulation.py, lines 100-1159 *)

(* soapy/simulation.py:116-125 __init__ *)
Definition m_Sim_init : stmt :=
  (Inv "readParams[configFile=True]") ;; (Put "guiQueue") ;; (Put "go") ;;
  (Put "_sim_running").

(* soapy/simulation.py:128-141 readParams[configFile=True] *)
Definition m_Sim_readParams_configFile_1 : stmt :=
  (Put "configFile") ;; (Put "config").

(* soapy/simulation.py:128-141 readParams[configFile=False] *)
Definition m_Sim_readParams_configFile_0 : stmt :=
  (Get "configFile") ;; (Put "config").

(* soapy/simulation.py:128-141 readParams *)
Definition m_Sim_readParams : stmt :=
  Or
    (Inv "readParams[configFile=True]")
    (Inv "readParams[configFile=False]").

(* soapy/simulation.py:144-155 setLoggingLevel *)
Definition m_Sim_setLoggingLevel : stmt :=
  Skip.

(* soapy/simulation.py:158-314 aoinit *)
Definition m_Sim_aoinit : stmt :=
  (Try true true
     (Get "config")
     (Inv "readParams[configFile=False]")) ;;
  (Get "config") ;; (Inv "getTimeStamp") ;; (Put "mask") ;; (Put "atmos") ;;
  (Or
     ((Get "config") ;;
       (Loop
          (Get "config")) ;;
       (Get "runWfs_MP") ;; (Put "runWfs"))
     ((Get "runWfs_noMP") ;; (Put "runWfs"))) ;;
  (Put "wfss") ;; (Put "wfsFrameNo") ;;
  (Loop
     ((Try true false
          ((Get "config") ;;
            (Or
               (Get "config")
               Skip))
          ((Get "config") ;; Rse)) ;;
       (Get "config") ;; (Get "mask") ;; (Get "wfss"))) ;;
  (Put "dms") ;; (Put "dmActCommands") ;; (Put "dmShape") ;; (Put "dmAct1") ;;
  (Loop
     ((Get "dmAct1") ;; (Get "config") ;;
       (Try true false
          ((Get "config") ;;
            (Or
               (Get "config")
               Skip))
          ((Get "config") ;; Rse)) ;;
       (Get "wfss") ;; (Get "mask") ;; (Get "dms") ;; (Get "dmActCommands"))) ;;
  (Try true false
     ((Get "config") ;;
       (Or
          (Get "config")
          Skip))
     ((Get "config") ;; Rse)) ;;
  (Get "runWfs") ;; (Put "recon") ;; (Put "sciCams") ;; (Put "sciImgs") ;;
  (Put "sciImgNo") ;;
  (Cond "config.sim.nSci > 0"
     (Loop
         ((Try true false
              ((Get "config") ;;
                (Or
                   (Get "config")
                   Skip))
              ((Get "config") ;; Rse)) ;;
           (Get "config") ;; (Get "mask") ;; (Get "sciCams") ;; (Get "sciImgs")))
     Skip) ;;
  (Inv "initSaveData") ;; (Put "slopes") ;; (Put "closed_correction") ;;
  (Put "open_correction") ;; (Put "dmCommands") ;; (Put "buffer") ;; (Put "iters") ;;
  (Put "Twfs") ;; (Put "Tlgs") ;; (Put "Tdm") ;; (Put "Tsci") ;; (Put "Trecon") ;;
  (Put "Timat") ;; (Put "Tatmos").

(* soapy/simulation.py:317-360 makeIMat[forceNew=True] *)
Definition m_Sim_makeIMat_forceNew_1 : stmt :=
  (Get "recon") ;; (Get "addToGuiQueue") ;;
  (Loop
     (Inv "addToGuiQueue")) ;;
  (Put "dmAct1") ;; (Get "config") ;; (Get "dms") ;;
  (Loop
     ((Get "dmAct1") ;; (Get "config"))) ;;
  (Put "dmCommands") ;; (Get "Timat") ;; (Put "Timat").

(* soapy/simulation.py:317-360 makeIMat[forceNew=False] *)
Definition m_Sim_makeIMat_forceNew_0 : stmt :=
  (Get "config") ;; (Get "recon") ;; (Get "addToGuiQueue") ;;
  (Loop
     (Inv "addToGuiQueue")) ;;
  (Put "dmAct1") ;; (Get "dms") ;;
  (Loop
     ((Get "dmAct1") ;; (Get "config"))) ;;
  (Put "dmCommands") ;; (Get "Timat") ;; (Put "Timat").

(* soapy/simulation.py:317-360 makeIMat *)
Definition m_Sim_makeIMat : stmt :=
  Or
    (Inv "makeIMat[forceNew=True]")
    (Inv "makeIMat[forceNew=False]").

(* soapy/simulation.py:363-407 runWfs_noMP *)
Definition m_Sim_runWfs_noMP : stmt :=
  (Or
     (Put "scrns")
     Skip) ;;
  (Or
     (Get "config")
     Skip) ;;
  (Loop
     (Get "wfss")) ;;
  (Loop
     ((Get "config") ;; (Get "wfsFrameNo") ;;
       (Or
          (Get "wfsFrameNo")
          Skip) ;;
       (Get "wfss") ;; (Get "scrns"))) ;;
  (Get "Twfs") ;; (Put "Twfs") ;; Ret.

(* soapy/simulation.py:410-480 runWfs_MP *)
Definition m_Sim_runWfs_MP : stmt :=
  (Or
     (Put "scrns")
     Skip) ;;
  (Or
     (Get "config")
     Skip) ;;
  (Loop
     (Get "wfss")) ;;
  (Loop
     ((Or
          ((Get "config") ;; (Get "wfsFrameNo") ;;
            (Or
               (Get "wfsFrameNo")
               Skip))
          Skip) ;;
       (Get "scrns") ;; (Get "wfss"))) ;;
  (Loop
     ((Get "wfss") ;;
       (Or
          (Get "wfss")
          Skip))) ;;
  (Get "Twfs") ;; (Put "Twfs") ;; Ret.

(* soapy/simulation.py:483-509 runDM[closed=True] *)
Definition m_Sim_runDM_closed_1 : stmt :=
  (Put "dmShapes") ;; (Get "closed_correction") ;; (Get "config") ;;
  (Loop
     ((Get "config") ;;
       (Or
          ((Get "dms") ;; (Get "dmAct1"))
          Skip))) ;;
  (Get "Tdm") ;; (Put "Tdm") ;; Ret.

(* soapy/simulation.py:483-509 runDM[closed=False] *)
Definition m_Sim_runDM_closed_0 : stmt :=
  (Put "dmShapes") ;; (Get "open_correction") ;; (Get "config") ;;
  (Loop
     ((Get "config") ;;
       (Or
          ((Get "dms") ;; (Get "dmAct1"))
          Skip))) ;;
  (Get "Tdm") ;; (Put "Tdm") ;; Ret.

(* soapy/simulation.py:483-509 runDM *)
Definition m_Sim_runDM : stmt :=
  Or
    (Inv "runDM[closed=True]")
    (Inv "runDM[closed=False]").

(* soapy/simulation.py:512-528 runSciCams *)
Definition m_Sim_runSciCams : stmt :=
  (Get "sciImgNo") ;; (Put "sciImgNo") ;; (Get "config") ;;
  (Cond "config.sim.nSci > 0"
     (Loop
         ((Get "sciCams") ;; (Get "scrns") ;; (Get "sciImgs")))
     Skip) ;;
  (Get "Tsci") ;; (Put "Tsci").

(* soapy/simulation.py:531-579 loopFrame *)
Definition m_Sim_loopFrame : stmt :=
  (Get "atmos") ;; (Put "scrns") ;; (Get "Tatmos") ;; (Put "Tatmos") ;; (Get "config") ;;
  (Or
     ((Get "recon") ;; (Get "slopes") ;; (Get "dmCommands"))
     Skip) ;;
  (Get "Trecon") ;; (Put "Trecon") ;; (Get "buffer") ;; (Get "dmCommands") ;;
  (Put "dmCommands") ;; (Inv "runDM[closed=True]") ;; (Put "closed_correction") ;;
  (Get "runWfs") ;; (Get "iters") ;;
  (Or
     (Inv "runWfs_noMP")
     (Inv "runWfs_MP")) ;;
  (Put "slopes") ;; (Inv "runDM[closed=False]") ;; (Put "open_correction") ;;
  (Put "combinedCorrection") ;; (Inv "runSciCams") ;; (Inv "storeData") ;;
  (Inv "printOutput[strehl=True]") ;; (Inv "addToGuiQueue") ;; (Put "iters").

(* soapy/simulation.py:582-603 aoloop *)
Definition m_Sim_aoloop : stmt :=
  (Put "go") ;; (Put "go is true") ;;
  (Try false false
     ((Get "iters") ;; (Get "config") ;;
       (Loop
          ((Get "go") ;;
            (IfHas "go is true"
               (Or
                   (Inv "loopFrame")
                   Brk)
               Brk) ;;
            (Get "iters") ;; (Get "config"))))
     (Put "go")) ;;
  (Inv "saveData") ;; (Inv "finishUp").

(* soapy/simulation.py:606-619 start_aoloop_thread *)
Definition m_Sim_start_aoloop_thread : stmt :=
  (Get "_sim_running") ;;
  (Or
     ((Get "_aoloop_thread") ;;
       (Loop
          (Inv "_aoloop_thread")) ;;
       (Put "_loop_thread") ;; (Put "_sim_running") ;; (Put "_sim_running is true"))
     Skip).

(* soapy/simulation.py:622-639 stop_aoloop_thread *)
Definition m_Sim_stop_aoloop_thread : stmt :=
  (Get "_sim_running") ;;
  (IfHas "_sim_running is true"
     (Or
         ((Put "_sim_running") ;; (Get "_loop_thread") ;; (Inv "saveData") ;;
           (Inv "finishUp"))
         Skip)
     Skip).

(* soapy/simulation.py:642-647 _aoloop_thread *)
Definition m_Sim_aoloop_thread : stmt :=
  (Get "_sim_running") ;;
  (Loop
     ((Inv "loopFrame") ;; (Get "_sim_running"))).

(* soapy/simulation.py:650-674 reset_loop *)
Definition m_Sim_reset_loop : stmt :=
  (Put "iters") ;; (Get "slopes") ;; (Get "dmCommands") ;; (Get "config") ;;
  (Or
     (Get "allSlopes")
     Skip) ;;
  (Or
     (Get "allDmCommands")
     Skip) ;;
  (Get "recon") ;;
  (Cond "config.sim.nSci > 0"
     ((Get "longStrehl") ;; (Get "ee50d") ;; (Get "sciImgs") ;; (Get "sciCams"))
     Skip) ;;
  (Get "dms").

(* soapy/simulation.py:677-698 finishUp *)
Definition m_Sim_finishUp : stmt :=
  (Get "iters") ;; (Get "config") ;;
  (IfHas "longStrehl"
     ((Get "longStrehl") ;;
       (Or
          ((Get "config") ;;
            (Cond "config.sim.nSci > 0"
               (Loop
                   ((Get "longStrehl") ;;
                     (IfHas "ee50d"
                        ((Get "ee50d") ;;
                          (Or
                             (Get "ee50d")
                             Skip))
                        Skip)))
               Skip))
          Skip))
     Skip) ;;
  (Get "Tatmos") ;; (Get "Timat") ;; (Get "Twfs") ;; (Get "Tlgs") ;; (Get "recon") ;;
  (Get "Tdm") ;; (Get "Tsci").

(* soapy/simulation.py:701-801 initSaveData *)
Definition m_Sim_initSaveData : stmt :=
  (Inv "makeSaveHeader") ;; (Get "config") ;;
  (Cond "config.sim.simName != None"
     ((Get "config") ;; (Get "timeStamp") ;; (Put "path") ;;
       (Try false false
          (Get "path")
          ((Get "config") ;; (Get "path"))) ;;
       (Or
          (Get "path")
          Skip) ;;
       (Get "configFile"))
     Skip) ;;
  (Cond "config.sim.nSci > 0"
     ((Get "config") ;; (Put "instStrehl") ;; (Put "longStrehl") ;; (Put "ee50d") ;;
       (Put "WFE"))
     Skip) ;;
  (Put "sciPhase") ;;
  (Or
     ((Get "config") ;;
       (Cond "config.sim.nSci > 0"
          ((Get "config") ;;
            (Cond "config.sim.nSci > 0"
               (Loop
                   ((Get "sciPhase") ;; (Get "config")))
               Skip))
          Skip))
     Skip) ;;
  (Or
     ((Get "config") ;; (Put "allSlopes"))
     (Put "allSlopes")) ;;
  (Or
     ((Get "config") ;; (Put "allDmCommands"))
     (Put "allDmCommands")) ;;
  (Or
     ((Put "lgsPsfs") ;; (Get "config") ;;
       (Loop
          ((Get "config") ;;
            (Or
               (Get "config")
               Skip) ;;
            (Or
               ((Get "lgsPsfs") ;; (Get "config") ;; (Get "wfss"))
               Skip))))
     (Put "lgsPsfs")) ;;
  (Cond "config.sim.nSci > 0"
     ((Get "config") ;;
       (Cond "config.sim.saveInstPsf"
          ((Put "sciImgsInst") ;; (Get "config") ;;
            (Cond "config.sim.nSci > 0"
               (Loop
                   ((Get "config") ;; (Get "sciImgsInst")))
               Skip))
          Skip))
     Skip) ;;
  (Cond "config.sim.nSci > 0"
     ((Get "config") ;;
       (Cond "config.sim.saveInstScieField"
          ((Put "scieFieldInst") ;; (Get "config") ;;
            (Cond "config.sim.nSci > 0"
               (Loop
                   ((Get "config") ;; (Get "scieFieldInst")))
               Skip))
          Skip))
     Skip).

(* soapy/simulation.py:804-861 storeData *)
Definition m_Sim_storeData : stmt :=
  (Get "config") ;;
  (Or
     ((Get "slopes") ;; (Get "allSlopes"))
     Skip) ;;
  (Or
     ((Get "dmCommands") ;; (Get "allDmCommands"))
     Skip) ;;
  (Or
     ((Get "config") ;;
       (Loop
          ((Get "config") ;;
            (Or
               (Get "config")
               Skip) ;;
            (Or
               ((Get "wfss") ;; (Get "lgsPsfs"))
               Skip))))
     Skip) ;;
  (Cond "config.sim.nSci > 0"
     ((Get "config") ;;
       (Cond "config.sim.nSci > 0"
          (Loop
              ((Get "sciCams") ;; (Get "instStrehl") ;; (Get "longStrehl") ;; (Get "WFE")))
          Skip) ;;
       (Or
          ((Get "config") ;;
            (Cond "config.sim.nSci > 0"
               (Loop
                   ((Get "sciCams") ;; (Get "sciPhase")))
               Skip))
          Skip))
     Skip) ;;
  (Cond "config.sim.simName != None"
     ((Get "config") ;;
       (Or
          ((Get "config") ;;
            (Loop
               ((Get "path") ;; (Get "wfss") ;; (Get "config"))))
          Skip))
     Skip) ;;
  (Cond "config.sim.nSci > 0"
     ((Get "config") ;;
       (Cond "config.sim.saveInstPsf"
          ((Get "config") ;;
            (Cond "config.sim.nSci > 0"
               (Loop
                   ((Get "sciCams") ;; (Get "sciImgsInst")))
               Skip))
          Skip))
     Skip) ;;
  (Cond "config.sim.nSci > 0"
     ((Get "config") ;;
       (Cond "config.sim.saveInstScieField"
          ((Get "config") ;;
            (Cond "config.sim.nSci > 0"
               (Loop
                   ((Get "sciCams") ;; (Get "scieFieldInst") ;; (Get "iters")))
               Skip))
          Skip))
     Skip).

(* soapy/simulation.py:864-973 saveData *)
Definition m_Sim_saveData : stmt :=
  (Get "config") ;;
  (Cond "config.sim.nSci > 0"
     (Loop
         ((Get "sciCams") ;; (Get "sciImgs") ;; (Get "ee50d")))
     Skip) ;;
  (Cond "config.sim.simName != None"
     ((Get "config") ;;
       (Or
          ((Get "path") ;; (Get "allSlopes") ;; (Get "config"))
          Skip) ;;
       (Or
          ((Get "path") ;; (Get "allDmCommands") ;; (Get "config"))
          Skip) ;;
       (Or
          ((Get "path") ;; (Get "lgsPsfs") ;; (Get "config"))
          Skip) ;;
       (Cond "config.sim.saveWfe"
          ((Get "path") ;; (Get "WFE") ;; (Get "config"))
          Skip) ;;
       (Cond "config.sim.saveStrehl"
          ((Get "path") ;; (Get "instStrehl") ;; (Get "config") ;; (Get "longStrehl"))
          Skip) ;;
       (Or
          ((Get "config") ;;
            (Cond "config.sim.nSci > 0"
               (Loop
                   ((Get "path") ;; (Get "sciPhase") ;; (Get "config")))
               Skip))
          Skip) ;;
       (Or
          ((Get "config") ;;
            (Cond "config.sim.nSci > 0"
               (Loop
                   ((Get "path") ;; (Get "sciImgs") ;; (Get "config")))
               Skip))
          Skip) ;;
       (Cond "config.sim.saveInstPsf"
          ((Get "config") ;;
            (Cond "config.sim.nSci > 0"
               (Loop
                   ((Get "path") ;; (Get "sciImgsInst") ;; (Get "config")))
               Skip))
          Skip) ;;
       (Cond "config.sim.saveInstScieField"
          ((Get "config") ;;
            (Cond "config.sim.nSci > 0"
               (Loop
                   ((Get "path") ;; (Get "scieFieldInst") ;; (Get "config")))
               Skip))
          Skip) ;;
       (Cond "config.sim.saveInstScieField"
          ((Get "config") ;;
            (Cond "config.sim.nSci > 0"
               (Loop
                   ((Get "path") ;; (Get "scieFieldInst") ;; (Get "config")))
               Skip))
          Skip) ;;
       (Or
          ((Get "config") ;; (Get "path"))
          Skip) ;;
       (Or
          ((Get "config") ;;
            (Loop
               ((Get "path") ;; (Get "iters") ;;
                 (Loop
                    (Get "path")) ;;
                 (Get "config"))))
          Skip))
     Skip).

(* soapy/simulation.py:975-1045 makeSaveHeader *)
Definition m_Sim_makeSaveHeader : stmt :=
  (Inv "getTimeStamp") ;; (Put "timeStamp") ;; (Get "config") ;; (Get "time") ;;
  (Loop
     (Get "dms")) ;;
  (Loop
     (Get "config")) ;;
  Ret.

(* soapy/simulation.py:1048-1057 getTimeStamp *)
Definition m_Sim_getTimeStamp : stmt :=
  (Put "time") ;; Ret.

(* soapy/simulation.py:1060-1082 printOutput[strehl=True] *)
Definition m_Sim_printOutput_strehl_1 : stmt :=
  (Get "config") ;;
  (Cond "config.sim.nSci > 0"
     (Loop
         (Get "sciCams"))
     Skip).

(* soapy/simulation.py:1060-1082 printOutput[strehl=False] *)
Definition m_Sim_printOutput_strehl_0 : stmt :=
  Get "config".

(* soapy/simulation.py:1060-1082 printOutput *)
Definition m_Sim_printOutput : stmt :=
  Or
    (Inv "printOutput[strehl=True]")
    (Inv "printOutput[strehl=False]").

(* soapy/simulation.py:1085-1159 addToGuiQueue *)
Definition m_Sim_addToGuiQueue : stmt :=
  (Get "guiQueue") ;;
  (IfHas "guiQueue is not None"
     (Or
         ((Get "waitingPlot") ;;
           (IfHas "waitingPlot is true"
              (Or
                  ((Get "config") ;;
                    (Loop
                       ((Get "wfss") ;;
                         (Try true false
                            (Get "wfss")
                            Skip) ;;
                         (Try true false
                            (Get "wfss")
                            Skip))) ;;
                    (Loop
                       (Try true false
                           (Get "dms")
                           Skip)) ;;
                    (Cond "config.sim.nSci > 0"
                       (Loop
                           ((Try true false
                                (Get "sciImgs")
                                Skip) ;;
                             (Try true false
                                (Get "sciCams")
                                Skip) ;;
                             (Try true false
                                (Get "sciCams")
                                Skip)))
                       Skip) ;;
                    (Get "guiLock") ;;
                    (Try true true
                       (Get "guiQueue")
                       (Get "guiLock")) ;;
                    (Put "waitingPlot"))
                  Skip)
              Skip))
         Skip)
     Skip).

(* soapy/simulation.py:100-1159 *)
Definition cls_Sim : cls :=
  {| c_name := "Sim";
     c_meth := [ ("__init__", m_Sim_init);
      ("readParams[configFile=True]", m_Sim_readParams_configFile_1);
      ("readParams[configFile=False]", m_Sim_readParams_configFile_0);
      ("readParams", m_Sim_readParams);
      ("setLoggingLevel", m_Sim_setLoggingLevel);
      ("aoinit", m_Sim_aoinit);
      ("makeIMat[forceNew=True]", m_Sim_makeIMat_forceNew_1);
      ("makeIMat[forceNew=False]", m_Sim_makeIMat_forceNew_0);
      ("makeIMat", m_Sim_makeIMat);
      ("runWfs_noMP", m_Sim_runWfs_noMP);
      ("runWfs_MP", m_Sim_runWfs_MP);
      ("runDM[closed=True]", m_Sim_runDM_closed_1);
      ("runDM[closed=False]", m_Sim_runDM_closed_0);
      ("runDM", m_Sim_runDM);
      ("runSciCams", m_Sim_runSciCams);
      ("loopFrame", m_Sim_loopFrame);
      ("aoloop", m_Sim_aoloop);
      ("start_aoloop_thread", m_Sim_start_aoloop_thread);
      ("stop_aoloop_thread", m_Sim_stop_aoloop_thread);
      ("_aoloop_thread", m_Sim_aoloop_thread);
      ("reset_loop", m_Sim_reset_loop);
      ("finishUp", m_Sim_finishUp);
      ("initSaveData", m_Sim_initSaveData);
      ("storeData", m_Sim_storeData);
      ("saveData", m_Sim_saveData);
      ("makeSaveHeader", m_Sim_makeSaveHeader);
      ("getTimeStamp", m_Sim_getTimeStamp);
      ("printOutput[strehl=True]", m_Sim_printOutput_strehl_1);
      ("printOutput[strehl=False]", m_Sim_printOutput_strehl_0);
      ("printOutput", m_Sim_printOutput);
      ("addToGuiQueue", m_Sim_addToGuiQueue) ];
     c_get := [];
     c_set := [];
     c_attrs := [] |}.

(** ** WFS: soapy/wfs/wfs.py, lines 103-564 *)

(* soapy/wfs/wfs.py:117-163 __init__ *)
Definition m_WFS_init : stmt :=
  (Put "soapy_config") ;; (Put "config") ;; (Put "wfsConfig") ;; (Put "lgsConfig") ;;
  (Put "pupil_size") ;; (Put "sim_size") ;; (Put "phase_scale") ;; (Put "sim_pad") ;;
  (Put "screen_size") ;; (Put "telescope_diameter") ;; (Put "wavelength") ;;
  (Put "threads") ;;
  (Or
     (Put "mask")
     ((Get "pupil_size") ;; (Get "sim_size") ;; (Put "mask"))) ;;
  (Put "iMat") ;; (Inv "initLos") ;; (Inv "calcInitParams") ;; (Inv "initFFTs") ;;
  (Cond "config.lgs"
     ((Get "config") ;;
       (Cond "config.lgs"
          (Inv "initLGS")
          Skip))
     Skip) ;;
  (Inv "allocDataArrays") ;; (Inv "calcTiltCorrect") ;; (Inv "getStatic").

(* soapy/wfs/wfs.py:171-184 setMask *)
Definition m_WFS_setMask : stmt :=
  Or
    (Put "mask")
    ((Get "pupil_size") ;; (Get "sim_size") ;; (Put "mask")).

(* soapy/wfs/wfs.py:187-188 calcInitParams *)
Definition m_WFS_calcInitParams : stmt :=
  Get "los".

(* soapy/wfs/wfs.py:190-191 initFFTs *)
Definition m_WFS_initFFTs : stmt :=
  Skip.

(* soapy/wfs/wfs.py:193-194 allocDataArrays *)
Definition m_WFS_allocDataArrays : stmt :=
  Skip.

(* soapy/wfs/wfs.py:196-202 initLos *)
Definition m_WFS_initLos : stmt :=
  (Get "config") ;; (Get "soapy_config") ;; (Put "los").

(* soapy/wfs/wfs.py:205-269 initLGS *)
Definition m_WFS_initLGS : stmt :=
  (Get "lgsConfig") ;;
  (Cond "config.lgs.uplink"
     ((Get "lgsConfig") ;; (Get "config") ;; (Get "soapy_config") ;; (Put "lgs") ;;
       (Put "lgs is true"))
     (Put "lgs")) ;;
  (Put "lgsLaunchPos") ;; (Put "elong") ;; (Put "elongLayers") ;; (Get "config") ;;
  (Cond "config.lgs"
     ((Get "lgsConfig") ;; (Put "lgsLaunchPos") ;; (Get "config") ;;
       (Cond "config.GSHeight != 0"
          ((Get "lgsConfig") ;;
            (Cond "config.lgs.elongationDepth != 0"
               ((Get "lgsConfig") ;; (Put "elong") ;; (Put "elong != 0") ;;
                 (Put "elongLayers") ;; (Get "config") ;; (Put "elongHeights") ;;
                 (Get "pupil_size") ;; (Put "elongZs") ;; (Put "elongRadii") ;;
                 (Put "elongPos") ;; (Get "sim_size") ;; (Put "elongPhaseAdditions") ;;
                 (Loop
                    ((Inv "calcElongPhaseAddition") ;; (Get "elongPhaseAdditions") ;;
                      (Inv "calcElongPos") ;; (Get "elongPos"))) ;;
                 (Get "soapy_config") ;; (Put "los"))
               ((Get "config") ;;
                 (Cond "config.GSHeight != 0"
                    Skip
                    (Get "lgsConfig")))))
          ((Get "config") ;;
            (Cond "config.GSHeight != 0"
               Skip
               (Get "lgsConfig")))))
     Skip).

(* soapy/wfs/wfs.py:271-272 calcTiltCorrect *)
Definition m_WFS_calcTiltCorrect : stmt :=
  Skip.

(* soapy/wfs/wfs.py:274-275 getStatic *)
Definition m_WFS_getStatic : stmt :=
  Put "staticData".

(* soapy/wfs/wfs.py:277-333 calcElongPhaseAddition *)
Definition m_WFS_calcElongPhaseAddition : stmt :=
  (Get "elongHeights") ;; (Get "config") ;; (Get "lgsConfig") ;; (Get "lgsLaunchPos") ;;
  (Get "soapy_config") ;; (Get "telescope_diameter") ;; (Get "wfsConfig") ;;
  (Get "pupil_size") ;; (Get "elongZs") ;; (Get "sim_pad") ;; Ret.

(* soapy/wfs/wfs.py:335-362 calcElongPos *)
Definition m_WFS_calcElongPos : stmt :=
  (Get "elongHeights") ;; (Get "config") ;; (Get "lgsLaunchPos") ;;
  (Get "telescope_diameter") ;; Ret.

(* soapy/wfs/wfs.py:364-365 zeroPhaseData *)
Definition m_WFS_zeroPhaseData : stmt :=
  Get "los".

(* soapy/wfs/wfs.py:368-393 makeElongationFrame *)
Definition m_WFS_makeElongationFrame : stmt :=
  (Get "los") ;; (Put "uncorrectedPhase") ;; (Get "elongLayers") ;;
  (Loop
     ((Get "uncorrectedPhase") ;; (Get "los") ;; (Put "uncorrectedPhase") ;;
       (Get "elongPhaseAdditions") ;;
       (Or
          (Get "los")
          Skip) ;;
       (Get "lgsConfig") ;; (Inv "calcFocalPlane"))).

(* soapy/wfs/wfs.py:395-466 frame[iMatFrame=True][read=True] *)
Definition m_WFS_frame_iMatFrame_1__read_1 : stmt :=
  (Put "iMat") ;; (Put "iMat is true") ;; (Get "config") ;;
  (Or
     (Inv "zeroData[FP=False][detector=True]")
     (Inv "zeroData[FP=False][detector=False]")) ;;
  (Get "los") ;;
  (Cond "config.lgs"
     ((Get "elong") ;;
       (IfHas "elong != 0"
          (Or
              (Inv "makeElongationFrame")
              ((Get "los") ;; (Put "uncorrectedPhase") ;;
                (Or
                   ((Get "los") ;; (Get "config") ;;
                     (Cond "config.lgs"
                        ((Get "config") ;;
                          (Or
                             (Get "lgs")
                             Skip))
                        Skip))
                   Skip) ;;
                (Inv "calcFocalPlane")))
          ((Get "los") ;; (Put "uncorrectedPhase") ;;
            (Or
               ((Get "los") ;; (Get "config") ;;
                 (Cond "config.lgs"
                    ((Get "config") ;;
                      (Or
                         (Get "lgs")
                         Skip))
                    Skip))
               Skip) ;;
            (Inv "calcFocalPlane"))))
     ((Get "los") ;; (Put "uncorrectedPhase") ;;
       (Or
          ((Get "los") ;; (Get "config") ;;
            (Cond "config.lgs"
               ((Get "config") ;;
                 (Or
                    (Get "lgs")
                    Skip))
               Skip))
          Skip) ;;
       (Inv "calcFocalPlane"))) ;;
  (Inv "integrateDetectorPlane") ;; (Inv "readDetectorPlane") ;;
  (Inv "calculateSlopes[flat=False]") ;; (Inv "zeroData[FP=True][detector=False]") ;;
  (Get "slopes") ;;
  (Or
     (Get "slopes")
     Skip) ;;
  Ret.

(* soapy/wfs/wfs.py:395-466 frame[iMatFrame=True][read=False] *)
Definition m_WFS_frame_iMatFrame_1__read_0 : stmt :=
  (Put "iMat") ;; (Put "iMat is true") ;; (Get "config") ;;
  (Or
     (Inv "zeroData[FP=False][detector=True]")
     (Inv "zeroData[FP=False][detector=False]")) ;;
  (Get "los") ;;
  (Cond "config.lgs"
     ((Get "elong") ;;
       (IfHas "elong != 0"
          (Or
              (Inv "makeElongationFrame")
              ((Get "los") ;; (Put "uncorrectedPhase") ;;
                (Or
                   ((Get "los") ;; (Get "config") ;;
                     (Cond "config.lgs"
                        ((Get "config") ;;
                          (Or
                             (Get "lgs")
                             Skip))
                        Skip))
                   Skip) ;;
                (Inv "calcFocalPlane")))
          ((Get "los") ;; (Put "uncorrectedPhase") ;;
            (Or
               ((Get "los") ;; (Get "config") ;;
                 (Cond "config.lgs"
                    ((Get "config") ;;
                      (Or
                         (Get "lgs")
                         Skip))
                    Skip))
               Skip) ;;
            (Inv "calcFocalPlane"))))
     ((Get "los") ;; (Put "uncorrectedPhase") ;;
       (Or
          ((Get "los") ;; (Get "config") ;;
            (Cond "config.lgs"
               ((Get "config") ;;
                 (Or
                    (Get "lgs")
                    Skip))
               Skip))
          Skip) ;;
       (Inv "calcFocalPlane"))) ;;
  (Inv "integrateDetectorPlane") ;; (Get "slopes") ;;
  (Or
     (Get "slopes")
     Skip) ;;
  (Get "n_measurements") ;; Ret.

(* soapy/wfs/wfs.py:395-466 frame[iMatFrame=False][read=True] *)
Definition m_WFS_frame_iMatFrame_0__read_1 : stmt :=
  (Or
     (Inv "zeroData[FP=False][detector=True]")
     (Inv "zeroData[FP=False][detector=False]")) ;;
  (Get "los") ;; (Get "config") ;;
  (Cond "config.lgs"
     ((Get "elong") ;;
       (IfHas "elong != 0"
          (Or
              (Inv "makeElongationFrame")
              ((Get "los") ;; (Put "uncorrectedPhase") ;;
                (Or
                   ((Get "los") ;; (Get "config") ;;
                     (Cond "config.lgs"
                        ((Get "config") ;;
                          (Or
                             (Get "lgs")
                             Skip))
                        Skip))
                   Skip) ;;
                (Inv "calcFocalPlane")))
          ((Get "los") ;; (Put "uncorrectedPhase") ;;
            (Or
               ((Get "los") ;; (Get "config") ;;
                 (Cond "config.lgs"
                    ((Get "config") ;;
                      (Or
                         (Get "lgs")
                         Skip))
                    Skip))
               Skip) ;;
            (Inv "calcFocalPlane"))))
     ((Get "los") ;; (Put "uncorrectedPhase") ;;
       (Or
          ((Get "los") ;; (Get "config") ;;
            (Cond "config.lgs"
               ((Get "config") ;;
                 (Or
                    (Get "lgs")
                    Skip))
               Skip))
          Skip) ;;
       (Inv "calcFocalPlane"))) ;;
  (Inv "integrateDetectorPlane") ;; (Inv "readDetectorPlane") ;;
  (Inv "calculateSlopes[flat=False]") ;; (Inv "zeroData[FP=True][detector=False]") ;;
  (Get "slopes") ;;
  (Or
     (Get "slopes")
     Skip) ;;
  Ret.

(* soapy/wfs/wfs.py:395-466 frame[iMatFrame=False][read=False] *)
Definition m_WFS_frame_iMatFrame_0__read_0 : stmt :=
  (Or
     (Inv "zeroData[FP=False][detector=True]")
     (Inv "zeroData[FP=False][detector=False]")) ;;
  (Get "los") ;; (Get "config") ;;
  (Cond "config.lgs"
     ((Get "elong") ;;
       (IfHas "elong != 0"
          (Or
              (Inv "makeElongationFrame")
              ((Get "los") ;; (Put "uncorrectedPhase") ;;
                (Or
                   ((Get "los") ;; (Get "config") ;;
                     (Cond "config.lgs"
                        ((Get "config") ;;
                          (Or
                             (Get "lgs")
                             Skip))
                        Skip))
                   Skip) ;;
                (Inv "calcFocalPlane")))
          ((Get "los") ;; (Put "uncorrectedPhase") ;;
            (Or
               ((Get "los") ;; (Get "config") ;;
                 (Cond "config.lgs"
                    ((Get "config") ;;
                      (Or
                         (Get "lgs")
                         Skip))
                    Skip))
               Skip) ;;
            (Inv "calcFocalPlane"))))
     ((Get "los") ;; (Put "uncorrectedPhase") ;;
       (Or
          ((Get "los") ;; (Get "config") ;;
            (Cond "config.lgs"
               ((Get "config") ;;
                 (Or
                    (Get "lgs")
                    Skip))
               Skip))
          Skip) ;;
       (Inv "calcFocalPlane"))) ;;
  (Inv "integrateDetectorPlane") ;; (Get "slopes") ;;
  (Or
     (Get "slopes")
     Skip) ;;
  (Get "n_measurements") ;; Ret.

(* soapy/wfs/wfs.py:395-466 frame *)
Definition m_WFS_frame : stmt :=
  Or
    (Inv "frame[iMatFrame=True][read=True]")
    (Or
        (Inv "frame[iMatFrame=True][read=False]")
        (Or
            (Inv "frame[iMatFrame=False][read=True]")
            (Inv "frame[iMatFrame=False][read=False]"))).

(* soapy/wfs/wfs.py:468-515 simple_frame[iMatFrame=True] *)
Definition m_WFS_simple_frame_iMatFrame_1 : stmt :=
  (Inv "zeroData[FP=True][detector=True]") ;; (Put "iMat") ;; (Put "iMat is true") ;;
  (Get "config") ;; (Get "los") ;; (Inv "calcFocalPlane") ;;
  (Inv "integrateDetectorPlane") ;; (Inv "readDetectorPlane") ;;
  (Inv "calculateSlopes[flat=False]") ;; (Get "slopes") ;;
  (Or
     (Get "slopes")
     Skip) ;;
  Ret.

(* soapy/wfs/wfs.py:468-515 simple_frame[iMatFrame=False] *)
Definition m_WFS_simple_frame_iMatFrame_0 : stmt :=
  (Inv "zeroData[FP=True][detector=True]") ;; (Get "los") ;; (Inv "calcFocalPlane") ;;
  (Inv "integrateDetectorPlane") ;; (Inv "readDetectorPlane") ;;
  (Inv "calculateSlopes[flat=False]") ;; (Get "slopes") ;;
  (Or
     (Get "slopes")
     Skip) ;;
  Ret.

(* soapy/wfs/wfs.py:468-515 simple_frame *)
Definition m_WFS_simple_frame : stmt :=
  Or
    (Inv "simple_frame[iMatFrame=True]")
    (Inv "simple_frame[iMatFrame=False]").

(* soapy/wfs/wfs.py:518-523 addPhotonNoise *)
Definition m_WFS_addPhotonNoise : stmt :=
  (Get "wfsDetectorPlane") ;; (Put "wfsDetectorPlane").

(* soapy/wfs/wfs.py:526-536 addReadNoise *)
Definition m_WFS_addReadNoise : stmt :=
  (Get "wfsDetectorPlane") ;; (Get "config") ;; (Put "wfsDetectorPlane").

(* soapy/wfs/wfs.py:538-539 calcFocalPlane *)
Definition m_WFS_calcFocalPlane : stmt :=
  Skip.

(* soapy/wfs/wfs.py:541-542 integrateDetectorPlane *)
Definition m_WFS_integrateDetectorPlane : stmt :=
  Skip.

(* soapy/wfs/wfs.py:544-545 readDetectorPlane *)
Definition m_WFS_readDetectorPlane : stmt :=
  Skip.

(* soapy/wfs/wfs.py:547-548 LGSUplink *)
Definition m_WFS_LGSUplink : stmt :=
  Skip.

(* soapy/wfs/wfs.py:550-551 calculateSlopes[flat=True] *)
Definition m_WFS_calculateSlopes_flat_1 : stmt :=
  (Get "los") ;; (Put "slopes").

(* soapy/wfs/wfs.py:550-551 calculateSlopes[flat=False] *)
Definition m_WFS_calculateSlopes_flat_0 : stmt :=
  (Get "los") ;; (Put "slopes").

(* soapy/wfs/wfs.py:550-551 calculateSlopes *)
Definition m_WFS_calculateSlopes : stmt :=
  Or
    (Inv "calculateSlopes[flat=True]")
    (Inv "calculateSlopes[flat=False]").

(* soapy/wfs/wfs.py:553-555 zeroData[FP=True][detector=True] *)
Definition m_WFS_zeroData_FP_1__detector_1 : stmt :=
  Skip.

(* soapy/wfs/wfs.py:553-555 zeroData[FP=True][detector=False] *)
Definition m_WFS_zeroData_FP_1__detector_0 : stmt :=
  Skip.

(* soapy/wfs/wfs.py:553-555 zeroData[FP=False][detector=True] *)
Definition m_WFS_zeroData_FP_0__detector_1 : stmt :=
  Skip.

(* soapy/wfs/wfs.py:553-555 zeroData[FP=False][detector=False] *)
Definition m_WFS_zeroData_FP_0__detector_0 : stmt :=
  Skip.

(* soapy/wfs/wfs.py:553-555 zeroData *)
Definition m_WFS_zeroData : stmt :=
  Or
    (Inv "zeroData[FP=True][detector=True]")
    (Or
        (Inv "zeroData[FP=True][detector=False]")
        (Or
            (Inv "zeroData[FP=False][detector=True]")
            (Inv "zeroData[FP=False][detector=False]"))).

(* soapy/wfs/wfs.py:559-560 property EField *)
Definition g_WFS_EField : stmt :=
  (Get "los") ;; Ret.

(* soapy/wfs/wfs.py:563-564 setter of EField *)
Definition s_WFS_EField : stmt :=
  Get "los".

(* soapy/wfs/wfs.py:103-564 *)
Definition cls_WFS : cls :=
  {| c_name := "WFS";
     c_meth := [ ("__init__", m_WFS_init);
      ("setMask", m_WFS_setMask);
      ("calcInitParams", m_WFS_calcInitParams);
      ("initFFTs", m_WFS_initFFTs);
      ("allocDataArrays", m_WFS_allocDataArrays);
      ("initLos", m_WFS_initLos);
      ("initLGS", m_WFS_initLGS);
      ("calcTiltCorrect", m_WFS_calcTiltCorrect);
      ("getStatic", m_WFS_getStatic);
      ("calcElongPhaseAddition", m_WFS_calcElongPhaseAddition);
      ("calcElongPos", m_WFS_calcElongPos);
      ("zeroPhaseData", m_WFS_zeroPhaseData);
      ("makeElongationFrame", m_WFS_makeElongationFrame);
      ("frame[iMatFrame=True][read=True]", m_WFS_frame_iMatFrame_1__read_1);
      ("frame[iMatFrame=True][read=False]", m_WFS_frame_iMatFrame_1__read_0);
      ("frame[iMatFrame=False][read=True]", m_WFS_frame_iMatFrame_0__read_1);
      ("frame[iMatFrame=False][read=False]", m_WFS_frame_iMatFrame_0__read_0);
      ("frame", m_WFS_frame);
      ("simple_frame[iMatFrame=True]", m_WFS_simple_frame_iMatFrame_1);
      ("simple_frame[iMatFrame=False]", m_WFS_simple_frame_iMatFrame_0);
      ("simple_frame", m_WFS_simple_frame);
      ("addPhotonNoise", m_WFS_addPhotonNoise);
      ("addReadNoise", m_WFS_addReadNoise);
      ("calcFocalPlane", m_WFS_calcFocalPlane);
      ("integrateDetectorPlane", m_WFS_integrateDetectorPlane);
      ("readDetectorPlane", m_WFS_readDetectorPlane);
      ("LGSUplink", m_WFS_LGSUplink);
      ("calculateSlopes[flat=True]", m_WFS_calculateSlopes_flat_1);
      ("calculateSlopes[flat=False]", m_WFS_calculateSlopes_flat_0);
      ("calculateSlopes", m_WFS_calculateSlopes);
      ("zeroData[FP=True][detector=True]", m_WFS_zeroData_FP_1__detector_1);
      ("zeroData[FP=True][detector=False]", m_WFS_zeroData_FP_1__detector_0);
      ("zeroData[FP=False][detector=True]", m_WFS_zeroData_FP_0__detector_1);
      ("zeroData[FP=False][detector=False]", m_WFS_zeroData_FP_0__detector_0);
      ("zeroData", m_WFS_zeroData) ];
     c_get := [ ("EField", g_WFS_EField) ];
     c_set := [ ("EField", s_WFS_EField) ];
     c_attrs := [] |}.

(** ** ShackHartmann: soapy/wfs/shackhartmann.py, lines 39-480 *)

(* soapy/wfs/shackhartmann.py:42-100 calcInitParams *)
Definition m_ShackHartmann_calcInitParams : stmt :=
  (Sup "ShackHartmann" "calcInitParams") ;; (Get "config") ;; (Put "nx_subaps") ;;
  (Put "subap_fov") ;; (Put "nx_subap_pixels") ;; (Put "fft_oversamp") ;;
  (Put "nx_guard_pixels") ;; (Put "subap_threshold") ;; (Put "pixel_scale") ;;
  (Put "subap_fov_rad") ;; (Get "telescope_diameter") ;; (Put "subap_diam") ;;
  (Get "wavelength") ;; (Put "nm_to_rad") ;; (Get "pupil_size") ;;
  (Put "nx_subap_pupil") ;; (Put "nx_subap_interp") ;; (Put "SUBAP_OVERSIZE") ;;
  (Put "nx_detector_pixels") ;; (Put "nx_subap_pixels_oversize") ;; (Get "sim_size") ;;
  (Put "nx_interp_efield") ;;
  (Or
     ((Get "sim_size") ;; (Get "nx_interp_efield") ;; (Get "phase_scale") ;; (Get "los"))
     Skip) ;;
  (Inv "findActiveSubaps") ;; (Put "referenceImage") ;; (Get "n_subaps") ;;
  (Put "n_measurements").

(* soapy/wfs/shackhartmann.py:103-109 initLos *)
Definition m_ShackHartmann_initLos : stmt :=
  (Get "config") ;; (Get "soapy_config") ;; (Put "los").

(* soapy/wfs/shackhartmann.py:112-136 findActiveSubaps *)
Definition m_ShackHartmann_findActiveSubaps : stmt :=
  (Get "mask") ;; (Get "sim_pad") ;; (Get "nx_subaps") ;; (Get "subap_threshold") ;;
  (Get "nx_subap_pixels") ;; (Get "SUBAP_OVERSIZE") ;; (Get "nx_guard_pixels") ;;
  (Put "pupil_subap_coords") ;; (Put "detector_subap_coords") ;;
  (Put "valid_subap_coords") ;; (Put "detector_cent_coords") ;;
  (Put "subap_fill_factor") ;; (Get "nx_subap_interp") ;; (Get "nx_subap_pupil") ;;
  (Put "interp_subap_coords") ;; (Put "n_subaps") ;; (Put "n_measurements") ;;
  (Inv "setMask").

(* soapy/wfs/shackhartmann.py:138-150 setMask *)
Definition m_ShackHartmann_setMask : stmt :=
  (Sup "ShackHartmann" "setMask") ;; (Get "mask") ;; (Get "nx_interp_efield") ;;
  (Put "scaledMask") ;; (Get "sim_pad") ;; (Get "pupil_subap_coords") ;;
  (Get "pupil_size") ;; (Get "nx_subaps") ;; (Put "subapFillFactor").

(* soapy/wfs/shackhartmann.py:153-211 initFFTs *)
Definition m_ShackHartmann_initFFTs : stmt :=
  (Get "nx_subap_pixels_oversize") ;; (Get "config") ;; (Put "subapFFTPadding") ;;
  (Get "nx_subap_interp") ;;
  (Or
     ((Get "subapFFTPadding") ;; (Get "nx_subap_interp") ;;
       (Loop
          ((Get "config") ;; (Get "nx_subap_pixels_oversize") ;;
            (Put "subapFFTPadding") ;; (Get "nx_subap_interp"))) ;;
       (Get "config"))
     Skip) ;;
  (Get "n_subaps") ;; (Put "fft_input_data") ;; (Put "fft_output_data") ;;
  (Get "threads") ;; (Put "FFT") ;; (Get "lgsConfig") ;;
  (Cond "config.lgs"
     ((Get "lgsConfig") ;;
       (Cond "config.lgs.uplink"
          ((Get "n_subaps") ;; (Get "subapFFTPadding") ;; (Put "ifft_input_data") ;;
            (Put "ifft_output_data") ;; (Get "threads") ;; (Get "config") ;;
            (Put "iFFT") ;; (Put "lgs_ifft_input_data") ;; (Put "lgs_ifft_output_data") ;;
            (Put "lgs_iFFT"))
          Skip))
     Skip).

(* soapy/wfs/shackhartmann.py:213-222 initLGS *)
Definition m_ShackHartmann_initLGS : stmt :=
  (Sup "ShackHartmann" "initLGS") ;; (Get "lgsConfig") ;;
  (Cond "config.lgs.uplink"
     ((Get "lgsConfig") ;; (Get "config") ;; (Get "soapy_config") ;;
       (Get "subapFFTPadding") ;; (Put "lgs") ;; (Put "lgs is true"))
     Skip).

(* soapy/wfs/shackhartmann.py:224-259 allocDataArrays *)
Definition m_ShackHartmann_allocDataArrays : stmt :=
  (Get "nx_interp_efield") ;; (Put "interp_phase") ;; (Put "interp_efield") ;;
  (Get "n_subaps") ;; (Get "nx_subap_interp") ;; (Put "subap_interp_efield") ;;
  (Get "nx_subap_pixels_oversize") ;; (Put "binnedFPSubapArrays") ;;
  (Get "subapFFTPadding") ;; (Put "subap_focus_intensity") ;;
  (Put "temp_subap_intensity") ;; (Get "nx_detector_pixels") ;; (Put "detector") ;;
  (Get "config") ;; (Put "centSubapArrays") ;; (Put "slopes") ;; (Put "wfsDetectorPlane").

(* soapy/wfs/shackhartmann.py:262-285 calcTiltCorrect *)
Definition m_ShackHartmann_calcTiltCorrect : stmt :=
  (Get "config") ;;
  (Or
     ((Get "nx_subap_interp") ;; (Put "tilt_fix"))
     ((Get "SUBAP_OVERSIZE") ;; (Get "subap_fov_rad") ;; (Get "subapFFTPadding") ;;
       (Get "subap_diam") ;; (Get "config") ;; (Get "nx_subap_interp") ;; (Put "tilt_fix"))) ;;
  (Get "tilt_fix") ;; (Put "tilt_fix_efield").

(* soapy/wfs/shackhartmann.py:287-297 getStatic *)
Definition m_ShackHartmann_getStatic : stmt :=
  (Put "staticData") ;; (Get "soapy_config") ;; (Get "screen_size") ;;
  (Inv "frame[iMatFrame=True][read=True]") ;; (Get "n_subaps").

(* soapy/wfs/shackhartmann.py:301-316 zeroData[FP=True][detector=True] *)
Definition m_ShackHartmann_zeroData_FP_1__detector_1 : stmt :=
  (Inv "zeroPhaseData") ;; (Get "subap_focus_intensity") ;; (Get "detector").

(* soapy/wfs/shackhartmann.py:301-316 zeroData[FP=True][detector=False] *)
Definition m_ShackHartmann_zeroData_FP_1__detector_0 : stmt :=
  (Inv "zeroPhaseData") ;; (Get "subap_focus_intensity").

(* soapy/wfs/shackhartmann.py:301-316 zeroData[FP=False][detector=True] *)
Definition m_ShackHartmann_zeroData_FP_0__detector_1 : stmt :=
  (Inv "zeroPhaseData") ;; (Get "detector").

(* soapy/wfs/shackhartmann.py:301-316 zeroData[FP=False][detector=False] *)
Definition m_ShackHartmann_zeroData_FP_0__detector_0 : stmt :=
  Inv "zeroPhaseData".

(* soapy/wfs/shackhartmann.py:301-316 zeroData *)
Definition m_ShackHartmann_zeroData : stmt :=
  Or
    (Inv "zeroData[FP=True][detector=True]")
    (Or
        (Inv "zeroData[FP=True][detector=False]")
        (Or
            (Inv "zeroData[FP=False][detector=True]")
            (Inv "zeroData[FP=False][detector=False]"))).

(* soapy/wfs/shackhartmann.py:319-351 calcFocalPlane *)
Definition m_ShackHartmann_calcFocalPlane : stmt :=
  (Or
     (Get "los")
     Skip) ;;
  (Get "config") ;;
  (Or
     (Get "interp_efield")
     ((Get "nx_interp_efield") ;; (Get "interp_efield"))) ;;
  (Get "fft_input_data") ;; (Get "interp_efield") ;; (Get "interp_subap_coords") ;;
  (Get "nx_subap_interp") ;; (Get "scaledMask") ;; (Get "tilt_fix_efield") ;;
  (Get "FFT") ;; (Get "fft_output_data") ;; (Put "temp_subap_focus") ;;
  (Get "temp_subap_intensity") ;;
  (Or
     ((Get "temp_subap_intensity") ;; (Put "temp_subap_intensity"))
     Skip) ;;
  (Get "subap_focus_intensity") ;; (Put "subap_focus_intensity").

(* soapy/wfs/shackhartmann.py:354-381 integrateDetectorPlane *)
Definition m_ShackHartmann_integrateDetectorPlane : stmt :=
  (Get "config") ;;
  (Cond "config.lgs"
     ((Get "lgs") ;;
       (IfHas "lgs is true"
          (Or
              ((Get "lgsConfig") ;;
                (Cond "config.lgs.uplink"
                   ((Get "iMat") ;;
                     (Or
                        (Inv "applyLgsUplink")
                        Skip))
                   Skip))
              Skip)
          Skip))
     Skip) ;;
  (Get "binnedFPSubapArrays") ;; (Get "subap_focus_intensity") ;;
  (Get "subapFillFactor") ;; (Put "binnedFPSubapArrays") ;; (Get "detector") ;;
  (Get "detector_subap_coords") ;; (Get "valid_subap_coords").

(* soapy/wfs/shackhartmann.py:384-396 readDetectorPlane *)
Definition m_ShackHartmann_readDetectorPlane : stmt :=
  (Get "detector") ;; (Put "detector") ;; (Get "config") ;; (Get "mask") ;;
  (Get "phase_scale") ;;
  (Or
     (Inv "addPhotonNoise")
     Skip) ;;
  (Or
     (Inv "addReadNoise")
     Skip).

(* soapy/wfs/shackhartmann.py:399-419 applyLgsUplink *)
Definition m_ShackHartmann_applyLgsUplink : stmt :=
  (Get "lgs") ;; (Get "los") ;; (Get "lgs_ifft_input_data") ;; (Get "lgs_iFFT") ;;
  (Get "subap_focus_intensity") ;; (Get "ifft_input_data") ;; (Get "iFFT") ;;
  (Get "ifft_output_data") ;; (Get "lgs_ifft_output_data") ;; (Put "ifft_output_data") ;;
  (Get "fft_input_data") ;; (Get "FFT") ;; (Get "fft_output_data").

(* soapy/wfs/shackhartmann.py:421-460 calculateSlopes[flat=True] *)
Definition m_ShackHartmann_calculateSlopes_flat_1 : stmt :=
  (Get "detector") ;; (Get "detector_cent_coords") ;; (Get "nx_subap_pixels") ;;
  (Get "centSubapArrays") ;; (Get "config") ;; (Get "referenceImage") ;;
  (Get "staticData") ;;
  (Or
     (Get "staticData")
     Skip) ;;
  (Get "n_subaps") ;; (Get "slopes") ;;
  (Or
     ((Get "slopes") ;; (Get "n_subaps"))
     Skip) ;;
  (Or
     ((Get "iMat") ;;
       (IfHas "iMat is true"
          (Or
              Skip
              ((Get "config") ;; (Get "slopes") ;; (Get "n_subaps") ;; (Put "slopes")))
          ((Get "config") ;; (Get "slopes") ;; (Get "n_subaps") ;; (Put "slopes"))))
     Skip) ;;
  Ret.

(* soapy/wfs/shackhartmann.py:421-460 calculateSlopes[flat=False] *)
Definition m_ShackHartmann_calculateSlopes_flat_0 : stmt :=
  (Get "detector") ;; (Get "detector_cent_coords") ;; (Get "nx_subap_pixels") ;;
  (Get "centSubapArrays") ;; (Get "config") ;; (Get "referenceImage") ;;
  (Get "staticData") ;;
  (Or
     (Get "staticData")
     Skip) ;;
  (Get "n_subaps") ;; (Get "slopes") ;;
  (Or
     ((Get "slopes") ;; (Get "n_subaps"))
     Skip) ;;
  (Or
     ((Get "iMat") ;;
       (IfHas "iMat is true"
          (Or
              Skip
              ((Get "config") ;; (Get "slopes") ;; (Get "n_subaps") ;; (Put "slopes")))
          ((Get "config") ;; (Get "slopes") ;; (Get "n_subaps") ;; (Put "slopes"))))
     Skip) ;;
  Ret.

(* soapy/wfs/shackhartmann.py:421-460 calculateSlopes *)
Definition m_ShackHartmann_calculateSlopes : stmt :=
  Or
    (Inv "calculateSlopes[flat=True]")
    (Inv "calculateSlopes[flat=False]").

(* soapy/wfs/shackhartmann.py:463-467 addPhotonNoise *)
Definition m_ShackHartmann_addPhotonNoise : stmt :=
  Get "detector".

(* soapy/wfs/shackhartmann.py:470-480 addReadNoise *)
Definition m_ShackHartmann_addReadNoise : stmt :=
  (Get "detector") ;; (Get "config") ;; (Get "wfsDetectorPlane") ;; (Put "detector").

(* soapy/wfs/shackhartmann.py:39-480 *)
Definition cls_ShackHartmann : cls :=
  {| c_name := "ShackHartmann";
     c_meth := [ ("calcInitParams", m_ShackHartmann_calcInitParams);
      ("initLos", m_ShackHartmann_initLos);
      ("findActiveSubaps", m_ShackHartmann_findActiveSubaps);
      ("setMask", m_ShackHartmann_setMask);
      ("initFFTs", m_ShackHartmann_initFFTs);
      ("initLGS", m_ShackHartmann_initLGS);
      ("allocDataArrays", m_ShackHartmann_allocDataArrays);
      ("calcTiltCorrect", m_ShackHartmann_calcTiltCorrect);
      ("getStatic", m_ShackHartmann_getStatic);
      ("zeroData[FP=True][detector=True]", m_ShackHartmann_zeroData_FP_1__detector_1);
      ("zeroData[FP=True][detector=False]", m_ShackHartmann_zeroData_FP_1__detector_0);
      ("zeroData[FP=False][detector=True]", m_ShackHartmann_zeroData_FP_0__detector_1);
      ("zeroData[FP=False][detector=False]", m_ShackHartmann_zeroData_FP_0__detector_0);
      ("zeroData", m_ShackHartmann_zeroData);
      ("calcFocalPlane", m_ShackHartmann_calcFocalPlane);
      ("integrateDetectorPlane", m_ShackHartmann_integrateDetectorPlane);
      ("readDetectorPlane", m_ShackHartmann_readDetectorPlane);
      ("applyLgsUplink", m_ShackHartmann_applyLgsUplink);
      ("calculateSlopes[flat=True]", m_ShackHartmann_calculateSlopes_flat_1);
      ("calculateSlopes[flat=False]", m_ShackHartmann_calculateSlopes_flat_0);
      ("calculateSlopes", m_ShackHartmann_calculateSlopes);
      ("addPhotonNoise", m_ShackHartmann_addPhotonNoise);
      ("addReadNoise", m_ShackHartmann_addReadNoise) ];
     c_get := [];
     c_set := [];
     c_attrs := [] |}.

(** ** Gradient: soapy/wfs/gradient.py, lines 36-171 *)

(* soapy/wfs/gradient.py:45-70 calcInitParams *)
Definition m_Gradient_calcInitParams : stmt :=
  (Sup "Gradient" "calcInitParams") ;; (Get "pupil_size") ;; (Get "wfsConfig") ;;
  (Put "subapSpacing") ;; (Inv "findActiveSubaps") ;; (Get "telescope_diameter") ;;
  (Put "subapDiam") ;; (Get "config") ;; (Put "xGrad_1") ;; (Put "yGrad_1") ;;
  (Put "xGrad") ;; (Put "yGrad").

(* soapy/wfs/gradient.py:72-85 findActiveSubaps *)
Definition m_Gradient_findActiveSubaps : stmt :=
  (Get "mask") ;; (Get "sim_pad") ;; (Get "wfsConfig") ;; (Put "subapCoords") ;;
  (Put "subapFillFactor") ;; (Put "activeSubaps").

(* soapy/wfs/gradient.py:87-102 allocDataArrays *)
Definition m_Gradient_allocDataArrays : stmt :=
  (Sup "Gradient" "allocDataArrays") ;; (Get "activeSubaps") ;; (Get "subapSpacing") ;;
  (Put "subapArrays") ;; (Put "slopes").

(* soapy/wfs/gradient.py:105-126 calcFocalPlane *)
Definition m_Gradient_calcFocalPlane : stmt :=
  (Get "los") ;; (Get "mask") ;; (Get "sim_pad") ;; (Put "pupilPhase") ;;
  (Get "subapCoords") ;;
  (Loop
     ((Get "subapSpacing") ;; (Get "pupilPhase") ;; (Get "subapArrays"))).

(* soapy/wfs/gradient.py:129-136 integrateDetectorPlane *)
Definition m_Gradient_integrateDetectorPlane : stmt :=
  (Get "wfsConfig") ;; (Put "wfsDetectorPlane") ;; (Get "subapCoords") ;;
  (Get "subapSpacing") ;; (Get "subapArrays").

(* soapy/wfs/gradient.py:138-171 calculateSlopes[flat=True] *)
Definition m_Gradient_calculateSlopes_flat_1 : stmt :=
  (Get "subapArrays") ;;
  (Loop
     ((Get "xGrad") ;; (Get "slopes") ;; (Get "yGrad") ;; (Get "activeSubaps"))) ;;
  (Get "wfsConfig") ;;
  (Or
     ((Get "slopes") ;; (Get "activeSubaps"))
     Skip) ;;
  (Or
     ((Get "iMat") ;;
       (IfHas "iMat is true"
          (Or
              Skip
              ((Get "wfsConfig") ;; (Get "slopes") ;; (Get "activeSubaps") ;;
                (Put "slopes")))
          ((Get "wfsConfig") ;; (Get "slopes") ;; (Get "activeSubaps") ;; (Put "slopes"))))
     Skip) ;;
  (Get "slopes") ;; Ret.

(* soapy/wfs/gradient.py:138-171 calculateSlopes[flat=False] *)
Definition m_Gradient_calculateSlopes_flat_0 : stmt :=
  (Get "subapArrays") ;;
  (Loop
     ((Get "xGrad") ;; (Get "slopes") ;; (Get "yGrad") ;; (Get "activeSubaps"))) ;;
  (Get "wfsConfig") ;;
  (Or
     ((Get "slopes") ;; (Get "activeSubaps"))
     Skip) ;;
  (Or
     ((Get "iMat") ;;
       (IfHas "iMat is true"
          (Or
              Skip
              ((Get "wfsConfig") ;; (Get "slopes") ;; (Get "activeSubaps") ;;
                (Put "slopes")))
          ((Get "wfsConfig") ;; (Get "slopes") ;; (Get "activeSubaps") ;; (Put "slopes"))))
     Skip) ;;
  (Get "slopes") ;; Ret.

(* soapy/wfs/gradient.py:138-171 calculateSlopes *)
Definition m_Gradient_calculateSlopes : stmt :=
  Or
    (Inv "calculateSlopes[flat=True]")
    (Inv "calculateSlopes[flat=False]").

(* soapy/wfs/gradient.py:36-171 *)
Definition cls_Gradient : cls :=
  {| c_name := "Gradient";
     c_meth := [ ("calcInitParams", m_Gradient_calcInitParams);
      ("findActiveSubaps", m_Gradient_findActiveSubaps);
      ("allocDataArrays", m_Gradient_allocDataArrays);
      ("calcFocalPlane", m_Gradient_calcFocalPlane);
      ("integrateDetectorPlane", m_Gradient_integrateDetectorPlane);
      ("calculateSlopes[flat=True]", m_Gradient_calculateSlopes_flat_1);
      ("calculateSlopes[flat=False]", m_Gradient_calculateSlopes_flat_0);
      ("calculateSlopes", m_Gradient_calculateSlopes) ];
     c_get := [];
     c_set := [];
     c_attrs := [] |}.

(** ** Pyramid: soapy/wfs/pyramid.py, lines 93-433 *)

(* soapy/wfs/pyramid.py:101-143 calcInitParams *)
Definition m_Pyramid_calcInitParams : stmt :=
  (Sup "Pyramid" "calcInitParams") ;; (Get "wfsConfig") ;; (Put "pupil_separation") ;;
  (Put "nb_modulation") ;; (Put "amplitude_modulation") ;; (Get "sim_size") ;;
  (Put "size_array") ;; (Put "nx_subaps") ;; (Get "pupil_size") ;; (Put "bin") ;;
  (Put "detector_size") ;; (Put "detector") ;; (Put "count") ;; (Put "GSMag") ;;
  (Put "FOV") ;; (Inv "initFFTs") ;; (Inv "calcPyramidMask") ;; (Inv "calcCentroidMask") ;;
  (Inv "calcDetectorMask") ;; (Inv "calcTipTiltModulationsPoints") ;;
  (Inv "calcModulationMatrix") ;; (Inv "calcFlatSlopes") ;; (Get "SlopeSize") ;;
  (Put "n_measurements") ;; (Get "los").

(* soapy/wfs/pyramid.py:145-169 initFFTs *)
Definition m_Pyramid_initFFTs : stmt :=
  (Get "threads") ;; (Get "nb_modulation") ;; (Get "size_array") ;;
  (Put "fft_input_data") ;; (Put "fft_output_data") ;; (Get "config") ;; (Put "FFT") ;;
  (Put "ifft_input_data") ;; (Put "ifft_output_data") ;; (Put "iFFT") ;;
  (Put "focal_plane").

(* soapy/wfs/pyramid.py:171-177 calcCentroidMask *)
Definition m_Pyramid_calcCentroidMask : stmt :=
  (Get "size_array") ;; (Put "centroidMask").

(* soapy/wfs/pyramid.py:179-221 calcDetectorMask *)
Definition m_Pyramid_calcDetectorMask : stmt :=
  (Get "detector_size") ;; (Get "nx_subaps") ;; (Get "pupil_separation") ;;
  (Put "detector_mask") ;; (Put "SlopeSize").

(* soapy/wfs/pyramid.py:225-244 calcPyramidMask *)
Definition m_Pyramid_calcPyramidMask : stmt :=
  (Get "pupil_size") ;; (Get "nx_subaps") ;; (Get "pupil_separation") ;;
  (Get "size_array") ;; (Put "apex") ;; (Put "pyramid_mask") ;;
  (Put "pyramid_mask_phs_screen").

(* soapy/wfs/pyramid.py:246-274 calcTipTiltModulationsPoints *)
Definition m_Pyramid_calcTipTiltModulationsPoints : stmt :=
  (Or
     ((Get "amplitude_modulation") ;; (Get "telescope_diameter") ;; (Get "wavelength") ;;
       (Get "pupil_size"))
     Skip) ;;
  (Or
     (Get "nb_modulation")
     Skip) ;;
  (Put "tip_mod") ;; (Put "tilt_mod").

(* soapy/wfs/pyramid.py:276-299 calcModulationMatrix *)
Definition m_Pyramid_calcModulationMatrix : stmt :=
  (Or
     (Get "nb_modulation")
     Skip) ;;
  (Get "size_array") ;; (Put "modulation_phase_matrix") ;;
  (Loop
     ((Get "modulation_phase_matrix") ;; (Get "tip_mod") ;; (Get "tilt_mod"))).

(* soapy/wfs/pyramid.py:302-364 calcFocalPlane *)
Definition m_Pyramid_calcFocalPlane : stmt :=
  (Or
     (Get "nb_modulation")
     Skip) ;;
  (Or
     (Get "mask")
     ((Get "iMat") ;; (Get "los"))) ;;
  (Get "modulation_phase_matrix") ;; (Get "centroidMask") ;; (Get "mask") ;;
  (Get "fft_input_data") ;; (Get "FFT") ;; (Get "size_array") ;; (Get "fft_output_data") ;;
  (Put "focal_plane") ;; (Get "pyramid_mask_phs_screen") ;; (Get "ifft_input_data") ;;
  (Get "iFFT") ;; (Get "ifft_output_data") ;; (Put "wfsDetectorPlane") ;; (Get "bin") ;;
  (Or
     ((Get "size_array") ;; (Get "bin") ;; (Get "wfsDetectorPlane") ;;
       (Put "wfsDetectorPlane"))
     Skip) ;;
  (Or
     Skip
     ((Get "wfsDetectorPlane") ;; (Put "wfsDetectorPlane"))) ;;
  (Get "config") ;;
  (Or
     (Inv "addReadNoise")
     Skip).

(* soapy/wfs/pyramid.py:367-409 calculateSlopes[flat=True] *)
Definition m_Pyramid_calculateSlopes_flat_1 : stmt :=
  (Get "wfsDetectorPlane") ;; (Get "detector_mask") ;; (Put "Xslopes") ;;
  (Put "Yslopes") ;; (Put "slopes").

(* soapy/wfs/pyramid.py:367-409 calculateSlopes[flat=False] *)
Definition m_Pyramid_calculateSlopes_flat_0 : stmt :=
  (Get "wfsDetectorPlane") ;; (Get "detector_mask") ;; (Put "Xslopes") ;;
  (Put "Yslopes") ;; (Get "flat_slopes") ;; (Put "slopes").

(* soapy/wfs/pyramid.py:367-409 calculateSlopes *)
Definition m_Pyramid_calculateSlopes : stmt :=
  Or
    (Inv "calculateSlopes[flat=True]")
    (Inv "calculateSlopes[flat=False]").

(* soapy/wfs/pyramid.py:412-416 addPhotonNoise *)
Definition m_Pyramid_addPhotonNoise : stmt :=
  Get "detector".

(* soapy/wfs/pyramid.py:419-428 addReadNoise *)
Definition m_Pyramid_addReadNoise : stmt :=
  (Get "wfsDetectorPlane") ;; (Get "config") ;; (Put "wfsDetectorPlane").

(* soapy/wfs/pyramid.py:430-433 calcFlatSlopes *)
Definition m_Pyramid_calcFlatSlopes : stmt :=
  (Inv "calcFocalPlane") ;; (Inv "calculateSlopes[flat=True]") ;; (Get "slopes") ;;
  (Put "flat_slopes").

(* soapy/wfs/pyramid.py:93-433 *)
Definition cls_Pyramid : cls :=
  {| c_name := "Pyramid";
     c_meth := [ ("calcInitParams", m_Pyramid_calcInitParams);
      ("initFFTs", m_Pyramid_initFFTs);
      ("calcCentroidMask", m_Pyramid_calcCentroidMask);
      ("calcDetectorMask", m_Pyramid_calcDetectorMask);
      ("calcPyramidMask", m_Pyramid_calcPyramidMask);
      ("calcTipTiltModulationsPoints", m_Pyramid_calcTipTiltModulationsPoints);
      ("calcModulationMatrix", m_Pyramid_calcModulationMatrix);
      ("calcFocalPlane", m_Pyramid_calcFocalPlane);
      ("calculateSlopes[flat=True]", m_Pyramid_calculateSlopes_flat_1);
      ("calculateSlopes[flat=False]", m_Pyramid_calculateSlopes_flat_0);
      ("calculateSlopes", m_Pyramid_calculateSlopes);
      ("addPhotonNoise", m_Pyramid_addPhotonNoise);
      ("addReadNoise", m_Pyramid_addReadNoise);
      ("calcFlatSlopes", m_Pyramid_calcFlatSlopes) ];
     c_get := [];
     c_set := [];
     c_attrs := ["FOV_OVERSAMP"] |}.

(** ** ExtendedSH: soapy/wfs/extendedshackhartmann.py, lines 33-251 *)

(* soapy/wfs/extendedshackhartmann.py:35-39 calcInitParams *)
Definition m_ExtendedSH_calcInitParams : stmt :=
  (Sup "ExtendedSH" "calcInitParams") ;; (Get "wfsConfig") ;; (Put "referenceImage").

(* soapy/wfs/extendedshackhartmann.py:41-66 initFFTs *)
Definition m_ExtendedSH_initFFTs : stmt :=
  (Sup "ExtendedSH" "initFFTs") ;; (Get "activeSubaps") ;; (Get "wfsConfig") ;;
  (Put "corrFFT") ;; (Put "corrIFFT") ;; (Put "extendedObject").

(* soapy/wfs/extendedshackhartmann.py:68-80 allocDataArrays *)
Definition m_ExtendedSH_allocDataArrays : stmt :=
  (Sup "ExtendedSH" "allocDataArrays") ;; (Get "extendedObject") ;;
  (Or
     (Put "objectConv")
     ((Get "FPSubapArrays") ;; (Get "extendedObject") ;; (Get "wfsConfig") ;;
       (Put "objectConv"))) ;;
  (Get "centSubapArrays") ;; (Put "corrSubapArrays").

(* soapy/wfs/extendedshackhartmann.py:82-101 integrateDetectorPlane *)
Definition m_ExtendedSH_integrateDetectorPlane : stmt :=
  (Get "extendedObject") ;;
  (Or
     ((Get "objectConv") ;; (Get "FPSubapArrays") ;; (Get "extendedObject"))
     Skip) ;;
  (Get "SUBAP_OVERSIZE") ;;
  (Or
     ((Get "subapFFTPadding") ;; (Get "SUBAP_OVERSIZE") ;; (Get "FPSubapArrays") ;;
       (Put "FPSubapArrays"))
     Skip) ;;
  (Sup "ExtendedSH" "integrateDetectorPlane").

(* soapy/wfs/extendedshackhartmann.py:103-137 makeCorrelationImgs *)
Definition m_ExtendedSH_makeCorrelationImgs : stmt :=
  (Get "centSubapArrays") ;; (Get "config") ;;
  (Or
     ((Get "centSubapArrays") ;; (Get "referenceImage"))
     ((Get "config") ;; (Get "centSubapArrays") ;; (Get "referenceImage"))) ;;
  (Put "corrSubapArrays").

(* soapy/wfs/extendedshackhartmann.py:140-187 calculateSlopes[flat=True] *)
Definition m_ExtendedSH_calculateSlopes_flat_1 : stmt :=
  (Get "activeSubaps") ;;
  (Loop
     ((Get "detectorSubapCoords") ;; (Get "wfsDetectorPlane") ;; (Get "wfsConfig") ;;
       (Get "centSubapArrays"))) ;;
  (Get "referenceImage") ;;
  (Or
     (Inv "makeCorrelationImgs")
     ((Get "FPSubapArrays") ;; (Put "corrSubapArrays"))) ;;
  (Get "wfsConfig") ;; (Get "corrSubapArrays") ;; (Get "staticData") ;;
  (Or
     (Get "staticData")
     Skip) ;;
  (Get "slopes") ;;
  (Or
     ((Get "slopes") ;; (Get "activeSubaps"))
     Skip) ;;
  (Or
     ((Get "iMat") ;;
       (IfHas "iMat is true"
          (Or
              Skip
              ((Get "wfsConfig") ;; (Get "slopes") ;; (Get "activeSubaps") ;;
                (Put "slopes")))
          ((Get "wfsConfig") ;; (Get "slopes") ;; (Get "activeSubaps") ;; (Put "slopes"))))
     Skip) ;;
  Ret.

(* soapy/wfs/extendedshackhartmann.py:140-187 calculateSlopes[flat=False] *)
Definition m_ExtendedSH_calculateSlopes_flat_0 : stmt :=
  (Get "activeSubaps") ;;
  (Loop
     ((Get "detectorSubapCoords") ;; (Get "wfsDetectorPlane") ;; (Get "wfsConfig") ;;
       (Get "centSubapArrays"))) ;;
  (Get "referenceImage") ;;
  (Or
     (Inv "makeCorrelationImgs")
     ((Get "FPSubapArrays") ;; (Put "corrSubapArrays"))) ;;
  (Get "wfsConfig") ;; (Get "corrSubapArrays") ;; (Get "staticData") ;;
  (Or
     (Get "staticData")
     Skip) ;;
  (Get "slopes") ;;
  (Or
     ((Get "slopes") ;; (Get "activeSubaps"))
     Skip) ;;
  (Or
     ((Get "iMat") ;;
       (IfHas "iMat is true"
          (Or
              Skip
              ((Get "wfsConfig") ;; (Get "slopes") ;; (Get "activeSubaps") ;;
                (Put "slopes")))
          ((Get "wfsConfig") ;; (Get "slopes") ;; (Get "activeSubaps") ;; (Put "slopes"))))
     Skip) ;;
  Ret.

(* soapy/wfs/extendedshackhartmann.py:140-187 calculateSlopes *)
Definition m_ExtendedSH_calculateSlopes : stmt :=
  Or
    (Inv "calculateSlopes[flat=True]")
    (Inv "calculateSlopes[flat=False]").

(* soapy/wfs/extendedshackhartmann.py:190-194 property referenceImage *)
Definition g_ExtendedSH_referenceImage : stmt :=
  (Get "_referenceImage") ;; Ret.

(* soapy/wfs/extendedshackhartmann.py:236-237 property extendedObject *)
Definition g_ExtendedSH_extendedObject : stmt :=
  (Get "_extendedObject") ;; Ret.

(* soapy/wfs/extendedshackhartmann.py:197-233 setter of referenceImage *)
Definition s_ExtendedSH_referenceImage : stmt :=
  Or
    ((Get "activeSubaps") ;; (Get "wfsConfig") ;; (Put "_referenceImage") ;;
      (Or
         (Put "_referenceImage")
         ((Get "wfsConfig") ;;
           (Or
              ((Get "activeSubaps") ;; (Get "wfsConfig") ;; (Put "_referenceImage"))
              ((Get "detectorPxls") ;;
                (Or
                   ((Get "detectorSubapCoords") ;;
                     (Loop
                        ((Get "wfsConfig") ;; (Get "_referenceImage"))))
                   Skip))))) ;;
      (Put "iReferenceImage"))
    (Put "_referenceImage").

(* soapy/wfs/extendedshackhartmann.py:240-251 setter of extendedObject *)
Definition s_ExtendedSH_extendedObject : stmt :=
  Or
    ((Get "subapFFTPadding") ;;
      (Or
         ((Get "subapFFTPadding") ;; Rse)
         Skip) ;;
      (Put "_extendedObject"))
    (Put "_extendedObject").

(* soapy/wfs/extendedshackhartmann.py:33-251 *)
Definition cls_ExtendedSH : cls :=
  {| c_name := "ExtendedSH";
     c_meth := [ ("calcInitParams", m_ExtendedSH_calcInitParams);
      ("initFFTs", m_ExtendedSH_initFFTs);
      ("allocDataArrays", m_ExtendedSH_allocDataArrays);
      ("integrateDetectorPlane", m_ExtendedSH_integrateDetectorPlane);
      ("makeCorrelationImgs", m_ExtendedSH_makeCorrelationImgs);
      ("calculateSlopes[flat=True]", m_ExtendedSH_calculateSlopes_flat_1);
      ("calculateSlopes[flat=False]", m_ExtendedSH_calculateSlopes_flat_0);
      ("calculateSlopes", m_ExtendedSH_calculateSlopes) ];
     c_get := [ ("referenceImage", g_ExtendedSH_referenceImage);
      ("extendedObject", g_ExtendedSH_extendedObject) ];
     c_set := [ ("referenceImage", s_ExtendedSH_referenceImage);
      ("extendedObject", s_ExtendedSH_extendedObject) ];
     c_attrs := [] |}.

(** ** ZernikeWFS: soapy/wfs/zernike.py, lines 15-67 *)

(* soapy/wfs/zernike.py:17-36 calcInitParams *)
Definition m_ZernikeWFS_calcInitParams : stmt :=
  (Sup "ZernikeWFS" "calcInitParams") ;; (Get "config") ;; (Put "n_zerns") ;;
  (Put "n_measurements") ;; (Get "pupil_size") ;; (Put "zernike_array").

(* soapy/wfs/zernike.py:39-43 allocDataArrays *)
Definition m_ZernikeWFS_allocDataArrays : stmt :=
  (Get "pupil_size") ;; (Undef "base") ;; (Put "wfsDetectorPlane").

(* soapy/wfs/zernike.py:45-50 integrateDetectorPlane *)
Definition m_ZernikeWFS_integrateDetectorPlane : stmt :=
  (Get "sim_size") ;; (Get "pupil_size") ;; (Get "los") ;; (Put "pupil_phase") ;;
  (Get "wfsDetectorPlane") ;; (Put "wfsDetectorPlane").

(* soapy/wfs/zernike.py:52-53 readDetectorPlane *)
Definition m_ZernikeWFS_readDetectorPlane : stmt :=
  (Get "wfsDetectorPlane") ;; (Put "detector_data").

(* soapy/wfs/zernike.py:55-60 calculateSlopes[flat=True] *)
Definition m_ZernikeWFS_calculateSlopes_flat_1 : stmt :=
  (Get "zernike_array") ;; (Get "detector_data") ;; (Put "slopes").

(* soapy/wfs/zernike.py:55-60 calculateSlopes[flat=False] *)
Definition m_ZernikeWFS_calculateSlopes_flat_0 : stmt :=
  (Get "zernike_array") ;; (Get "detector_data") ;; (Put "slopes").

(* soapy/wfs/zernike.py:55-60 calculateSlopes *)
Definition m_ZernikeWFS_calculateSlopes : stmt :=
  Or
    (Inv "calculateSlopes[flat=True]")
    (Inv "calculateSlopes[flat=False]").

(* soapy/wfs/zernike.py:64-67 zeroData[FP=True][detector=True] *)
Definition m_ZernikeWFS_zeroData_FP_1__detector_1 : stmt :=
  (Or
     (Sup "ZernikeWFS" "zeroData[FP=True][detector=True]")
     (Or
         (Sup "ZernikeWFS" "zeroData[FP=True][detector=False]")
         (Or
             (Sup "ZernikeWFS" "zeroData[FP=False][detector=True]")
             (Sup "ZernikeWFS" "zeroData[FP=False][detector=False]")))) ;;
  (Get "wfsDetectorPlane").

(* soapy/wfs/zernike.py:64-67 zeroData[FP=True][detector=False] *)
Definition m_ZernikeWFS_zeroData_FP_1__detector_0 : stmt :=
  Or
    (Sup "ZernikeWFS" "zeroData[FP=True][detector=True]")
    (Or
        (Sup "ZernikeWFS" "zeroData[FP=True][detector=False]")
        (Or
            (Sup "ZernikeWFS" "zeroData[FP=False][detector=True]")
            (Sup "ZernikeWFS" "zeroData[FP=False][detector=False]"))).

(* soapy/wfs/zernike.py:64-67 zeroData[FP=False][detector=True] *)
Definition m_ZernikeWFS_zeroData_FP_0__detector_1 : stmt :=
  (Or
     (Sup "ZernikeWFS" "zeroData[FP=True][detector=True]")
     (Or
         (Sup "ZernikeWFS" "zeroData[FP=True][detector=False]")
         (Or
             (Sup "ZernikeWFS" "zeroData[FP=False][detector=True]")
             (Sup "ZernikeWFS" "zeroData[FP=False][detector=False]")))) ;;
  (Get "wfsDetectorPlane").

(* soapy/wfs/zernike.py:64-67 zeroData[FP=False][detector=False] *)
Definition m_ZernikeWFS_zeroData_FP_0__detector_0 : stmt :=
  Or
    (Sup "ZernikeWFS" "zeroData[FP=True][detector=True]")
    (Or
        (Sup "ZernikeWFS" "zeroData[FP=True][detector=False]")
        (Or
            (Sup "ZernikeWFS" "zeroData[FP=False][detector=True]")
            (Sup "ZernikeWFS" "zeroData[FP=False][detector=False]"))).

(* soapy/wfs/zernike.py:64-67 zeroData *)
Definition m_ZernikeWFS_zeroData : stmt :=
  Or
    (Inv "zeroData[FP=True][detector=True]")
    (Or
        (Inv "zeroData[FP=True][detector=False]")
        (Or
            (Inv "zeroData[FP=False][detector=True]")
            (Inv "zeroData[FP=False][detector=False]"))).

(* soapy/wfs/zernike.py:15-67 *)
Definition cls_ZernikeWFS : cls :=
  {| c_name := "ZernikeWFS";
     c_meth := [ ("calcInitParams", m_ZernikeWFS_calcInitParams);
      ("allocDataArrays", m_ZernikeWFS_allocDataArrays);
      ("integrateDetectorPlane", m_ZernikeWFS_integrateDetectorPlane);
      ("readDetectorPlane", m_ZernikeWFS_readDetectorPlane);
      ("calculateSlopes[flat=True]", m_ZernikeWFS_calculateSlopes_flat_1);
      ("calculateSlopes[flat=False]", m_ZernikeWFS_calculateSlopes_flat_0);
      ("calculateSlopes", m_ZernikeWFS_calculateSlopes);
      ("zeroData[FP=True][detector=True]", m_ZernikeWFS_zeroData_FP_1__detector_1);
      ("zeroData[FP=True][detector=False]", m_ZernikeWFS_zeroData_FP_1__detector_0);
      ("zeroData[FP=False][detector=True]", m_ZernikeWFS_zeroData_FP_0__detector_1);
      ("zeroData[FP=False][detector=False]", m_ZernikeWFS_zeroData_FP_0__detector_0);
      ("zeroData", m_ZernikeWFS_zeroData) ];
     c_get := [];
     c_set := [];
     c_attrs := [] |}.

(** ** ShackHartmannLegacy: soapy/wfs/shackhartmann_legacy.py, lines 26-474 *)

(* soapy/wfs/shackhartmann_legacy.py:31-82 calcInitParams *)
Definition m_ShackHartmannLegacy_calcInitParams : stmt :=
  (Sup "ShackHartmannLegacy" "calcInitParams") ;; (Get "wfsConfig") ;;
  (Put "wavelength") ;; (Get "config") ;; (Put "subapFOVrad") ;; (Get "los") ;;
  (Put "subapDiam") ;; (Get "pupil_size") ;; (Put "PPSpacing") ;;
  (Put "subapFOVSpacing") ;; (Put "SUBAP_OVERSIZE") ;; (Put "detectorPxls") ;;
  (Get "sim_size") ;; (Put "scaledEFieldSize") ;;
  (Or
     ((Get "sim_size") ;; (Get "scaledEFieldSize") ;; (Get "phase_scale") ;; (Get "los"))
     Skip) ;;
  (Inv "findActiveSubaps") ;; (Put "referenceImage") ;; (Get "activeSubaps") ;;
  (Put "n_measurements").

(* soapy/wfs/shackhartmann_legacy.py:84-103 findActiveSubaps *)
Definition m_ShackHartmannLegacy_findActiveSubaps : stmt :=
  (Get "mask") ;; (Get "sim_pad") ;; (Get "wfsConfig") ;; (Put "subapCoords") ;;
  (Put "subapFillFactor") ;; (Put "activeSubaps") ;; (Get "detectorPxls") ;;
  (Get "pupil_size") ;; (Put "detectorSubapCoords") ;; (Inv "setMask").

(* soapy/wfs/shackhartmann_legacy.py:105-117 setMask *)
Definition m_ShackHartmannLegacy_setMask : stmt :=
  (Sup "ShackHartmannLegacy" "setMask") ;; (Get "mask") ;; (Get "scaledEFieldSize") ;;
  (Put "scaledMask") ;; (Get "sim_pad") ;; (Get "subapCoords") ;; (Get "pupil_size") ;;
  (Get "wfsConfig") ;; (Put "subapFillFactor").

(* soapy/wfs/shackhartmann_legacy.py:120-165 initFFTs *)
Definition m_ShackHartmannLegacy_initFFTs : stmt :=
  (Get "wfsConfig") ;; (Put "subapFFTPadding") ;; (Get "subapFOVSpacing") ;;
  (Or
     ((Get "subapFFTPadding") ;; (Get "subapFOVSpacing") ;;
       (Loop
          ((Get "wfsConfig") ;; (Put "subapFFTPadding") ;; (Get "subapFOVSpacing"))) ;;
       (Get "wfsConfig"))
     Skip) ;;
  (Get "activeSubaps") ;; (Put "FFT") ;; (Get "lgsConfig") ;;
  (Cond "config.lgs"
     ((Get "lgsConfig") ;;
       (Cond "config.lgs.uplink"
          ((Get "activeSubaps") ;; (Get "subapFFTPadding") ;; (Get "wfsConfig") ;;
            (Put "iFFT") ;; (Put "lgs_iFFT"))
          Skip))
     Skip).

(* soapy/wfs/shackhartmann_legacy.py:168-177 initLGS *)
Definition m_ShackHartmannLegacy_initLGS : stmt :=
  (Sup "ShackHartmannLegacy" "initLGS") ;; (Get "lgsConfig") ;;
  (Cond "config.lgs.uplink"
     ((Get "lgsConfig") ;; (Get "config") ;; (Get "soapy_config") ;;
       (Get "subapFFTPadding") ;; (Put "lgs") ;; (Put "lgs is true"))
     Skip).

(* soapy/wfs/shackhartmann_legacy.py:180-209 allocDataArrays *)
Definition m_ShackHartmannLegacy_allocDataArrays : stmt :=
  (Get "los") ;; (Get "activeSubaps") ;; (Get "subapFOVSpacing") ;; (Put "subapArrays") ;;
  (Get "wfsConfig") ;; (Put "binnedFPSubapArrays") ;; (Get "subapFFTPadding") ;;
  (Put "FPSubapArrays") ;; (Get "detectorPxls") ;; (Put "wfsDetectorPlane") ;;
  (Get "config") ;; (Put "centSubapArrays") ;; (Put "slopes").

(* soapy/wfs/shackhartmann_legacy.py:212-233 calcTiltCorrect *)
Definition m_ShackHartmannLegacy_calcTiltCorrect : stmt :=
  (Get "wfsConfig") ;;
  (Or
     ((Get "subapFOVSpacing") ;; (Put "tiltFix"))
     ((Get "SUBAP_OVERSIZE") ;; (Get "subapFOVrad") ;; (Get "subapFFTPadding") ;;
       (Get "subapDiam") ;; (Get "wfsConfig") ;; (Get "subapFOVSpacing") ;; (Put "tiltFix"))).

(* soapy/wfs/shackhartmann_legacy.py:236-246 getStatic *)
Definition m_ShackHartmannLegacy_getStatic : stmt :=
  (Put "staticData") ;; (Get "screen_size") ;; (Inv "frame[iMatFrame=True][read=True]") ;;
  (Get "activeSubaps").

(* soapy/wfs/shackhartmann_legacy.py:250-265 zeroData[FP=True][detector=True] *)
Definition m_ShackHartmannLegacy_zeroData_FP_1__detector_1 : stmt :=
  (Inv "zeroPhaseData") ;; (Get "FPSubapArrays") ;; (Get "wfsDetectorPlane").

(* soapy/wfs/shackhartmann_legacy.py:250-265 zeroData[FP=True][detector=False] *)
Definition m_ShackHartmannLegacy_zeroData_FP_1__detector_0 : stmt :=
  (Inv "zeroPhaseData") ;; (Get "FPSubapArrays").

(* soapy/wfs/shackhartmann_legacy.py:250-265 zeroData[FP=False][detector=True] *)
Definition m_ShackHartmannLegacy_zeroData_FP_0__detector_1 : stmt :=
  (Inv "zeroPhaseData") ;; (Get "wfsDetectorPlane").

(* soapy/wfs/shackhartmann_legacy.py:250-265 zeroData[FP=False][detector=False] *)
Definition m_ShackHartmannLegacy_zeroData_FP_0__detector_0 : stmt :=
  Inv "zeroPhaseData".

(* soapy/wfs/shackhartmann_legacy.py:250-265 zeroData *)
Definition m_ShackHartmannLegacy_zeroData : stmt :=
  Or
    (Inv "zeroData[FP=True][detector=True]")
    (Or
        (Inv "zeroData[FP=True][detector=False]")
        (Or
            (Inv "zeroData[FP=False][detector=True]")
            (Inv "zeroData[FP=False][detector=False]"))).

(* soapy/wfs/shackhartmann_legacy.py:268-315 calcFocalPlane *)
Definition m_ShackHartmannLegacy_calcFocalPlane : stmt :=
  (Get "config") ;;
  (Or
     ((Get "los") ;; (Get "scaledEFieldSize"))
     (Get "EField")) ;;
  (Get "scaledMask") ;; (Get "scaledEFieldSize") ;; (Get "wfsConfig") ;;
  (Get "subapFOVSpacing") ;; (Put "cropEField") ;; (Get "activeSubaps") ;;
  (Loop
     ((Get "subapCoords") ;; (Get "subapFOVSpacing") ;; (Get "PPSpacing") ;;
       (Get "cropEField") ;; (Get "subapArrays"))) ;;
  (Get "FFT") ;; (Get "subapArrays") ;; (Get "tiltFix") ;; (Get "FPSubapArrays") ;;
  (Put "FPSubapArrays") ;; (Put "FPSubapsArrays").

(* soapy/wfs/shackhartmann_legacy.py:317-393 integrateDetectorPlane *)
Definition m_ShackHartmannLegacy_integrateDetectorPlane : stmt :=
  (Get "wfsConfig") ;;
  (Cond "config.lgs"
     ((Get "lgs") ;;
       (IfHas "lgs is true"
          (Or
              ((Get "lgsConfig") ;;
                (Cond "config.lgs.uplink"
                   ((Get "iMat") ;;
                     (Or
                        (Inv "applyLgsUplink")
                        Skip))
                   Skip))
              Skip)
          Skip))
     Skip) ;;
  (Get "FPSubapArrays") ;; (Get "binnedFPSubapArrays") ;; (Get "subapFillFactor") ;;
  (Put "binnedFPSubapArrays") ;; (Get "activeSubaps") ;;
  (Loop
     ((Get "detectorSubapCoords") ;; (Get "wfsConfig") ;;
       (Or
          (Get "wfsConfig")
          ((Get "detectorPxls") ;; (Get "wfsConfig") ;;
            (Or
               ((Get "detectorPxls") ;; (Get "wfsConfig"))
               Skip))) ;;
       (Or
          (Get "wfsConfig")
          ((Get "detectorPxls") ;; (Get "wfsConfig") ;;
            (Or
               ((Get "detectorPxls") ;; (Get "wfsConfig"))
               Skip))) ;;
       (Get "wfsDetectorPlane") ;; (Get "binnedFPSubapArrays"))).

(* soapy/wfs/shackhartmann_legacy.py:395-407 readDetectorPlane *)
Definition m_ShackHartmannLegacy_readDetectorPlane : stmt :=
  (Get "wfsDetectorPlane") ;; (Put "wfsDetectorPlane") ;; (Get "wfsConfig") ;;
  (Get "mask") ;; (Get "phase_scale") ;;
  (Or
     (Inv "addPhotonNoise")
     Skip) ;;
  (Or
     (Inv "addReadNoise")
     Skip).

(* soapy/wfs/shackhartmann_legacy.py:409-428 applyLgsUplink *)
Definition m_ShackHartmannLegacy_applyLgsUplink : stmt :=
  (Get "lgs") ;; (Get "los") ;; (Get "lgs_iFFT") ;; (Put "iFFTLGSPSF") ;;
  (Get "FPSubapArrays") ;; (Get "iFFT") ;; (Put "iFFTFPSubapsArray") ;; (Get "FFT").

(* soapy/wfs/shackhartmann_legacy.py:430-474 calculateSlopes[flat=True] *)
Definition m_ShackHartmannLegacy_calculateSlopes_flat_1 : stmt :=
  (Get "activeSubaps") ;;
  (Loop
     ((Get "detectorSubapCoords") ;; (Get "wfsDetectorPlane") ;; (Get "wfsConfig") ;;
       (Get "centSubapArrays"))) ;;
  (Get "wfsConfig") ;; (Get "centSubapArrays") ;; (Get "referenceImage") ;;
  (Get "staticData") ;;
  (Or
     (Get "staticData")
     Skip) ;;
  (Get "slopes") ;;
  (Or
     ((Get "slopes") ;; (Get "activeSubaps"))
     Skip) ;;
  (Or
     ((Get "iMat") ;;
       (IfHas "iMat is true"
          (Or
              Skip
              ((Get "wfsConfig") ;; (Get "slopes") ;; (Get "activeSubaps") ;;
                (Put "slopes")))
          ((Get "wfsConfig") ;; (Get "slopes") ;; (Get "activeSubaps") ;; (Put "slopes"))))
     Skip) ;;
  Ret.

(* soapy/wfs/shackhartmann_legacy.py:430-474 calculateSlopes[flat=False] *)
Definition m_ShackHartmannLegacy_calculateSlopes_flat_0 : stmt :=
  (Get "activeSubaps") ;;
  (Loop
     ((Get "detectorSubapCoords") ;; (Get "wfsDetectorPlane") ;; (Get "wfsConfig") ;;
       (Get "centSubapArrays"))) ;;
  (Get "wfsConfig") ;; (Get "centSubapArrays") ;; (Get "referenceImage") ;;
  (Get "staticData") ;;
  (Or
     (Get "staticData")
     Skip) ;;
  (Get "slopes") ;;
  (Or
     ((Get "slopes") ;; (Get "activeSubaps"))
     Skip) ;;
  (Or
     ((Get "iMat") ;;
       (IfHas "iMat is true"
          (Or
              Skip
              ((Get "wfsConfig") ;; (Get "slopes") ;; (Get "activeSubaps") ;;
                (Put "slopes")))
          ((Get "wfsConfig") ;; (Get "slopes") ;; (Get "activeSubaps") ;; (Put "slopes"))))
     Skip) ;;
  Ret.

(* soapy/wfs/shackhartmann_legacy.py:430-474 calculateSlopes *)
Definition m_ShackHartmannLegacy_calculateSlopes : stmt :=
  Or
    (Inv "calculateSlopes[flat=True]")
    (Inv "calculateSlopes[flat=False]").

(* soapy/wfs/shackhartmann_legacy.py:26-474 *)
Definition cls_ShackHartmannLegacy : cls :=
  {| c_name := "ShackHartmannLegacy";
     c_meth := [ ("calcInitParams", m_ShackHartmannLegacy_calcInitParams);
      ("findActiveSubaps", m_ShackHartmannLegacy_findActiveSubaps);
      ("setMask", m_ShackHartmannLegacy_setMask);
      ("initFFTs", m_ShackHartmannLegacy_initFFTs);
      ("initLGS", m_ShackHartmannLegacy_initLGS);
      ("allocDataArrays", m_ShackHartmannLegacy_allocDataArrays);
      ("calcTiltCorrect", m_ShackHartmannLegacy_calcTiltCorrect);
      ("getStatic", m_ShackHartmannLegacy_getStatic);
      ("zeroData[FP=True][detector=True]", m_ShackHartmannLegacy_zeroData_FP_1__detector_1);
      ("zeroData[FP=True][detector=False]", m_ShackHartmannLegacy_zeroData_FP_1__detector_0);
      ("zeroData[FP=False][detector=True]", m_ShackHartmannLegacy_zeroData_FP_0__detector_1);
      ("zeroData[FP=False][detector=False]", m_ShackHartmannLegacy_zeroData_FP_0__detector_0);
      ("zeroData", m_ShackHartmannLegacy_zeroData);
      ("calcFocalPlane", m_ShackHartmannLegacy_calcFocalPlane);
      ("integrateDetectorPlane", m_ShackHartmannLegacy_integrateDetectorPlane);
      ("readDetectorPlane", m_ShackHartmannLegacy_readDetectorPlane);
      ("applyLgsUplink", m_ShackHartmannLegacy_applyLgsUplink);
      ("calculateSlopes[flat=True]", m_ShackHartmannLegacy_calculateSlopes_flat_1);
      ("calculateSlopes[flat=False]", m_ShackHartmannLegacy_calculateSlopes_flat_0);
      ("calculateSlopes", m_ShackHartmannLegacy_calculateSlopes) ];
     c_get := [];
     c_set := [];
     c_attrs := [] |}.

(** ** Method resolution order of every class *)

(* soapy/DM.py:62 *)
Definition mro_DM : mro :=
  [cls_DM].

(* soapy/DM.py:231 *)
Definition mro_CustomShapes : mro :=
  [cls_CustomShapes; cls_DM].

(* soapy/DM.py:279 *)
Definition mro_KarhunenLoeve : mro :=
  [cls_KarhunenLoeve; cls_DM].

(* soapy/DM.py:306 *)
Definition mro_Zernike : mro :=
  [cls_Zernike; cls_DM].

(* soapy/DM.py:326 *)
Definition mro_Piezo : mro :=
  [cls_Piezo; cls_DM].

(* soapy/DM.py:411 *)
Definition mro_GaussStack : mro :=
  [cls_GaussStack; cls_Piezo; cls_DM].

(* soapy/DM.py:446 *)
Definition mro_TT : mro :=
  [cls_TT; cls_DM].

(* soapy/DM.py:482 *)
Definition mro_FastPiezo : mro :=
  [cls_FastPiezo; cls_Piezo; cls_DM].

(* soapy/LGS.py:35 *)
Definition mro_LGS : mro :=
  [cls_LGS].

(* soapy/LGS.py:122 *)
Definition mro_LGS_Geometric : mro :=
  [cls_LGS_Geometric; cls_LGS].

(* soapy/LGS.py:199 *)
Definition mro_LGS_Physical : mro :=
  [cls_LGS_Physical; cls_LGS].

(* soapy/atmosphere.py:74 *)
Definition mro_atmos : mro :=
  [cls_atmos].

(* soapy/lineofsight.py:46 *)
Definition mro_LineOfSight : mro :=
  [cls_LineOfSight].

(* soapy/lineofsight.py:490 *)
Definition mro_ElongLineOfSight : mro :=
  [cls_ElongLineOfSight].

(* soapy/reconstruction.py:42 *)
Definition mro_Reconstructor : mro :=
  [cls_Reconstructor].

(* soapy/reconstruction.py:449 *)
Definition mro_MVM : mro :=
  [cls_MVM; cls_Reconstructor].

(* soapy/reconstruction.py:468 *)
Definition mro_MVM_SeparateDMs : mro :=
  [cls_MVM_SeparateDMs; cls_Reconstructor].

(* soapy/reconstruction.py:510 *)
Definition mro_LearnAndApply : mro :=
  [cls_LearnAndApply; cls_MVM; cls_Reconstructor].

(* soapy/reconstruction.py:660 *)
Definition mro_LearnAndApplyLTAO : mro :=
  [cls_LearnAndApplyLTAO; cls_LearnAndApply; cls_MVM; cls_MVM_SeparateDMs; cls_Reconstructor].

(* soapy/reconstruction.py:767 *)
Definition mro_GLAO_4LGS : mro :=
  [cls_GLAO_4LGS; cls_MVM; cls_Reconstructor].

(* soapy/reconstruction.py:830 *)
Definition mro_WooferTweeter : mro :=
  [cls_WooferTweeter; cls_Reconstructor].

(* soapy/reconstruction.py:887 *)
Definition mro_LgsTT : mro :=
  [cls_LgsTT; cls_LearnAndApply; cls_MVM; cls_Reconstructor].

(* soapy/reconstruction.py:985 *)
Definition mro_ANN : mro :=
  [cls_ANN; cls_Reconstructor].

(* soapy/scienceinstrument.py:37 *)
Definition mro_PSFCamera : mro :=
  [cls_PSFCamera].

(* soapy/scienceinstrument.py:330 *)
Definition mro_singleModeFibre : mro :=
  [cls_singleModeFibre; cls_PSFCamera].

(* soapy/simulation.py:100 *)
Definition mro_Sim : mro :=
  [cls_Sim].

(* soapy/wfs/wfs.py:103 *)
Definition mro_WFS : mro :=
  [cls_WFS].

(* soapy/wfs/shackhartmann.py:39 *)
Definition mro_ShackHartmann : mro :=
  [cls_ShackHartmann; cls_WFS].

(* soapy/wfs/gradient.py:36 *)
Definition mro_Gradient : mro :=
  [cls_Gradient; cls_WFS].

(* soapy/wfs/pyramid.py:93 *)
Definition mro_Pyramid : mro :=
  [cls_Pyramid; cls_WFS].

(* soapy/wfs/extendedshackhartmann.py:33 *)
Definition mro_ExtendedSH : mro :=
  [cls_ExtendedSH; cls_ShackHartmann; cls_WFS].

(* soapy/wfs/zernike.py:15 *)
Definition mro_ZernikeWFS : mro :=
  [cls_ZernikeWFS; cls_WFS].

(* soapy/wfs/shackhartmann_legacy.py:26 *)
Definition mro_ShackHartmannLegacy : mro :=
  [cls_ShackHartmannLegacy; cls_WFS].

(* soapy/DM.py:62-228: what a user of DM can do with it: call its methods, use its properties *)
Definition public_DM : list stmt :=
  [Inv "getActiveActs"; Inv "dmFrame"; Inv "makeDMFrame"; Inv "reset";
   Inv "makeIMatShapes"; Get "valid_actuators"; Put "valid_actuators"].

(* soapy/DM.py:231-276: what a user of CustomShapes can do with it: call its methods, use its properties *)
Definition public_CustomShapes : list stmt :=
  [Inv "makeIMatShapes"; Inv "getActiveActs"; Inv "dmFrame"; Inv "makeDMFrame";
   Inv "reset"; Get "valid_actuators"; Put "valid_actuators"].

(* soapy/DM.py:279-303: what a user of KarhunenLoeve can do with it: call its methods, use its properties *)
Definition public_KarhunenLoeve : list stmt :=
  [Inv "makeIMatShapes"; Inv "getActiveActs"; Inv "dmFrame"; Inv "makeDMFrame";
   Inv "reset"; Get "valid_actuators"; Put "valid_actuators"].

(* soapy/DM.py:306-323: what a user of Zernike can do with it: call its methods, use its properties *)
Definition public_Zernike : list stmt :=
  [Inv "makeIMatShapes"; Inv "getActiveActs"; Inv "dmFrame"; Inv "makeDMFrame";
   Inv "reset"; Get "valid_actuators"; Put "valid_actuators"].

(* soapy/DM.py:326-406: what a user of Piezo can do with it: call its methods, use its properties *)
Definition public_Piezo : list stmt :=
  [Inv "getActiveActs"; Inv "makeIMatShapes"; Inv "dmFrame"; Inv "makeDMFrame";
   Inv "reset"; Get "valid_actuators"; Put "valid_actuators"].

(* soapy/DM.py:411-444: what a user of GaussStack can do with it: call its methods, use its properties *)
Definition public_GaussStack : list stmt :=
  [Inv "makeIMatShapes"; Inv "getActiveActs"; Inv "dmFrame"; Inv "makeDMFrame";
   Inv "reset"; Get "valid_actuators"; Put "valid_actuators"].

(* soapy/DM.py:446-479: what a user of TT can do with it: call its methods, use its properties *)
Definition public_TT : list stmt :=
  [Inv "getActiveActs"; Inv "makeIMatShapes"; Inv "dmFrame"; Inv "makeDMFrame";
   Inv "reset"; Get "valid_actuators"; Put "valid_actuators"].

(* soapy/DM.py:482-525: what a user of FastPiezo can do with it: call its methods, use its properties *)
Definition public_FastPiezo : list stmt :=
  [Inv "getActiveActs"; Inv "makeIMatShapes"; Inv "makeDMFrame"; Inv "dmFrame";
   Inv "reset"; Get "valid_actuators"; Put "valid_actuators"].

(* soapy/LGS.py:35-119: what a user of LGS can do with it: call its methods, use its properties *)
Definition public_LGS : list stmt :=
  [Inv "calcInitParams"; Inv "initFFTs"; Inv "initLos"; Inv "getLgsPsf"].

(* soapy/LGS.py:122-196: what a user of LGS_Geometric can do with it: call its methods, use its properties *)
Definition public_LGS_Geometric : list stmt :=
  [Inv "calcInitParams"; Inv "initFFTs"; Inv "getLgsPsf"; Inv "initLos"].

(* soapy/LGS.py:199-278: what a user of LGS_Physical can do with it: call its methods, use its properties *)
Definition public_LGS_Physical : list stmt :=
  [Inv "calcInitParams"; Inv "getLgsPsf"; Inv "initFFTs"; Inv "initLos"].

(* soapy/atmosphere.py:74-405: what a user of atmos can do with it: call its methods, use its properties *)
Definition public_atmos : list stmt :=
  [Inv "saveScrns"; Inv "moveScrns"; Inv "randomScrns"].

(* soapy/lineofsight.py:46-392: what a user of LineOfSight can do with it: call its methods, use its properties *)
Definition public_LineOfSight : list stmt :=
  [Inv "calcInitParams"; Inv "calculate_altitude_coords"; Inv "allocDataArrays"; Inv "zeroData";
   Inv "makePhase"; Inv "makePhaseGeometric"; Inv "makePhasePhys"; Inv "performCorrection";
   Inv "frame"; Get "height"; Get "position"; Put "height";
   Put "position"].

(* soapy/lineofsight.py:490-526: what a user of ElongLineOfSight can do with it: call its methods, use its properties *)
Definition public_ElongLineOfSight : list stmt :=
  [Inv "frame"; Inv "zeroData"; Get "scrns"].

(* soapy/reconstruction.py:42-446: what a user of Reconstructor can do with it: call its methods, use its properties *)
Definition public_Reconstructor : list stmt :=
  [Inv "find_closed_actuators"; Inv "saveCMat"; Inv "loadCMat"; Inv "save_interaction_matrix";
   Inv "load_interaction_matrix"; Inv "makeIMat"; Inv "make_dm_iMat"; Inv "get_dm_imat";
   Inv "makeCMat"; Inv "apply_gain"; Inv "reconstruct"; Inv "reset"].

(* soapy/reconstruction.py:449-465: what a user of MVM can do with it: call its methods, use its properties *)
Definition public_MVM : list stmt :=
  [Inv "calcCMat"; Inv "find_closed_actuators"; Inv "saveCMat"; Inv "loadCMat";
   Inv "save_interaction_matrix"; Inv "load_interaction_matrix"; Inv "makeIMat"; Inv "make_dm_iMat";
   Inv "get_dm_imat"; Inv "makeCMat"; Inv "apply_gain"; Inv "reconstruct";
   Inv "reset"].

(* soapy/reconstruction.py:468-507: what a user of MVM_SeparateDMs can do with it: call its methods, use its properties *)
Definition public_MVM_SeparateDMs : list stmt :=
  [Inv "calcCMat"; Inv "find_closed_actuators"; Inv "saveCMat"; Inv "loadCMat";
   Inv "save_interaction_matrix"; Inv "load_interaction_matrix"; Inv "makeIMat"; Inv "make_dm_iMat";
   Inv "get_dm_imat"; Inv "makeCMat"; Inv "apply_gain"; Inv "reconstruct";
   Inv "reset"].

(* soapy/reconstruction.py:510-657: what a user of LearnAndApply can do with it: call its methods, use its properties *)
Definition public_LearnAndApply : list stmt :=
  [Inv "makeIMat"; Inv "saveCMat"; Inv "loadCMat"; Inv "initControlMatrix";
   Inv "learn"; Inv "calcCMat"; Inv "reconstruct"; Inv "find_closed_actuators";
   Inv "save_interaction_matrix"; Inv "load_interaction_matrix"; Inv "make_dm_iMat"; Inv "get_dm_imat";
   Inv "makeCMat"; Inv "apply_gain"; Inv "reset"].

(* soapy/reconstruction.py:660-760: what a user of LearnAndApplyLTAO can do with it: call its methods, use its properties *)
Definition public_LearnAndApplyLTAO : list stmt :=
  [Inv "initcontrol_matrix"; Inv "calcCMat"; Inv "reconstruct"; Inv "makeIMat";
   Inv "saveCMat"; Inv "loadCMat"; Inv "initControlMatrix"; Inv "learn";
   Inv "find_closed_actuators"; Inv "save_interaction_matrix"; Inv "load_interaction_matrix"; Inv "make_dm_iMat";
   Inv "get_dm_imat"; Inv "makeCMat"; Inv "apply_gain"; Inv "reset"].

(* soapy/reconstruction.py:767-828: what a user of GLAO_4LGS can do with it: call its methods, use its properties *)
Definition public_GLAO_4LGS : list stmt :=
  [Inv "initControlMatrix"; Inv "reconstruct"; Inv "removeCommonTT"; Inv "calcCMat";
   Inv "find_closed_actuators"; Inv "saveCMat"; Inv "loadCMat"; Inv "save_interaction_matrix";
   Inv "load_interaction_matrix"; Inv "makeIMat"; Inv "make_dm_iMat"; Inv "get_dm_imat";
   Inv "makeCMat"; Inv "apply_gain"; Inv "reset"].

(* soapy/reconstruction.py:830-884: what a user of WooferTweeter can do with it: call its methods, use its properties *)
Definition public_WooferTweeter : list stmt :=
  [Inv "calcCMat"; Inv "find_closed_actuators"; Inv "saveCMat"; Inv "loadCMat";
   Inv "save_interaction_matrix"; Inv "load_interaction_matrix"; Inv "makeIMat"; Inv "make_dm_iMat";
   Inv "get_dm_imat"; Inv "makeCMat"; Inv "apply_gain"; Inv "reconstruct";
   Inv "reset"].

(* soapy/reconstruction.py:887-983: what a user of LgsTT can do with it: call its methods, use its properties *)
Definition public_LgsTT : list stmt :=
  [Inv "initControlMatrix"; Inv "calcCMat"; Inv "reconstruct"; Inv "removeCommonTT";
   Inv "makeIMat"; Inv "saveCMat"; Inv "loadCMat"; Inv "learn";
   Inv "find_closed_actuators"; Inv "save_interaction_matrix"; Inv "load_interaction_matrix"; Inv "make_dm_iMat";
   Inv "get_dm_imat"; Inv "makeCMat"; Inv "apply_gain"; Inv "reset"].

(* soapy/reconstruction.py:985-1031: what a user of ANN can do with it: call its methods, use its properties *)
Definition public_ANN : list stmt :=
  [Inv "calcCMat"; Inv "reconstruct"; Inv "find_closed_actuators"; Inv "saveCMat";
   Inv "loadCMat"; Inv "save_interaction_matrix"; Inv "load_interaction_matrix"; Inv "makeIMat";
   Inv "make_dm_iMat"; Inv "get_dm_imat"; Inv "makeCMat"; Inv "apply_gain";
   Inv "reset"].

(* soapy/scienceinstrument.py:37-327: what a user of PSFCamera can do with it: call its methods, use its properties *)
Definition public_PSFCamera : list stmt :=
  [Inv "reset"; Inv "setMask"; Inv "calcFocalPlane"; Inv "calcInstStrehl";
   Inv "calc_wavefronterror"; Inv "frame"].

(* soapy/scienceinstrument.py:330-353: what a user of singleModeFibre can do with it: call its methods, use its properties *)
Definition public_singleModeFibre : list stmt :=
  [Inv "fibreEfield"; Inv "refCouplingLoss"; Inv "calcInstStrehl"; Inv "reset";
   Inv "setMask"; Inv "calcFocalPlane"; Inv "calc_wavefronterror"; Inv "frame"].

(* soapy/simulation.py:100-1159: what a user of Sim can do with it: call its methods, use its properties *)
Definition public_Sim : list stmt :=
  [Inv "readParams"; Inv "setLoggingLevel"; Inv "aoinit"; Inv "makeIMat";
   Inv "runWfs_noMP"; Inv "runWfs_MP"; Inv "runDM"; Inv "runSciCams";
   Inv "loopFrame"; Inv "aoloop"; Inv "start_aoloop_thread"; Inv "stop_aoloop_thread";
   Inv "reset_loop"; Inv "finishUp"; Inv "initSaveData"; Inv "storeData";
   Inv "saveData"; Inv "makeSaveHeader"; Inv "getTimeStamp"; Inv "printOutput";
   Inv "addToGuiQueue"].

(* soapy/wfs/wfs.py:103-564: what a user of WFS can do with it: call its methods, use its properties *)
Definition public_WFS : list stmt :=
  [Inv "setMask"; Inv "calcInitParams"; Inv "initFFTs"; Inv "allocDataArrays";
   Inv "initLos"; Inv "initLGS"; Inv "calcTiltCorrect"; Inv "getStatic";
   Inv "calcElongPhaseAddition"; Inv "calcElongPos"; Inv "zeroPhaseData"; Inv "makeElongationFrame";
   Inv "frame"; Inv "simple_frame"; Inv "addPhotonNoise"; Inv "addReadNoise";
   Inv "calcFocalPlane"; Inv "integrateDetectorPlane"; Inv "readDetectorPlane"; Inv "LGSUplink";
   Inv "calculateSlopes"; Inv "zeroData"; Get "EField"; Put "EField"].

(* soapy/wfs/shackhartmann.py:39-480: what a user of ShackHartmann can do with it: call its methods, use its properties *)
Definition public_ShackHartmann : list stmt :=
  [Inv "calcInitParams"; Inv "initLos"; Inv "findActiveSubaps"; Inv "setMask";
   Inv "initFFTs"; Inv "initLGS"; Inv "allocDataArrays"; Inv "calcTiltCorrect";
   Inv "getStatic"; Inv "zeroData"; Inv "calcFocalPlane"; Inv "integrateDetectorPlane";
   Inv "readDetectorPlane"; Inv "applyLgsUplink"; Inv "calculateSlopes"; Inv "addPhotonNoise";
   Inv "addReadNoise"; Inv "calcElongPhaseAddition"; Inv "calcElongPos"; Inv "zeroPhaseData";
   Inv "makeElongationFrame"; Inv "frame"; Inv "simple_frame"; Inv "LGSUplink";
   Get "EField"; Put "EField"].

(* soapy/wfs/gradient.py:36-171: what a user of Gradient can do with it: call its methods, use its properties *)
Definition public_Gradient : list stmt :=
  [Inv "calcInitParams"; Inv "findActiveSubaps"; Inv "allocDataArrays"; Inv "calcFocalPlane";
   Inv "integrateDetectorPlane"; Inv "calculateSlopes"; Inv "setMask"; Inv "initFFTs";
   Inv "initLos"; Inv "initLGS"; Inv "calcTiltCorrect"; Inv "getStatic";
   Inv "calcElongPhaseAddition"; Inv "calcElongPos"; Inv "zeroPhaseData"; Inv "makeElongationFrame";
   Inv "frame"; Inv "simple_frame"; Inv "addPhotonNoise"; Inv "addReadNoise";
   Inv "readDetectorPlane"; Inv "LGSUplink"; Inv "zeroData"; Get "EField";
   Put "EField"].

(* soapy/wfs/pyramid.py:93-433: what a user of Pyramid can do with it: call its methods, use its properties *)
Definition public_Pyramid : list stmt :=
  [Inv "calcInitParams"; Inv "initFFTs"; Inv "calcCentroidMask"; Inv "calcDetectorMask";
   Inv "calcPyramidMask"; Inv "calcTipTiltModulationsPoints"; Inv "calcModulationMatrix"; Inv "calcFocalPlane";
   Inv "calculateSlopes"; Inv "addPhotonNoise"; Inv "addReadNoise"; Inv "calcFlatSlopes";
   Inv "setMask"; Inv "allocDataArrays"; Inv "initLos"; Inv "initLGS";
   Inv "calcTiltCorrect"; Inv "getStatic"; Inv "calcElongPhaseAddition"; Inv "calcElongPos";
   Inv "zeroPhaseData"; Inv "makeElongationFrame"; Inv "frame"; Inv "simple_frame";
   Inv "integrateDetectorPlane"; Inv "readDetectorPlane"; Inv "LGSUplink"; Inv "zeroData";
   Get "EField"; Put "EField"].

(* soapy/wfs/extendedshackhartmann.py:33-251: what a user of ExtendedSH can do with it: call its methods, use its properties *)
Definition public_ExtendedSH : list stmt :=
  [Inv "calcInitParams"; Inv "initFFTs"; Inv "allocDataArrays"; Inv "integrateDetectorPlane";
   Inv "makeCorrelationImgs"; Inv "calculateSlopes"; Inv "initLos"; Inv "findActiveSubaps";
   Inv "setMask"; Inv "initLGS"; Inv "calcTiltCorrect"; Inv "getStatic";
   Inv "zeroData"; Inv "calcFocalPlane"; Inv "readDetectorPlane"; Inv "applyLgsUplink";
   Inv "addPhotonNoise"; Inv "addReadNoise"; Inv "calcElongPhaseAddition"; Inv "calcElongPos";
   Inv "zeroPhaseData"; Inv "makeElongationFrame"; Inv "frame"; Inv "simple_frame";
   Inv "LGSUplink"; Get "referenceImage"; Get "extendedObject"; Put "referenceImage";
   Put "extendedObject"; Get "EField"; Put "EField"].

(* soapy/wfs/zernike.py:15-67: what a user of ZernikeWFS can do with it: call its methods, use its properties *)
Definition public_ZernikeWFS : list stmt :=
  [Inv "calcInitParams"; Inv "allocDataArrays"; Inv "integrateDetectorPlane"; Inv "readDetectorPlane";
   Inv "calculateSlopes"; Inv "zeroData"; Inv "setMask"; Inv "initFFTs";
   Inv "initLos"; Inv "initLGS"; Inv "calcTiltCorrect"; Inv "getStatic";
   Inv "calcElongPhaseAddition"; Inv "calcElongPos"; Inv "zeroPhaseData"; Inv "makeElongationFrame";
   Inv "frame"; Inv "simple_frame"; Inv "addPhotonNoise"; Inv "addReadNoise";
   Inv "calcFocalPlane"; Inv "LGSUplink"; Get "EField"; Put "EField"].

(* soapy/wfs/shackhartmann_legacy.py:26-474: what a user of ShackHartmannLegacy can do with it: call its methods, use its properties *)
Definition public_ShackHartmannLegacy : list stmt :=
  [Inv "calcInitParams"; Inv "findActiveSubaps"; Inv "setMask"; Inv "initFFTs";
   Inv "initLGS"; Inv "allocDataArrays"; Inv "calcTiltCorrect"; Inv "getStatic";
   Inv "zeroData"; Inv "calcFocalPlane"; Inv "integrateDetectorPlane"; Inv "readDetectorPlane";
   Inv "applyLgsUplink"; Inv "calculateSlopes"; Inv "initLos"; Inv "calcElongPhaseAddition";
   Inv "calcElongPos"; Inv "zeroPhaseData"; Inv "makeElongationFrame"; Inv "frame";
   Inv "simple_frame"; Inv "addPhotonNoise"; Inv "addReadNoise"; Inv "LGSUplink";
   Get "EField"; Put "EField"].


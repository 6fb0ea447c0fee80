(** C115-C117, C120-C122: which attributes the simulation's objects have when,
    over every configuration switch and every history of calls. *)
From Coq Require Import List String Bool.
From Verif Require Import Model.Attrs Model.AttrsCode Spec.AttrsSpec Proofs.AttrsProofs
  Proofs.AttrsMore Proofs.AttrsTac.
Import ListNotations.
Open Scope string_scope.

(** ** C115: guide stars, the atmosphere, elongated light paths, science cameras *)
Theorem C115_lgs_atmos_science_complete : forall rho,
  clean rho mro_LGS new public_LGS /\
  clean rho mro_LGS_Geometric new public_LGS_Geometric /\
  clean rho mro_LGS_Physical new public_LGS_Physical /\
  clean rho mro_atmos new public_atmos /\
  clean rho mro_ElongLineOfSight new public_ElongLineOfSight /\
  clean rho mro_PSFCamera new public_PSFCamera /\
  clean rho mro_singleModeFibre new public_singleModeFibre.
Proof.
  assert (H1 : forall rho, clean rho mro_LGS new public_LGS) by by_check no nimp.
  assert (H2 : forall rho, clean rho mro_LGS_Geometric new public_LGS_Geometric) by by_check no nimp.
  assert (H3 : forall rho, clean rho mro_LGS_Physical new public_LGS_Physical) by by_check no nimp.
  assert (H4 : forall rho, clean rho mro_atmos new public_atmos) by by_check ["config.infinite"] nimp.
  assert (H5 : forall rho, clean rho mro_ElongLineOfSight new public_ElongLineOfSight) by by_check no nimp.
  assert (H6 : forall rho, clean rho mro_PSFCamera new public_PSFCamera) by by_check no nimp.
  assert (H7 : forall rho, clean rho mro_singleModeFibre new public_singleModeFibre) by by_check no nimp.
  intros rho. exact (conj (H1 rho) (conj (H2 rho) (conj (H3 rho) (conj (H4 rho) (conj (H5 rho) (conj (H6 rho) (H7 rho))))))).
Qed.
Print Assumptions C115_lgs_atmos_science_complete.

(* each of them can be built and used *)
Example C115_instance :
  startable [] mro_LGS_Physical (new ++ [Inv "getLgsPsf"])%list /\
  startable ["config.infinite"] mro_atmos (new ++ [Inv "moveScrns"; Inv "moveScrns"])%list /\
  startable [] mro_PSFCamera (new ++ [Inv "frame"; Inv "reset"; Inv "frame"])%list /\
  startable [] mro_singleModeFibre (new ++ [Inv "frame"])%list.
Proof.
  repeat split.
  - by_run [(Inv "__init__", nb); (Inv "getLgsPsf", [])] nb.
  - by_run [(Inv "__init__", nb); (Inv "moveScrns", []); (Inv "moveScrns", [])] nb.
  - by_run [(Inv "__init__", nb); (Inv "frame", []); (Inv "reset", []); (Inv "frame", [])] nb.
  - by_run [(Inv "__init__", nb); (Inv "frame", [])] nb.
Qed.
(** ** C116: deformable mirrors.  Full property: any use of a mirror that was
    built is free of missing attributes.  REFUTED: [reset] before the first frame
    reads the shape no frame has made yet. *)
Theorem C116_mirrors_complete_partial : forall rho,
  clean rho mro_DM new (except ["reset"] public_DM) /\
  clean rho mro_CustomShapes new (except ["reset"] public_CustomShapes) /\
  clean rho mro_Zernike new (except ["reset"] public_Zernike) /\
  clean rho mro_GaussStack new (except ["reset"] public_GaussStack) /\
  clean rho mro_TT new (except ["reset"] public_TT) /\
  clean rho mro_FastPiezo new (except ["reset"] public_FastPiezo) /\
  clean rho mro_DM (new ++ [Inv "dmFrame"])%list public_DM /\
  clean rho mro_CustomShapes (new ++ [Inv "dmFrame"])%list public_CustomShapes /\
  clean rho mro_Zernike (new ++ [Inv "dmFrame"])%list public_Zernike /\
  clean rho mro_GaussStack (new ++ [Inv "dmFrame"])%list public_GaussStack /\
  clean rho mro_TT (new ++ [Inv "dmFrame"])%list public_TT /\
  clean rho mro_FastPiezo (new ++ [Inv "dmFrame"])%list public_FastPiezo.
Proof.
  assert (H0 : forall rho, clean rho mro_DM new (except ["reset"] public_DM)) by by_check no nimp.
  assert (H1 : forall rho, clean rho mro_CustomShapes new (except ["reset"] public_CustomShapes)) by by_check no nimp.
  assert (H2 : forall rho, clean rho mro_Zernike new (except ["reset"] public_Zernike)) by by_check no nimp.
  assert (H3 : forall rho, clean rho mro_GaussStack new (except ["reset"] public_GaussStack)) by by_check no nimp.
  assert (H4 : forall rho, clean rho mro_TT new (except ["reset"] public_TT)) by by_check no nimp.
  assert (H5 : forall rho, clean rho mro_FastPiezo new (except ["reset"] public_FastPiezo)) by by_check no nimp.
  assert (H6 : forall rho, clean rho mro_DM (new ++ [Inv "dmFrame"])%list public_DM) by by_check no nimp.
  assert (H7 : forall rho, clean rho mro_CustomShapes (new ++ [Inv "dmFrame"])%list public_CustomShapes) by by_check no nimp.
  assert (H8 : forall rho, clean rho mro_Zernike (new ++ [Inv "dmFrame"])%list public_Zernike) by by_check no nimp.
  assert (H9 : forall rho, clean rho mro_GaussStack (new ++ [Inv "dmFrame"])%list public_GaussStack) by by_check no nimp.
  assert (H10 : forall rho, clean rho mro_TT (new ++ [Inv "dmFrame"])%list public_TT) by by_check no nimp.
  assert (H11 : forall rho, clean rho mro_FastPiezo (new ++ [Inv "dmFrame"])%list public_FastPiezo) by by_check no nimp.
  intros rho. exact (conj (H0 rho) (conj (H1 rho) (conj (H2 rho) (conj (H3 rho) (conj (H4 rho) (conj (H5 rho) (conj (H6 rho) (conj (H7 rho) (conj (H8 rho) (conj (H9 rho) (conj (H10 rho) (H11 rho)))))))))))).
Qed.
Print Assumptions C116_mirrors_complete_partial.

Theorem C116_reset_before_frame_refuted : forall rho,
  never_returns rho mro_DM new (Inv "reset") /\
  never_returns rho mro_CustomShapes new (Inv "reset") /\
  never_returns rho mro_Zernike new (Inv "reset") /\
  never_returns rho mro_GaussStack new (Inv "reset") /\
  never_returns rho mro_TT new (Inv "reset") /\
  never_returns rho mro_FastPiezo new (Inv "reset").
Proof.
  assert (H0 : forall rho, never_returns rho mro_DM new (Inv "reset")) by by_stuck no.
  assert (H1 : forall rho, never_returns rho mro_CustomShapes new (Inv "reset")) by by_stuck no.
  assert (H2 : forall rho, never_returns rho mro_Zernike new (Inv "reset")) by by_stuck no.
  assert (H3 : forall rho, never_returns rho mro_GaussStack new (Inv "reset")) by by_stuck no.
  assert (H4 : forall rho, never_returns rho mro_TT new (Inv "reset")) by by_stuck no.
  assert (H5 : forall rho, never_returns rho mro_FastPiezo new (Inv "reset")) by by_stuck no.
  intros rho. exact (conj (H0 rho) (conj (H1 rho) (conj (H2 rho) (conj (H3 rho) (conj (H4 rho) (H5 rho)))))).
Qed.
Print Assumptions C116_reset_before_frame_refuted.

Example C116_instance :
  startable [] mro_DM (new ++ [Inv "dmFrame"; Inv "reset"; Inv "dmFrame"])%list /\
  startable [] mro_CustomShapes (new ++ [Inv "dmFrame"; Inv "reset"; Inv "dmFrame"])%list /\
  startable [] mro_Zernike (new ++ [Inv "dmFrame"; Inv "reset"; Inv "dmFrame"])%list /\
  startable [] mro_GaussStack (new ++ [Inv "dmFrame"; Inv "reset"; Inv "dmFrame"])%list /\
  startable [] mro_TT (new ++ [Inv "dmFrame"; Inv "reset"; Inv "dmFrame"])%list /\
  startable [] mro_FastPiezo (new ++ [Inv "dmFrame"; Inv "reset"; Inv "dmFrame"])%list.
Proof.
  repeat split.
  - by_run [(Inv "__init__", nb); (Inv "dmFrame", nb); (Inv "reset", nb); (Inv "dmFrame", nb)] nb.
  - by_run [(Inv "__init__", nb); (Inv "dmFrame", nb); (Inv "reset", nb); (Inv "dmFrame", nb)] nb.
  - by_run [(Inv "__init__", nb); (Inv "dmFrame", nb); (Inv "reset", nb); (Inv "dmFrame", nb)] nb.
  - by_run [(Inv "__init__", nb); (Inv "dmFrame", nb); (Inv "reset", nb); (Inv "dmFrame", nb)] nb.
  - by_run [(Inv "__init__", nb); (Inv "dmFrame", nb); (Inv "reset", nb); (Inv "dmFrame", nb)] nb.
  - by_run [(Inv "__init__", nb); (Inv "dmFrame", nb); (Inv "reset", nb); (Inv "dmFrame", nb)] nb.
Qed.

(* a stack mirror as large as its screen (DM.py:392-393) and a Karhunen-Loeve
   mirror of over 1000 modes (DM.py:296) stop in their constructor *)
Theorem C116_construction_refuted :
  can_end [] mro_Piezo [] (Inv "__init__") (MissA "dm_shape") /\
  can_end [] mro_KarhunenLoeve [] (Inv "__init__") (MissA "nacts").
Proof.
  split.
  - by_run (@nil (stmt * list bool)) [false; false; false; true].
  - by_run (@nil (stmt * list bool)) nb.
Qed.
Print Assumptions C116_construction_refuted.

(** ** C117: lines of sight.  Full property: as C115.  REFUTED: [makePhase]
    before the first [frame] reads screens no frame has supplied. *)
Theorem C117_line_of_sight_complete_partial : forall rho,
  clean rho mro_LineOfSight new (except ["makePhase"] public_LineOfSight) /\
  clean rho mro_LineOfSight (new ++ [Inv "frame"])%list public_LineOfSight.
Proof.
  assert (H0 : forall rho, clean rho mro_LineOfSight new (except ["makePhase"] public_LineOfSight)) by by_check no nimp.
  assert (H1 : forall rho, clean rho mro_LineOfSight (new ++ [Inv "frame"])%list public_LineOfSight) by by_check no nimp.
  intros rho. exact (conj (H0 rho) (H1 rho)).
Qed.
Print Assumptions C117_line_of_sight_complete_partial.

Example C117_instance :
  startable [] mro_LineOfSight (new ++ [Inv "frame"; Inv "makePhase"; Inv "frame"])%list.
Proof.
  by_run [(Inv "__init__", nb); (Inv "frame", nb); (Inv "makePhase", nb); (Inv "frame", nb)] nb.
Qed.

Theorem C117_makePhase_first_refuted : forall rho,
  lacks rho mro_LineOfSight new (except ["frame"] public_LineOfSight) "scrns".
Proof.
  assert (H0 : forall rho, lacks rho mro_LineOfSight new (except ["frame"] public_LineOfSight) "scrns") by by_lacks no.
  intros rho. exact (H0 rho).
Qed.
Print Assumptions C117_makePhase_first_refuted.

(** ** C120: two of the sensors cannot be built at all *)
Theorem C120_unbuildable : forall rho,
  never_returns rho mro_ZernikeWFS [] (Inv "__init__") /\
  never_returns rho mro_ExtendedSH [] (Inv "__init__").
Proof.
  assert (H0 : forall rho, never_returns rho mro_ZernikeWFS [] (Inv "__init__")) by by_stuck sensor_switches.
  assert (H1 : forall rho, never_returns rho mro_ExtendedSH [] (Inv "__init__")) by by_stuck sensor_switches.
  intros rho. exact (conj (H0 rho) (H1 rho)).
Qed.
Print Assumptions C120_unbuildable.

Example C120_instance :
  can_end [] mro_ZernikeWFS [] (Inv "__init__") (MissN "base") /\
  can_end [] mro_ExtendedSH [] (Inv "__init__") (MissA "activeSubaps").
Proof.
  split.
  - by_run (@nil (stmt * list bool)) nb.
  - by_run (@nil (stmt * list bool)) nb.
Qed.

(** ** C121: reconstructors.  Full property: as C115.  REFUTED before the
    calibration (the base class, GLAO and neural-net ones even after it). *)

Theorem C121_reconstructors_complete_partial : forall rho,
  clean rho mro_MVM new (except calibrated_steps public_MVM) /\
  clean rho mro_MVM_SeparateDMs new (except calibrated_steps public_MVM_SeparateDMs) /\
  clean rho mro_WooferTweeter new (except calibrated_steps public_WooferTweeter) /\
  clean rho mro_GLAO_4LGS new (except calibrated_steps public_GLAO_4LGS) /\
  clean rho mro_LearnAndApply new (except (calibrated_steps ++ ["reconstruct"; "saveCMat"])%list public_LearnAndApply) /\
  clean rho mro_LearnAndApplyLTAO new (except (calibrated_steps ++ ["reconstruct"; "saveCMat"])%list public_LearnAndApplyLTAO) /\
  clean rho mro_LgsTT new (except (calibrated_steps ++ ["reconstruct"; "saveCMat"])%list public_LgsTT) /\
  clean rho mro_ANN new (except (calibrated_steps ++ ["reconstruct"; "saveCMat"])%list public_ANN) /\
  clean rho mro_MVM (new ++ [Inv "makeCMat"])%list (except ["apply_gain"] public_MVM) /\
  clean rho mro_MVM_SeparateDMs (new ++ [Inv "makeCMat"])%list (except ["apply_gain"] public_MVM_SeparateDMs) /\
  clean rho mro_WooferTweeter (new ++ [Inv "makeCMat"])%list (except ["apply_gain"] public_WooferTweeter) /\
  clean rho mro_GLAO_4LGS (new ++ [Inv "makeCMat"])%list (except ["apply_gain"] public_GLAO_4LGS) /\
  clean rho mro_LearnAndApply (new ++ [Inv "makeCMat"])%list (except ["apply_gain"] public_LearnAndApply) /\
  clean rho mro_LearnAndApplyLTAO (new ++ [Inv "makeCMat"])%list (except ["apply_gain"] public_LearnAndApplyLTAO) /\
  clean rho mro_LgsTT (new ++ [Inv "makeCMat"])%list (except ["apply_gain"] public_LgsTT).
Proof.
  assert (H0 : forall rho, clean rho mro_MVM new (except calibrated_steps public_MVM)) by by_check no nimp.
  assert (H1 : forall rho, clean rho mro_MVM_SeparateDMs new (except calibrated_steps public_MVM_SeparateDMs)) by by_check no nimp.
  assert (H2 : forall rho, clean rho mro_WooferTweeter new (except calibrated_steps public_WooferTweeter)) by by_check no nimp.
  assert (H3 : forall rho, clean rho mro_GLAO_4LGS new (except calibrated_steps public_GLAO_4LGS)) by by_check no nimp.
  assert (H4 : forall rho, clean rho mro_LearnAndApply new (except (calibrated_steps ++ ["reconstruct"; "saveCMat"])%list public_LearnAndApply)) by by_check no nimp.
  assert (H5 : forall rho, clean rho mro_LearnAndApplyLTAO new (except (calibrated_steps ++ ["reconstruct"; "saveCMat"])%list public_LearnAndApplyLTAO)) by by_check no nimp.
  assert (H6 : forall rho, clean rho mro_LgsTT new (except (calibrated_steps ++ ["reconstruct"; "saveCMat"])%list public_LgsTT)) by by_check no nimp.
  assert (H7 : forall rho, clean rho mro_ANN new (except (calibrated_steps ++ ["reconstruct"; "saveCMat"])%list public_ANN)) by by_check no nimp.
  assert (H8 : forall rho, clean rho mro_MVM (new ++ [Inv "makeCMat"])%list (except ["apply_gain"] public_MVM)) by by_check no nimp.
  assert (H9 : forall rho, clean rho mro_MVM_SeparateDMs (new ++ [Inv "makeCMat"])%list (except ["apply_gain"] public_MVM_SeparateDMs)) by by_check no nimp.
  assert (H10 : forall rho, clean rho mro_WooferTweeter (new ++ [Inv "makeCMat"])%list (except ["apply_gain"] public_WooferTweeter)) by by_check no nimp.
  assert (H11 : forall rho, clean rho mro_GLAO_4LGS (new ++ [Inv "makeCMat"])%list (except ["apply_gain"] public_GLAO_4LGS)) by by_check no nimp.
  assert (H12 : forall rho, clean rho mro_LearnAndApply (new ++ [Inv "makeCMat"])%list (except ["apply_gain"] public_LearnAndApply)) by by_check no nimp.
  assert (H13 : forall rho, clean rho mro_LearnAndApplyLTAO (new ++ [Inv "makeCMat"])%list (except ["apply_gain"] public_LearnAndApplyLTAO)) by by_check no nimp.
  assert (H14 : forall rho, clean rho mro_LgsTT (new ++ [Inv "makeCMat"])%list (except ["apply_gain"] public_LgsTT)) by by_check no nimp.
  intros rho. exact (conj (H0 rho) (conj (H1 rho) (conj (H2 rho) (conj (H3 rho) (conj (H4 rho) (conj (H5 rho) (conj (H6 rho) (conj (H7 rho) (conj (H8 rho) (conj (H9 rho) (conj (H10 rho) (conj (H11 rho) (conj (H12 rho) (conj (H13 rho) (H14 rho))))))))))))))).
Qed.
Print Assumptions C121_reconstructors_complete_partial.

Example C121_instance :
  startable [] mro_MVM (new ++ [Inv "makeCMat"; Inv "reconstruct"; Inv "reset"; Inv "reconstruct"])%list /\
  startable [] mro_MVM_SeparateDMs (new ++ [Inv "makeCMat"; Inv "reconstruct"; Inv "reset"; Inv "reconstruct"])%list /\
  startable [] mro_WooferTweeter (new ++ [Inv "makeCMat"; Inv "reconstruct"; Inv "reset"; Inv "reconstruct"])%list /\
  startable [] mro_LearnAndApply (new ++ [Inv "makeCMat"; Inv "reconstruct"; Inv "reset"; Inv "reconstruct"])%list /\
  startable [] mro_LearnAndApplyLTAO (new ++ [Inv "makeCMat"; Inv "reconstruct"; Inv "reset"; Inv "reconstruct"])%list /\
  startable [] mro_LgsTT (new ++ [Inv "makeCMat"; Inv "reconstruct"; Inv "reset"; Inv "reconstruct"])%list.
Proof.
  repeat split.
  - by_run [(Inv "__init__", nb); (Inv "makeCMat", nb); (Inv "reconstruct", nb); (Inv "reset", nb); (Inv "reconstruct", nb)] nb.
  - by_run [(Inv "__init__", nb); (Inv "makeCMat", nb); (Inv "reconstruct", nb); (Inv "reset", nb); (Inv "reconstruct", nb)] nb.
  - by_run [(Inv "__init__", nb); (Inv "makeCMat", nb); (Inv "reconstruct", nb); (Inv "reset", nb); (Inv "reconstruct", nb)] nb.
  - by_run [(Inv "__init__", nb); (Inv "makeCMat", nb); (Inv "reconstruct", nb); (Inv "reset", nb); (Inv "reconstruct", nb)] nb.
  - by_run [(Inv "__init__", nb); (Inv "makeCMat", nb); (Inv "reconstruct", nb); (Inv "reset", nb); (Inv "reconstruct", nb)] nb.
  - by_run [(Inv "__init__", nb); (Inv "makeCMat", nb); (Inv "reconstruct", nb); (Inv "reset", nb); (Inv "reconstruct", nb)] nb.
Qed.

Theorem C121_reconstruct_refuted : forall rho,
  never_returns rho mro_GLAO_4LGS (new ++ [Inv "makeCMat"])%list (Inv "reconstruct") /\
  never_returns rho mro_ANN (new ++ [Inv "makeCMat"])%list (Inv "reconstruct") /\
  never_returns rho mro_Reconstructor new (Inv "calcCMat") /\
  never_returns rho mro_MVM new (Inv "calcCMat") /\
  never_returns rho mro_LearnAndApply new (Inv "calcCMat").
Proof.
  assert (H0 : forall rho, never_returns rho mro_GLAO_4LGS (new ++ [Inv "makeCMat"])%list (Inv "reconstruct")) by by_stuck no.
  assert (H1 : forall rho, never_returns rho mro_ANN (new ++ [Inv "makeCMat"])%list (Inv "reconstruct")) by by_stuck no.
  assert (H2 : forall rho, never_returns rho mro_Reconstructor new (Inv "calcCMat")) by by_stuck no.
  assert (H3 : forall rho, never_returns rho mro_MVM new (Inv "calcCMat")) by by_stuck no.
  assert (H4 : forall rho, never_returns rho mro_LearnAndApply new (Inv "calcCMat")) by by_stuck no.
  intros rho. exact (conj (H0 rho) (conj (H1 rho) (conj (H2 rho) (conj (H3 rho) (H4 rho))))).
Qed.
Print Assumptions C121_reconstruct_refuted.

(* save_interaction_matrix means to write the mirrors' shapes too, but takes the
   header from an attribute that never exists and swallows the error
   (reconstruction.py:184-192), so they are never written *)
Theorem C121_shapes_never_saved : forall rho,
  lacks rho mro_Reconstructor new public_Reconstructor "simConfig" /\
  lacks rho mro_MVM new public_MVM "simConfig" /\
  lacks rho mro_MVM_SeparateDMs new public_MVM_SeparateDMs "simConfig" /\
  lacks rho mro_WooferTweeter new public_WooferTweeter "simConfig" /\
  lacks rho mro_GLAO_4LGS new public_GLAO_4LGS "simConfig" /\
  lacks rho mro_LearnAndApply new public_LearnAndApply "simConfig" /\
  lacks rho mro_LearnAndApplyLTAO new public_LearnAndApplyLTAO "simConfig" /\
  lacks rho mro_LgsTT new public_LgsTT "simConfig" /\
  lacks rho mro_ANN new public_ANN "simConfig".
Proof.
  assert (H0 : forall rho, lacks rho mro_Reconstructor new public_Reconstructor "simConfig") by by_lacks no.
  assert (H1 : forall rho, lacks rho mro_MVM new public_MVM "simConfig") by by_lacks no.
  assert (H2 : forall rho, lacks rho mro_MVM_SeparateDMs new public_MVM_SeparateDMs "simConfig") by by_lacks no.
  assert (H3 : forall rho, lacks rho mro_WooferTweeter new public_WooferTweeter "simConfig") by by_lacks no.
  assert (H4 : forall rho, lacks rho mro_GLAO_4LGS new public_GLAO_4LGS "simConfig") by by_lacks no.
  assert (H5 : forall rho, lacks rho mro_LearnAndApply new public_LearnAndApply "simConfig") by by_lacks no.
  assert (H6 : forall rho, lacks rho mro_LearnAndApplyLTAO new public_LearnAndApplyLTAO "simConfig") by by_lacks no.
  assert (H7 : forall rho, lacks rho mro_LgsTT new public_LgsTT "simConfig") by by_lacks no.
  assert (H8 : forall rho, lacks rho mro_ANN new public_ANN "simConfig") by by_lacks no.
  intros rho. exact (conj (H0 rho) (conj (H1 rho) (conj (H2 rho) (conj (H3 rho) (conj (H4 rho) (conj (H5 rho) (conj (H6 rho) (conj (H7 rho) (H8 rho))))))))).
Qed.
Print Assumptions C121_shapes_never_saved.

(** ** C122: the simulation object.  Full property: after construction and
    [aoinit], any use is free of missing attributes.  REFUTED: with data being
    saved, no science camera and Strehl or wavefront error wanted, the run fails
    when it comes to save. *)
Local Definition thread_imp := [("_sim_running is true", "_loop_thread")].

Lemma records_exist_restrict rho : records_exist rho = true ->
  records_exist (restrict sim_switches rho) = true.
Proof.
  unfold records_exist. rewrite <- !restrict_agree; [auto|..]; cbn; tauto.
Qed.

Theorem C122_simulation_complete_partial : forall rho, records_exist rho = true ->
  clean rho mro_Sim sim_ready (except looped public_Sim) /\
  clean rho mro_Sim (sim_ready ++ [Inv "loopFrame"])%list (except ["readParams"] public_Sim).
Proof.
  intros rho H. apply records_exist_restrict in H. split.
  - exact (proj1 (check_all_sound 400 40 sim_switches records_exist mro_Sim thread_imp sim_ready
      (except looped public_Sim) no rho ltac:(vm_compute; reflexivity) H)).
  - exact (proj1 (check_all_sound 400 40 sim_switches records_exist mro_Sim thread_imp
      (sim_ready ++ [Inv "loopFrame"])%list
      (except ["readParams"] public_Sim) no rho ltac:(vm_compute; reflexivity) H)).
Qed.
Print Assumptions C122_simulation_complete_partial.

Example C122_instance :
  records_exist sim_switches = true /\
  startable sim_switches mro_Sim (sim_ready ++ [Inv "makeIMat"; Inv "aoloop"; Inv "reset_loop"; Inv "aoloop"])%list /\
  startable [] mro_Sim (sim_ready ++ [Inv "makeIMat"; Inv "aoloop"])%list.
Proof.
  repeat split.
  - by_run [(Inv "__init__", nb); (Inv "aoinit", nb); (Inv "makeIMat", nb); (Inv "aoloop", nb); (Inv "reset_loop", nb); (Inv "aoloop", nb)] nb.
  - by_run [(Inv "__init__", nb); (Inv "aoinit", nb); (Inv "makeIMat", nb); (Inv "aoloop", nb)] nb.
Qed.

(* what makes saving fail *)
Definition records_missing (rho : list string) : bool :=
  negb (mem "config.sim.nSci > 0" rho) && mem "config.sim.simName != None" rho
  && (mem "config.sim.saveWfe" rho || mem "config.sim.saveStrehl" rho).
Lemma records_missing_iff rho : records_missing rho = negb (records_exist rho).
Proof.
  unfold records_missing, records_exist.
  destruct (mem "config.sim.nSci > 0" rho), (mem "config.sim.simName != None" rho),
    (mem "config.sim.saveWfe" rho), (mem "config.sim.saveStrehl" rho); reflexivity.
Qed.
Lemma records_missing_restrict rho : records_missing rho = true ->
  records_missing (restrict sim_switches rho) = true.
Proof.
  unfold records_missing. rewrite <- !restrict_agree; [auto|..]; cbn; tauto.
Qed.

Theorem C122_saving_without_camera_refuted : forall rho, records_exist rho = false ->
  never_returns rho mro_Sim sim_ready (Inv "saveData") /\
  never_returns rho mro_Sim sim_ready (Inv "aoloop").
Proof.
  intros rho H. assert (HM : records_missing rho = true) by (rewrite records_missing_iff, H; reflexivity).
  apply records_missing_restrict in HM. split; intros S S'.
  - exact (stuck_all_sound 400 40 sim_switches records_missing mro_Sim sim_ready (Inv "saveData")
      rho S S' ltac:(vm_compute; reflexivity) HM).
  - exact (stuck_all_sound 400 40 sim_switches records_missing mro_Sim sim_ready (Inv "aoloop")
      rho S S' ltac:(vm_compute; reflexivity) HM).
Qed.
Print Assumptions C122_saving_without_camera_refuted.

Example C122_refuted_instance :
  records_exist ["config.sim.simName != None"; "config.sim.saveWfe"] = false /\
  startable ["config.sim.simName != None"; "config.sim.saveWfe"] mro_Sim sim_ready /\
  can_end ["config.sim.simName != None"; "config.sim.saveWfe"] mro_Sim sim_ready
    (Inv "aoloop") (MissA "WFE").
Proof.
  split; [reflexivity|]. split.
  - by_run [(Inv "__init__", nb); (Inv "aoinit", nb)] nb.
  - by_run [(Inv "__init__", nb); (Inv "aoinit", nb)] nb.
Qed.


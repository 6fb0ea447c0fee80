(** C118, C119, C123, C124: attributes of the sensors, and what the parts of a
    simulation have for it. *)
From Coq Require Import List String Bool.
From Verif Require Import Model.Attrs Model.AttrsCode Spec.AttrsSpec Proofs.AttrsProofs
  Proofs.AttrsMore Proofs.AttrsTac.
Import ListNotations.
Open Scope string_scope.

(** ** C118: Shack-Hartmann and pyramid sensors *)

Theorem C118_sensors_complete : forall rho,
  clean rho mro_ShackHartmann new (except lgs_steps public_ShackHartmann) /\
  clean rho mro_Pyramid new (except lgs_steps public_Pyramid).
Proof.
  assert (H0 : forall rho, clean rho mro_ShackHartmann new (except lgs_steps public_ShackHartmann)) by by_check sensor_switches nimp.
  assert (H1 : forall rho, clean rho mro_Pyramid new (except lgs_steps public_Pyramid)) by by_check sensor_switches nimp.
  intros rho. exact (conj (H0 rho) (H1 rho)).
Qed.
Print Assumptions C118_sensors_complete.

Theorem C118_lgs_sensors_complete : forall rho, incl sensor_switches rho ->
  clean rho mro_ShackHartmann new public_ShackHartmann /\
  clean rho mro_Pyramid new public_Pyramid.
Proof.
  intros rho H.
  assert (HP : forallb (fun c => mem c (restrict sensor_switches rho)) sensor_switches = true)
    by (apply switches_on; [apply incl_refl|exact H]).
  split.
  - exact (proj1 (check_all_sound 400 40 sensor_switches
      (fun r => forallb (fun c => mem c r) sensor_switches) mro_ShackHartmann nimp new
      public_ShackHartmann no rho ltac:(vm_compute; reflexivity) HP)).
  - exact (proj1 (check_all_sound 400 40 sensor_switches
      (fun r => forallb (fun c => mem c r) sensor_switches) mro_Pyramid nimp new
      public_Pyramid no rho ltac:(vm_compute; reflexivity) HP)).
Qed.
Print Assumptions C118_lgs_sensors_complete.

Example C118_instance :
  startable [] mro_ShackHartmann (new ++ [Inv "frame"; Inv "frame"])%list /\
  startable sensor_switches mro_ShackHartmann (new ++ [Inv "frame"; Inv "applyLgsUplink"])%list /\
  startable [] mro_Pyramid (new ++ [Inv "frame"; Inv "frame"])%list.
Proof.
  repeat split.
  - by_run [(Inv "__init__", nb); (Inv "frame", nb); (Inv "frame", nb)] nb.
  - by_run [(Inv "__init__", nb); (Inv "frame", nb); (Inv "applyLgsUplink", nb)] nb.
  - by_run [(Inv "__init__", nb); (Inv "frame", nb); (Inv "frame", nb)] nb.
Qed.

(** The legacy Shack-Hartmann sensor too. *)
Theorem C118_legacy_complete : forall rho,
  clean rho mro_ShackHartmannLegacy new (except lgs_steps public_ShackHartmannLegacy).
Proof.
  assert (H0 : forall rho, clean rho mro_ShackHartmannLegacy new (except lgs_steps public_ShackHartmannLegacy)) by by_check sensor_switches nimp.
  exact H0.
Qed.
Print Assumptions C118_legacy_complete.

Example C118_legacy_instance :
  startable [] mro_ShackHartmannLegacy (new ++ [Inv "frame"; Inv "setMask"; Inv "frame"])%list.
Proof. by_run [(Inv "__init__", nb); (Inv "frame", nb); (Inv "setMask", nb); (Inv "frame", nb)] nb. Qed.

(** ** C83, REFUTED for the legacy sensor already at its construction: with an elongated guide star its light path is an
    ElongLineOfSight, of which soapy/wfs/shackhartmann_legacy.py:189 calls allocDataArrays.  It has no such method. *)
Theorem C83_legacy_refuted : forall rho,
  lacks rho mro_ElongLineOfSight new public_ElongLineOfSight "allocDataArrays" /\
  never_returns rho mro_ElongLineOfSight new (Inv "allocDataArrays").
Proof.
  assert (H0 : forall rho, lacks rho mro_ElongLineOfSight new public_ElongLineOfSight "allocDataArrays") by by_lacks no.
  assert (H1 : forall rho, never_returns rho mro_ElongLineOfSight new (Inv "allocDataArrays")) by by_stuck no.
  intros rho. exact (conj (H0 rho) (H1 rho)).
Qed.
Print Assumptions C83_legacy_refuted.

(** ** C119: gradient sensors and the base sensor.  Full property: as C118.
    REFUTED: a frame that only integrates returns [n_measurements] zeros, and
    these sensors never have [n_measurements] - so neither can they be part of a
    simulation, which adds it up over its sensors (simulation.py:217). *)
Theorem C119_no_measurement_count_refuted : forall rho,
  lacks rho mro_Gradient new public_Gradient "n_measurements" /\
  lacks rho mro_WFS new public_WFS "n_measurements" /\
  never_returns rho mro_Gradient new (Inv "frame[iMatFrame=False][read=False]").
Proof.
  assert (H0 : forall rho, lacks rho mro_Gradient new public_Gradient "n_measurements") by by_lacks sensor_switches.
  assert (H1 : forall rho, lacks rho mro_WFS new public_WFS "n_measurements") by by_lacks sensor_switches.
  assert (H2 : forall rho, never_returns rho mro_Gradient new (Inv "frame[iMatFrame=False][read=False]")) by by_stuck sensor_switches.
  intros rho. exact (conj (H0 rho) (conj (H1 rho) (H2 rho))).
Qed.
Print Assumptions C119_no_measurement_count_refuted.

Theorem C119_gradient_complete_partial : forall rho,
  clean rho mro_Gradient new (Inv "frame[iMatFrame=True][read=True]" :: Inv "frame[iMatFrame=False][read=True]" ::
     except (lgs_steps ++ ["frame"; "addPhotonNoise"; "addReadNoise"])%list public_Gradient).
Proof.
  assert (H0 : forall rho, clean rho mro_Gradient new (Inv "frame[iMatFrame=True][read=True]" :: Inv "frame[iMatFrame=False][read=True]" ::
     except (lgs_steps ++ ["frame"; "addPhotonNoise"; "addReadNoise"])%list public_Gradient)) by by_check sensor_switches nimp.
  intros rho. exact (H0 rho).
Qed.
Print Assumptions C119_gradient_complete_partial.

Example C119_instance :
  startable [] mro_Gradient (new ++ [Inv "frame[iMatFrame=False][read=True]"; Inv "calculateSlopes"])%list.
Proof.
  by_run [(Inv "__init__", nb); (Inv "frame[iMatFrame=False][read=True]", nb); (Inv "calculateSlopes", nb)] nb.
Qed.

(** ** C123: the parts have what the simulation takes from them *)

Theorem C123_interfaces : forall rho,
  (forall a, In a sensor_interface -> provides rho mro_ShackHartmann new (except lgs_steps public_ShackHartmann) a) /\
  (forall a, In a sensor_interface -> provides rho mro_Pyramid new (except lgs_steps public_Pyramid) a) /\
  (forall a, In a mirror_interface -> provides rho mro_DM new (except ["reset"] public_DM) a) /\
  (forall a, In a mirror_interface -> provides rho mro_CustomShapes new (except ["reset"] public_CustomShapes) a) /\
  (forall a, In a mirror_interface -> provides rho mro_Zernike new (except ["reset"] public_Zernike) a) /\
  (forall a, In a mirror_interface -> provides rho mro_GaussStack new (except ["reset"] public_GaussStack) a) /\
  (forall a, In a mirror_interface -> provides rho mro_TT new (except ["reset"] public_TT) a) /\
  (forall a, In a mirror_interface -> provides rho mro_FastPiezo new (except ["reset"] public_FastPiezo) a) /\
  (forall a, In a camera_interface -> provides rho mro_PSFCamera new public_PSFCamera a) /\
  (forall a, In a camera_interface -> provides rho mro_singleModeFibre new public_singleModeFibre a) /\
  (forall a, In a reconstructor_interface ->
     provides rho mro_MVM new (except (calibrated_steps ++ ["reconstruct"; "saveCMat"])%list public_MVM) a) /\
  (forall a, In a reconstructor_interface ->
     provides rho mro_MVM_SeparateDMs new (except (calibrated_steps ++ ["reconstruct"; "saveCMat"])%list public_MVM_SeparateDMs) a) /\
  (forall a, In a reconstructor_interface ->
     provides rho mro_WooferTweeter new (except (calibrated_steps ++ ["reconstruct"; "saveCMat"])%list public_WooferTweeter) a) /\
  (forall a, In a reconstructor_interface ->
     provides rho mro_LearnAndApply new (except (calibrated_steps ++ ["reconstruct"; "saveCMat"])%list public_LearnAndApply) a) /\
  (forall a, In a reconstructor_interface ->
     provides rho mro_LearnAndApplyLTAO new (except (calibrated_steps ++ ["reconstruct"; "saveCMat"])%list public_LearnAndApplyLTAO) a) /\
  (forall a, In a reconstructor_interface ->
     provides rho mro_LgsTT new (except (calibrated_steps ++ ["reconstruct"; "saveCMat"])%list public_LgsTT) a) /\
  (forall a, In a atmosphere_interface -> provides rho mro_atmos new public_atmos a).
Proof.
  assert (H0 : forall rho, (forall a, In a sensor_interface -> provides rho mro_ShackHartmann new (except lgs_steps public_ShackHartmann) a)) by by_check sensor_switches nimp.
  assert (H1 : forall rho, (forall a, In a sensor_interface -> provides rho mro_Pyramid new (except lgs_steps public_Pyramid) a)) by by_check sensor_switches nimp.
  assert (H2 : forall rho, (forall a, In a mirror_interface -> provides rho mro_DM new (except ["reset"] public_DM) a)) by by_check no nimp.
  assert (H3 : forall rho, (forall a, In a mirror_interface -> provides rho mro_CustomShapes new (except ["reset"] public_CustomShapes) a)) by by_check no nimp.
  assert (H4 : forall rho, (forall a, In a mirror_interface -> provides rho mro_Zernike new (except ["reset"] public_Zernike) a)) by by_check no nimp.
  assert (H5 : forall rho, (forall a, In a mirror_interface -> provides rho mro_GaussStack new (except ["reset"] public_GaussStack) a)) by by_check no nimp.
  assert (H6 : forall rho, (forall a, In a mirror_interface -> provides rho mro_TT new (except ["reset"] public_TT) a)) by by_check no nimp.
  assert (H7 : forall rho, (forall a, In a mirror_interface -> provides rho mro_FastPiezo new (except ["reset"] public_FastPiezo) a)) by by_check no nimp.
  assert (H8 : forall rho, (forall a, In a camera_interface -> provides rho mro_PSFCamera new public_PSFCamera a)) by by_check no nimp.
  assert (H9 : forall rho, (forall a, In a camera_interface -> provides rho mro_singleModeFibre new public_singleModeFibre a)) by by_check no nimp.
  assert (H10 : forall rho, (forall a, In a reconstructor_interface ->
     provides rho mro_MVM new (except (calibrated_steps ++ ["reconstruct"; "saveCMat"])%list public_MVM) a)) by by_check no nimp.
  assert (H11 : forall rho, (forall a, In a reconstructor_interface ->
     provides rho mro_MVM_SeparateDMs new (except (calibrated_steps ++ ["reconstruct"; "saveCMat"])%list public_MVM_SeparateDMs) a)) by by_check no nimp.
  assert (H12 : forall rho, (forall a, In a reconstructor_interface ->
     provides rho mro_WooferTweeter new (except (calibrated_steps ++ ["reconstruct"; "saveCMat"])%list public_WooferTweeter) a)) by by_check no nimp.
  assert (H13 : forall rho, (forall a, In a reconstructor_interface ->
     provides rho mro_LearnAndApply new (except (calibrated_steps ++ ["reconstruct"; "saveCMat"])%list public_LearnAndApply) a)) by by_check no nimp.
  assert (H14 : forall rho, (forall a, In a reconstructor_interface ->
     provides rho mro_LearnAndApplyLTAO new (except (calibrated_steps ++ ["reconstruct"; "saveCMat"])%list public_LearnAndApplyLTAO) a)) by by_check no nimp.
  assert (H15 : forall rho, (forall a, In a reconstructor_interface ->
     provides rho mro_LgsTT new (except (calibrated_steps ++ ["reconstruct"; "saveCMat"])%list public_LgsTT) a)) by by_check no nimp.
  assert (H16 : forall rho, (forall a, In a atmosphere_interface -> provides rho mro_atmos new public_atmos a)) by by_check ["config.infinite"] nimp.
  intros rho. exact (conj (H0 rho) (conj (H1 rho) (conj (H2 rho) (conj (H3 rho) (conj (H4 rho) (conj (H5 rho) (conj (H6 rho) (conj (H7 rho) (conj (H8 rho) (conj (H9 rho) (conj (H10 rho) (conj (H11 rho) (conj (H12 rho) (conj (H13 rho) (conj (H14 rho) (conj (H15 rho) (H16 rho))))))))))))))))).
Qed.
Print Assumptions C123_interfaces.

Example C123_instance :
  startable sensor_switches mro_Pyramid (new ++ [Inv "frame"])%list /\
  startable [] mro_FastPiezo (new ++ [Inv "dmFrame"])%list.
Proof.
  split.
  - by_run [(Inv "__init__", nb); (Inv "frame", nb)] nb.
  - by_run [(Inv "__init__", nb); (Inv "dmFrame", nb)] nb.
Qed.

(** ** C124: what is taken from the parts but never there.  Full property: as
    C123 for everything the simulation and the reconstructors read.  REFUTED:
    saveInstScieField reads the field of the science camera
    (simulation.py:861); neither sensor has the number of active
    sub-apertures the GLAO, LTAO and tip-tilt reconstructors size their matrices
    by (reconstruction.py:672,779,898,997). *)
Theorem C124_missing_from_parts_refuted : forall rho,
  lacks rho mro_PSFCamera new public_PSFCamera "focalPlane_efield" /\
  lacks rho mro_singleModeFibre new public_singleModeFibre "focalPlane_efield" /\
  lacks rho mro_ShackHartmann new public_ShackHartmann "activeSubaps" /\
  lacks rho mro_Pyramid new public_Pyramid "activeSubaps".
Proof.
  assert (H0 : forall rho, lacks rho mro_PSFCamera new public_PSFCamera "focalPlane_efield") by by_lacks no.
  assert (H1 : forall rho, lacks rho mro_singleModeFibre new public_singleModeFibre "focalPlane_efield") by by_lacks no.
  assert (H2 : forall rho, lacks rho mro_ShackHartmann new public_ShackHartmann "activeSubaps") by by_lacks sensor_switches.
  assert (H3 : forall rho, lacks rho mro_Pyramid new public_Pyramid "activeSubaps") by by_lacks sensor_switches.
  intros rho. repeat split; auto.
Qed.
Print Assumptions C124_missing_from_parts_refuted.

(* the phase a display or another process asks for is there from the first frame on *)
Theorem C124_phase_after_frame_partial : forall rho,
  provides rho mro_ShackHartmann (new ++ [Inv "frame"])%list (except lgs_steps public_ShackHartmann)
    "uncorrectedPhase" /\
  provides rho mro_Pyramid (new ++ [Inv "frame"])%list (except lgs_steps public_Pyramid)
    "uncorrectedPhase".
Proof.
  assert (H1 : forall rho, forall a, In a ["uncorrectedPhase"] -> provides rho mro_ShackHartmann
    (new ++ [Inv "frame"])%list (except lgs_steps public_ShackHartmann) a)
    by by_check sensor_switches nimp.
  assert (H2 : forall rho, forall a, In a ["uncorrectedPhase"] -> provides rho mro_Pyramid
    (new ++ [Inv "frame"])%list (except lgs_steps public_Pyramid) a)
    by by_check sensor_switches nimp.
  intros rho. split; [apply H1|apply H2]; left; reflexivity.
Qed.
Print Assumptions C124_phase_after_frame_partial.

Example C124_instance :
  startable sensor_switches mro_ShackHartmann (new ++ [Inv "frame"])%list /\
  startable [] mro_PSFCamera (new ++ [Inv "frame"])%list.
Proof.
  split.
  - by_run [(Inv "__init__", nb); (Inv "frame", nb)] nb.
  - by_run [(Inv "__init__", nb); (Inv "frame", nb)] nb.
Qed.

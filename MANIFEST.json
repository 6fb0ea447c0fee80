{
 "claims": [
  {
   "property": "C01",
   "status": "proved",
   "theorems": [
    "C01_constant_delay_exact"
   ],
   "note": "All delays, all lists of command vectors."
  },
  {
   "property": "C02",
   "status": "proved",
   "theorems": [
    "C02_changing_delay",
    "C02_delivery_in_order",
    "C02_negative_setting_raises"
   ],
   "note": "Any sequence of non-negative settings; negative settings raise IndexError."
  },
  {
   "property": "C03",
   "status": "proved",
   "theorems": [
    "C03_delivered_contents",
    "C03_waiting_arrays_unmodified"
   ],
   "note": "Heap model with object identity: in-place reset, re-allocation in runDM, aliasing with the buffer."
  },
  {
   "property": "C04",
   "status": "partial",
   "theorems": [
    "C04_reset_forgets_refuted",
    "C04_history_leaks_refuted",
    "C04_reset_forgets_partial"
   ],
   "note": "REFUTED for every delay >= 1: reset_loop does not clear the delay buffer, so the first d commands after a reset are the last d of the previous run. Proved for loopDelay 0."
  },
  {
   "property": "C05",
   "status": "partial",
   "theorems": [
    "C05_rounding_refuted",
    "C05_two_periods_refuted",
    "C05_rounded_count_partial",
    "C05_rounded_default_partial",
    "C05_rounded_short_partial",
    "C05_rounded_exact_partial",
    "C05_every_pth_frame_partial",
    "C05_number_of_reads_partial",
    "C05_short_exposure_every_frame_partial"
   ],
   "note": "REFUTED in floats: with loopTime 0.0025 (most shipped configurations) and the default exposure the sensor is not read on the 29th frame, because int(0.0025*29/0.0025) is 28; with an exposure of two such periods the 29th exposure lasts three frames and the 30th one. Proved in exact rational arithmetic (any number of WFSs and frames), and in binary64: the number of reads is never more than one off, the default exposure loses at most one frame, shorter exposures lose none, and loop periods of few bits (1/512 s) are read exactly every p-th frame."
  },
  {
   "property": "C06",
   "status": "partial",
   "theorems": [
    "C06_schedule_restart_refuted",
    "C06_default_exposure_refuted",
    "C06_schedule_restart_partial",
    "C06_default_exposure_partial"
   ],
   "note": "REFUTED: wfsFrameNo survives reset_loop; a WFS with exposure longer than a loop period that has been read once is read on every frame after a reset. Proved for resets before the first read and for the default exposure (unless exactly one frame was run). Exact arithmetic for the times."
  },
  {
   "property": "C07",
   "status": "partial",
   "theorems": [
    "C07_first_frame_refuted",
    "C07_multi_process_blocks_refuted",
    "C07_read_decisions_partial"
   ],
   "note": "REFUTED: decisions differ on frame 0, and multi-process mode blocks for ever because multiWfs uses the attribute LGS that no WFS has. Proved: decisions agree on all later frames."
  },
  {
   "property": "C08",
   "status": "partial",
   "theorems": [
    "C08_image_is_one_exposure",
    "C08_uplink_refuted"
   ],
   "note": "Proved for every schedule without LGS uplink. REFUTED with uplink: the convolution is re-applied to the accumulated light on every frame."
  },
  {
   "property": "C09",
   "status": "partial",
   "theorems": [
    "C09_old_slopes_refuted",
    "C09_old_slopes_witness_refuted",
    "C09_sensor_keeps_slopes_partial"
   ],
   "note": "REFUTED: zeros are returned on frames without a read. Proved: the sensor object keeps its slopes."
  },
  {
   "property": "C10",
   "status": "proved",
   "theorems": [
    "C10_measurement_layout",
    "C10_ranges_contiguous",
    "C10_wrong_length_raises"
   ],
   "note": "Any number of WFSs, unequal counts; length-1 broadcasting included."
  },
  {
   "property": "C11",
   "status": "proved",
   "theorems": [
    "C11_gain_law",
    "C11_never_raises"
   ],
   "note": "Any history of frames and resets, any DMs, gains and control matrix."
  },
  {
   "property": "C12",
   "status": "proved",
   "theorems": [
    "C12_contiguous",
    "C12_disjoint_and_covering",
    "C12_simulation_split",
    "C12_reconstructor_split"
   ],
   "note": "Contiguous, disjoint, covering; simulation and reconstructor both work piecewise on the same split."
  },
  {
   "property": "C13",
   "status": "proved",
   "theorems": [
    "C13_rows_match_commands"
   ],
   "note": "Any WFS response functions; each DM keeps at least one actuator (with none, operating the DM raises)."
  },
  {
   "property": "C14",
   "status": "proved",
   "theorems": [
    "C14_threshold",
    "C14_unseen_dm"
   ],
   "note": "Kept iff above 1/1000 of the largest response of the DM (hard-coded), order and count; unseen DM keeps none."
  },
  {
   "property": "C15",
   "status": "partial",
   "theorems": [
    "C15_recalibration_refuted",
    "C15_recalibration_partial"
   ],
   "note": "REFUTED: once an actuator has been rejected and two or more kept, calibrating again raises. Proved when none was rejected."
  },
  {
   "property": "C16",
   "status": "partial",
   "theorems": [
    "C16_sub_matrix_partial",
    "C16_sub_matrix_refuted"
   ],
   "note": "REFUTED when an actuator of an earlier DM (or this one) was rejected: offsets use the unfiltered actuator counts. Proved when none was rejected."
  },
  {
   "property": "C17",
   "status": "partial",
   "theorems": [
    "C17_noise_settings_partial",
    "C17_noise_settings_refuted"
   ],
   "note": "REFUTED for a frame that raises: settings stay off. Proved for calibrations that succeed."
  },
  {
   "property": "C18",
   "status": "proved",
   "theorems": [
    "C18_save_load_roundtrip",
    "C18_two_sessions"
   ],
   "note": "Whole DM state and matrix, for any previous directory contents without dmShapes files (the code never writes one)."
  },
  {
   "property": "C19",
   "status": "partial",
   "theorems": [
    "C19_rejected_load_partial",
    "C19_rejected_load_refuted",
    "C19_without_load"
   ],
   "note": "REFUTED when a later active_acts file is unreadable after an earlier DM was filtered: the fall-back calibration raises. Proved when the iMat file is unreadable or its header differs."
  },
  {
   "property": "C20",
   "status": "partial",
   "theorems": [
    "C20_crash_safe_partial",
    "C20_crash_safe_refuted"
   ],
   "note": "REFUTED over the files of an older calibration with the same number of kept actuators: crash after iMat.fits gives new matrix with old flags. Proved for every crash point when the directory has no readable file of another calibration."
  },
  {
   "property": "C21",
   "status": "partial",
   "theorems": [
    "C21_load_checks_partial",
    "C21_conditioning_refuted",
    "C21_missing_header_refuted",
    "C21_dropped_never_reused"
   ],
   "note": "REFUTED: the conditioning actually used (reconstructor svdConditioning) is not in the header, and a file without header keys is not checked. Proved: shape and recorded per-DM conditioning are checked, otherwise pinv of the current iMat; with rejected actuators the stored file is never reused."
  },
  {
   "property": "C22",
   "status": "proved",
   "theorems": [
    "C22_commands_linear"
   ],
   "note": "Any interleaving with resets."
  },
  {
   "property": "C23",
   "status": "partial",
   "theorems": [
    "C23_frame_size_partial",
    "C23_even_elements_partial",
    "C23_odd_elements_refuted",
    "C23_piezo_fills_screen_refuted"
   ],
   "note": "REFUTED for an odd number of phase elements (e.g. odd pupilSize: the screen size is always even): every frame raises ValueError, or a Piezo stack stays flat; a Piezo stack that fills the screen exactly cannot be built. Proved for even sizes, all classes, every history."
  },
  {
   "property": "C24",
   "status": "proved",
   "theorems": [
    "C24_superposition",
    "C24_linear",
    "C24_zero_mean"
   ],
   "note": "Superposition, linearity across histories, zero mean (uncropped surface)."
  },
  {
   "property": "C25",
   "status": "partial",
   "theorems": [
    "C25_each_mirror_once_partial",
    "C25_total",
    "C25_each_mirror_once_refuted"
   ],
   "note": "REFUTED when a DM is switched from closed to open during a run: its old surface stays in the closed buffer. Proved for fixed settings, all histories."
  },
  {
   "property": "C26",
   "status": "partial",
   "theorems": [
    "C26_window_inside_partial",
    "C26_rounded_partial",
    "C26_rounding_refuted"
   ],
   "note": "REFUTED in the floats the code uses: coordinates and position are accumulated separately, and rounding carries the last coordinate past the last pixel (C26_rounding_refuted: 0.4 pixels per frame, frame 160). Proved: inside in exact arithmetic, any wind, any number of frames, both axes (C26_window_inside_partial); in binary64 it strays by at most n rounding errors at frame n (C26_rounded_partial)."
  },
  {
   "property": "C27",
   "status": "partial",
   "theorems": [
    "C27_whole_pixels_partial",
    "C27_between_wraps_partial",
    "C27_step_within_a_pixel_partial",
    "C27_frozen_flow_refuted"
   ],
   "note": "REFUTED for fractional winds: at each wrap the sub-pixel part of the displacement is lost, and a screen as large as the window never moves under a wind below one pixel per frame. Proved: exact cyclic flow for whole-pixel winds for ever; exact flow between wraps for every wind; error below one pixel at every step."
  },
  {
   "property": "C28",
   "status": "partial",
   "theorems": [
    "C28_rows_partial",
    "C28_flow_partial",
    "C28_negative_wind_refuted",
    "C28_rounded_partial",
    "C28_rounding_refuted"
   ],
   "note": "REFUTED for negative wind speeds (no row is ever added). For speeds >= 0: floor(n v) rows, offset in [0,1), exact frozen flow of the output. The rows themselves (aotools) are an arbitrary sequence; the clamp epsilon is the code's, and excluded by the index ranges. In binary64 (C28_rounded_partial): rows + offset = n v up to n roundings, and REFUTED as an exact count: after ten frames at 0.1 no row has been added."
  },
  {
   "property": "C29",
   "status": "proved",
   "theorems": [
    "C29_normalised",
    "C29_integrated_r0",
    "C29_screen_variance"
   ],
   "note": "Normalisation over rationals; the r0 powers over the reals (positive strengths; a zero strength is outside the real model)."
  },
  {
   "property": "C30",
   "status": "proved",
   "theorems": [
    "C30_superposition",
    "C30_footprint_pixels",
    "C30_linear",
    "C30_history_independent"
   ],
   "note": "Any number of layers, any reachable state, linear interpolation per layer; whole-pixel directions reduce to plain pixel sums. History independence in both modes and for exceptions. State kept per output pixel (everything between interpolations is elementwise)."
  },
  {
   "property": "C31",
   "status": "proved",
   "theorems": [
    "C31_in_bounds"
   ],
   "note": "Because the coordinates are clipped; a footprint larger than the screens is therefore silently squeezed, see C53."
  },
  {
   "property": "C32",
   "status": "partial",
   "theorems": [
    "C32_cone_partial",
    "C32_infinite_partial",
    "C32_above_source_refuted"
   ],
   "note": "REFUTED for layers above the source: negative footprint size, samples run backwards. Size and centre proved for every altitude and source."
  },
  {
   "property": "C33",
   "status": "partial",
   "theorems": [
    "C33_up_partial",
    "C33_down_partial",
    "C33_source_below_refuted"
   ],
   "note": "REFUTED for a source below the highest layer (negative last leg upwards; no effect of the source downwards). Otherwise every screen is met once at its altitude and the path is complete. The angular-spectrum step itself is an opaque operation."
  },
  {
   "property": "C34",
   "status": "partial",
   "theorems": [
    "C34_units_refuted",
    "C34_residual_partial"
   ],
   "note": "REFUTED: looking down, radians without a correction, nanometres with one."
  },
  {
   "property": "C35",
   "status": "partial",
   "theorems": [
    "C35_bounded_checked",
    "C35_bounded_unchecked",
    "C35_variants_agree",
    "C35_bilinear_exact",
    "C35_grid_points_partial",
    "C35_last_row_error",
    "C35_grid_points_refuted"
   ],
   "note": "REFUTED at the last row/column: the bounds-checked variant moves coordinates at or beyond the last element 1e-9 before it, so the last row is returned with an error of 1e-9 of the last step (C35_last_row_error); the unchecked variant reads outside the array there. Everywhere else proved: exact at grid points, exact on bilinear functions, bounded by the data, no read outside the array."
  },
  {
   "property": "C36",
   "status": "partial",
   "theorems": [
    "C36_bounded",
    "C36_same_size_partial",
    "C36_spline_square_partial",
    "C36_consistent_refuted"
   ],
   "note": "REFUTED: the fast zoom divides by (m - 0.99999999), so zooming to the same size changes the array (proved within 2e-8 of the largest neighbour step); the spline zoom swaps its axes for non-square arrays; interp.zoom returns None for complex data; zoom_rbs cannot take an int. Boundedness (hence constants) proved for every size; square spline zoom proved for any interpolator exact at grid points."
  },
  {
   "property": "C37",
   "status": "proved",
   "theorems": [
    "C37_flux",
    "C37_one_output_pixel",
    "C37_array_version"
   ],
   "note": "Both loop kernels (2-d and stacked) and the array version binImgs."
  },
  {
   "property": "C38",
   "status": "partial",
   "theorems": [
    "C38_fftshift_even_partial",
    "C38_involutive",
    "C38_odd_refuted"
   ],
   "note": "REFUTED for odd sizes: the last row (or column) is never moved. For even sizes equal to numpy.fft.fftshift for every execution order of the parallel rows; involution for every size."
  },
  {
   "property": "C39",
   "status": "proved",
   "theorems": [
    "C39_rows_in_place",
    "C39_terminates"
   ],
   "note": "Interleaving model of the worker processes and the collecting loop; safety, no deadlock, bound on the number of steps. Processes never crash in the model."
  },
  {
   "property": "C40",
   "status": "partial",
   "theorems": [
    "C40_flipped_shift_partial",
    "C40_centre_refuted"
   ],
   "note": "REFUTED: reverses each quadrant instead of swapping them; for even sizes the result is fftshift followed by a point reflection, so the zero frequency lands one element before the centre. Passing an output array raises ValueError."
  },
  {
   "property": "C41",
   "status": "proved",
   "theorems": [
    "C41_windows",
    "C41_disjoint"
   ],
   "note": "The centroiding windows as cut from the detector by chop_subaps: inside, p x p, and pairwise disjoint for every pattern."
  },
  {
   "property": "C42",
   "status": "partial",
   "theorems": [
    "C42_placed_partial",
    "C42_light_kept_partial",
    "C42_refuted"
   ],
   "note": "REFUTED for odd pxlsPerSubap with the doubled field: half-pixel windows are truncated differently for source and destination, so placing a first-row sub-aperture raises ValueError (C42_refuted). Proved with a field stop or an even number of pixels: every detector pixel receives exactly the light drawn on it, once (C42_placed_partial, C42_light_kept_partial)."
  },
  {
   "property": "C43",
   "status": "proved",
   "theorems": [
    "C43_flux",
    "C43_exposure_structure",
    "C43_magnitudes"
   ],
   "note": "Noiseless read-out: flux and distribution for every non-dark detector, independence of the accumulated amount, and the magnitude law over the reals."
  },
  {
   "property": "C44",
   "status": "proved",
   "theorems": [
    "C44_removeTT"
   ],
   "note": "Mean zero, differences kept, idempotent, for every slope vector; the Gradient sensor uses the same code."
  },
  {
   "property": "C45",
   "status": "proved",
   "theorems": [
    "C45_terminates",
    "C45_padding",
    "C45_binning"
   ],
   "note": "Termination, size, multiple, minimality, idempotence of the padding loops, and that the padded plane bins exactly to the oversized sub-aperture."
  },
  {
   "property": "C46",
   "status": "partial",
   "theorems": [
    "C46_linear",
    "C46_tilt_partial",
    "C46_piston_partial",
    "C46_refuted"
   ],
   "note": "REFUTED for partially lit sub-apertures: the phase is multiplied by the mask before projection, so piston shows up as a slope (C46_refuted). Proved: linear for every mask; exact tilt (sign reversed), no cross-talk and no piston for fully lit sub-apertures. The unit of tilt is the one of the code: amp from the first to the last pixel of the pupil."
  },
  {
   "property": "C47",
   "status": "partial",
   "theorems": [
    "C47_partial",
    "C47_refuted"
   ],
   "note": "REFUTED for every pupil size that is not a multiple of the number of sub-apertures (C47_refuted). Proved for multiples."
  },
  {
   "property": "C48",
   "status": "partial",
   "theorems": [
    "C48_flat_refuted",
    "C48_flux_scale",
    "C48_bounded",
    "C48_flat_partial",
    "C48_piston_partial"
   ],
   "note": "REFUTED for fewer than 32 modulation points, hence for the default of 4: for every geometry, reference and piston some contents of the planes never written give a flat wavefront non-zero slopes (proved by inverting the Fourier filter). Flux scale and bounds proved for every image; exactly zero for flat wavefronts and no effect of piston proved for at least 32 points and open/closed masks. Missing: masks with grey pixels. Real numbers; discrete Fourier transforms are modelled, not assumed."
  },
  {
   "property": "C49",
   "status": "partial",
   "theorems": [
    "C49_partial",
    "C49_refuted"
   ],
   "note": "REFUTED for fewer than 32 modulation points, hence for the default of 4: planes that are never written are transformed and summed. Proved for 32 or more."
  },
  {
   "property": "C50",
   "status": "partial",
   "theorems": [
    "C50_partial",
    "C50_lists",
    "C50_defaults_partial",
    "C50_defaults_refuted",
    "C50_required_refuted"
   ],
   "note": "REFUTED for the documented defaults. Loading, the required check, given values, the tables' defaults and ignored keys are proved for every dictionary and all eight classes (plain and list-style files). Against the documentation: eight documented defaults are not what one gets (simOversize 1.2/1.02, removeTT, lgs, centThreshold 0.1/0, nb_of_photon, LGS fftwThreads, DM wfs and gauss_width) and four parameters documented as required are not (DM nxActuators, gain, svdConditioning; science FOV)."
  },
  {
   "property": "C51",
   "status": "proved",
   "theorems": [
    "C51_attributes"
   ],
   "note": "For every class table, name and value."
  },
  {
   "property": "C52",
   "status": "proved",
   "theorems": [
    "C52_sizes",
    "C52_no_larger"
   ],
   "note": "For every positive pupil size and diameter and non-negative heights; the screen is also no larger than the furthest target asks for."
  },
  {
   "property": "C53",
   "status": "partial",
   "theorems": [
    "C53_partial",
    "C53_refuted",
    "C53_elongated_refuted",
    "C53_elongated_partial"
   ],
   "note": "REFUTED for science targets with negative coordinates (they enter the maximum with their sign) and for elongated guide stars (their shift is added to signed coordinates). Proved for plain guide stars, for elongated ones with coordinates that are not negative, and for coordinates no larger than a science coordinate."
  },
  {
   "property": "C54",
   "status": "partial",
   "theorems": [
    "C54_idempotent",
    "C54_partial",
    "C54_exposure_refuted",
    "C54_diameter_refuted",
    "C54_layers_refuted",
    "C54_fov_refuted"
   ],
   "note": "REFUTED: exposure time, mirror diameter and outer scale keep values derived before the edit, and an edited science FOV is undone. Proved: recomputing twice changes nothing; with all such parameters given, recomputing after any edit equals loading the edited values."
  },
  {
   "property": "C55",
   "status": "partial",
   "theorems": [
    "C55_partial",
    "C55_exception_refuted",
    "C55_cube_partial",
    "C55_interrupt_first_frame_refuted"
   ],
   "note": "REFUTED: any exception other than KeyboardInterrupt skips saving and reporting, and an interrupt in the first frame makes saving the sensor frames fail. Proved: number of frames, one save and one report for complete runs, interrupts and stops at every frame."
  },
  {
   "property": "C56",
   "status": "partial",
   "theorems": [
    "C56_partial",
    "C56_commands_refuted",
    "C56_frames_refuted",
    "C56_field_refuted"
   ],
   "note": "REFUTED for saveDmCommands after calibration dropped actuators, for saveWfsFrames with more frames than nIters and for saveInstScieField. Proved for the other options, any number of frames."
  },
  {
   "property": "C57",
   "status": "partial",
   "theorems": [
    "C57_partial",
    "C57_two_callers_refuted"
   ],
   "note": "REFUTED for two threads calling start. Proved for one controlling thread, every interleaving with the loop thread, including that stop returns."
  },
  {
   "property": "C58",
   "status": "partial",
   "theorems": [
    "C58_partial",
    "C58_records_refuted",
    "C58_before_first_frame_refuted"
   ],
   "note": "REFUTED: instantaneous Strehl and wavefront error records are kept, and reset raises before every mirror has made a shape. The rest is proved."
  },
  {
   "property": "C59",
   "status": "proved",
   "theorems": [
    "C59_user_mask",
    "C59_file_mask"
   ],
   "note": "Mask arrays of every shape; mask files for every zoom that delivers the requested size (C35 area); the built-in circle is made at simulation size by aotools and not modelled."
  },
  {
   "property": "C60",
   "status": "partial",
   "theorems": [
    "C60_images",
    "C60_never_dark",
    "C60_flat_centre_partial",
    "C60_flat_centre_refuted"
   ],
   "note": "Normalisation and accumulation proved for every sequence of images of positive flux, never-dark proved for even transforms, flat Strehl one by the brightest pixel proved. REFUTED in tip-tilt mode with oversampling: the central pixel need not be the brightest; proved there for oversampling one."
  },
  {
   "property": "C61",
   "status": "partial",
   "theorems": [
    "C61_partial",
    "C61_terminates",
    "C61_odd_refuted",
    "C61_narrow_refuted"
   ],
   "note": "REFUTED for an odd focal plane with an even crop factor (ValueError each frame) and for a field under half a diffraction width (ZeroDivisionError). Everything else proved for all sizes."
  },
  {
   "property": "C62",
   "status": "partial",
   "theorems": [
    "C62_partial",
    "C62_physical_refuted"
   ],
   "note": "REFUTED in Physical mode, where the error reported is always zero. Proved for every phase and binary mask in Geometric mode."
  },
  {
   "property": "C63",
   "status": "proved",
   "theorems": [
    "C63",
    "C63_affine"
   ],
   "note": "For all launch positions, guide star angles and heights, and equal to the centre used by the upward line of sight."
  },
  {
   "property": "C64",
   "status": "partial",
   "theorems": [
    "C64_heights",
    "C64_single_refuted",
    "C64_position_partial",
    "C64_position_refuted",
    "C64_phase_partial",
    "C64_tilt_partial",
    "C64_tilt_refuted",
    "C64_phase_refuted"
   ],
   "note": "REFUTED for one layer (half the depth low), for every off-axis guide star (positions multiplied by 2*RAD2ASEC^2), and when lgs.height differs from GSHeight. Heights proved for n >= 2; directions for on-axis stars; phase additions when the heights agree."
  },
  {
   "property": "C65",
   "status": "partial",
   "theorems": [
    "C65",
    "C65_levels",
    "C65_refuted"
   ],
   "note": "REFUTED for print_, which needs verbosity 3. Thresholds, monotonicity and sinks proved for every verbosity and call."
  },
  {
   "property": "C66",
   "status": "partial",
   "theorems": [
    "C66_imat_noise_refuted"
   ],
   "note": "REFUTED: imat_noise has no effect, WFS.frame(iMatFrame=True) switches the noise off itself."
  },
  {
   "property": "C67",
   "status": "partial",
   "theorems": [
    "C67_reload_in_session_refuted"
   ],
   "note": "REFUTED when an actuator was rejected (two or more kept)."
  },
  {
   "property": "C68",
   "status": "partial",
   "theorems": [
    "C68_stale_control_matrix_refuted",
    "C68_fresh_control_matrix_partial"
   ],
   "note": "REFUTED with loadCMat: stale cMat.fits of the right shape is used after a new calibration. Proved without loadCMat."
  },
  {
   "property": "C69",
   "status": "partial",
   "theorems": [
    "C69_rotation_refuted"
   ],
   "note": "REFUTED: every frame of a DM with non-zero rotation raises (three float slices on a 2-d array)."
  },
  {
   "property": "C70",
   "status": "partial",
   "theorems": [
    "C70_last_columns_refuted",
    "C70_inner_columns_partial"
   ],
   "note": "REFUTED: column coordinates run 1..nx, so the last two columns are both read at the clamped coordinate. Columns 0..nx-3 depend on one stored column only."
  },
  {
   "property": "C71",
   "status": "partial",
   "theorems": [
    "C71_direction_refuted",
    "C71_cardinal_partial"
   ],
   "note": "REFUTED: finite and infinite screens flow in opposite directions for the same direction 0, and 90 degrees flows opposite to oblique directions near it."
  },
  {
   "property": "C72",
   "status": "proved",
   "theorems": [
    "C72_rotation_in_bounds",
    "C72_far_edges"
   ],
   "note": "For an enlarged screen of at least twice the size (the code uses ceil(2*sqrt 2*nx)); direction given by any rational cosine/sine pair."
  },
  {
   "property": "C73",
   "status": "proved",
   "theorems": [
    "C73_requested_tau0"
   ],
   "note": "Over the reals, positive speeds and strengths."
  },
  {
   "property": "C74",
   "status": "proved",
   "theorems": [
    "C74_conjugate"
   ],
   "note": "Geometric mode."
  },
  {
   "property": "C75",
   "status": "partial",
   "theorems": [
    "C75_physical_refuted"
   ],
   "note": "REFUTED: physical mode only updates the field, the returned array is zero."
  },
  {
   "property": "C76",
   "status": "partial",
   "theorems": [
    "C76_rounded_partial",
    "C76_rounding_refuted",
    "C76_inside",
    "C76_tiling_partial",
    "C76_refuted"
   ],
   "note": "REFUTED in general: pupil coordinates are truncated to whole pixels before scaling, so pieces overlap when the pupil is not a multiple of nxSubaps (C76_refuted). Proved: pieces always lie inside the interpolated field (C76_inside) and tile it exactly when the pupil size is a multiple and the number of elements even (C76_tiling_partial). In binary64 the truncated coordinate can be one pixel less even where x*P/N is whole (C76_rounding_refuted), and is otherwise the exact one (C76_rounded_partial)."
  },
  {
   "property": "C77",
   "status": "proved",
   "theorems": [
    "C77_rounded_edges",
    "C77_rounded_cells",
    "C77_active"
   ],
   "note": "Tiling of the pupil by sub-apertures and the activity criterion, for every mask with at least one pixel per sub-aperture; the edges also in binary64, for pupils up to 2^20 pixels (C77_rounded_edges, C77_rounded_cells)."
  },
  {
   "property": "C78",
   "status": "partial",
   "theorems": [
    "C78_refuted",
    "C78_any_throughput"
   ],
   "note": "REFUTED: the throughput parameter is never used (C78_refuted, C78_any_throughput)."
  },
  {
   "property": "C79",
   "status": "proved",
   "theorems": [
    "C79_flat"
   ],
   "note": "For every deterministic optics, read-out and centroider and every history ending in a read."
  },
  {
   "property": "C80",
   "status": "partial",
   "theorems": [
    "C80_refuted"
   ],
   "note": "REFUTED: the fill factor is applied to intensities that already scale with the lit area; light goes as its square (C80_refuted). Parseval is a hypothesis of the theorem; the fill factor routine is aotools."
  },
  {
   "property": "C81",
   "status": "partial",
   "theorems": [
    "C81_refuted"
   ],
   "note": "REFUTED: interp.zoom of the complex field returns None, so the sub-aperture fields carry no information about the turbulence (C81_refuted)."
  },
  {
   "property": "C82",
   "status": "partial",
   "theorems": [
    "C82_partial",
    "C82_refuted",
    "C82_zernike_refuted"
   ],
   "note": "REFUTED: the gradient sensor never sets n_measurements, so aoinit raises AttributeError; the Zernike constructor raises NameError. Proved for Shack-Hartmann, legacy Shack-Hartmann and pyramid sensors."
  },
  {
   "property": "C83",
   "status": "partial",
   "theorems": [
    "C83_legacy_refuted",
    "C83_partial",
    "C83_refuted"
   ],
   "note": "REFUTED for gradient, pyramid and legacy Shack-Hartmann sensors: TypeError, their calcFocalPlane takes no los argument; the legacy sensor, written for elongation, cannot even be built with it, because the elongated light path has no allocDataArrays."
  },
  {
   "property": "C84",
   "status": "partial",
   "theorems": [
    "C84_refuted"
   ],
   "note": "REFUTED: the image is overwritten on every frame, only the last frame of the exposure counts."
  },
  {
   "property": "C85",
   "status": "proved",
   "theorems": [
    "C85_count"
   ],
   "note": "Every detector image and pupil shape; the pyramid mask entries are 0 or 1."
  },
  {
   "property": "C86",
   "status": "proved",
   "theorems": [
    "C86_sizes",
    "C86_error"
   ],
   "note": "Separation a whole number not larger than the detector."
  },
  {
   "property": "C87",
   "status": "partial",
   "theorems": [
    "C87_light_partial",
    "C87_refuted"
   ],
   "note": "REFUTED for fewer than 32 modulation points. Proved (Parseval) for 32 or more, every wavefront."
  },
  {
   "property": "C88",
   "status": "proved",
   "theorems": [
    "C88_report_is_last"
   ],
   "note": "For every run length."
  },
  {
   "property": "C89",
   "status": "partial",
   "theorems": [
    "C89_restart_refuted",
    "C89_dead_loop_refuted"
   ],
   "note": "REFUTED: the running flag stays set, so start does nothing until stop is called."
  },
  {
   "property": "C90",
   "status": "partial",
   "theorems": [
    "C90_partial",
    "C90_sensor_refuted"
   ],
   "note": "REFUTED for sensors (the module name is read from config.wfsss, which does not exist). Proved for the other components."
  },
  {
   "property": "C91",
   "status": "partial",
   "theorems": [
    "C91_rerun_refuted"
   ],
   "note": "REFUTED with saveWfsFrames: the files of the first run exist and are not overwritten."
  },
  {
   "property": "C92",
   "status": "partial",
   "theorems": [
    "C92_partial",
    "C92_refuted",
    "C92_one_pixel_refuted"
   ],
   "note": "REFUTED with oversampling (a small tilt gives 1.16) and for a one-pixel detector (always one). Proved without oversampling and crop, with the exact formula."
  },
  {
   "property": "C93",
   "status": "partial",
   "theorems": [
    "C93_partial",
    "C93_odd_refuted"
   ],
   "note": "REFUTED for odd transforms. Proved for every even transform."
  },
  {
   "property": "C94",
   "status": "partial",
   "theorems": [
    "C94_inside_partial",
    "C94_float32_refuted",
    "C94_same_points_refuted"
   ],
   "note": "REFUTED: the mask is sampled over pupil-1 elements and the phase over pupil, and in single precision the clipping bound rounds up to the array edge. Inside-array proved in exact arithmetic."
  },
  {
   "property": "C95",
   "status": "partial",
   "theorems": [
    "C95_convolution_partial",
    "C95_refuted"
   ],
   "note": "REFUTED: a flat geometric beacon peaks one element off centre and moves every spot by one element. The convolution theorem is proved for every even transform size and all images."
  },
  {
   "property": "C96",
   "status": "partial",
   "theorems": [
    "C96_partial",
    "C96_refuted"
   ],
   "note": "REFUTED without subapFieldStop (factor 2). Proved with it."
  },
  {
   "property": "C97",
   "status": "partial",
   "theorems": [
    "C97_partial",
    "C97_refuted"
   ],
   "note": "REFUTED for small launch apertures and large fields (exceptions). Exact conditions proved."
  },
  {
   "property": "C98",
   "status": "proved",
   "theorems": [
    "C98_weighted",
    "C98_relative"
   ],
   "note": "For all profiles, layer counts and images."
  },
  {
   "property": "C99",
   "status": "partial",
   "theorems": [
    "C99_partial",
    "C99_refuted"
   ],
   "note": "REFUTED without uplink (AttributeError), with elongation (ignored), and when the correction stops (kept)."
  },
  {
   "property": "C100",
   "status": "partial",
   "theorems": [
    "C100_partial",
    "C100_refuted"
   ],
   "note": "REFUTED for negative offsets. Exact characterisation proved."
  },
  {
   "property": "C101",
   "status": "proved",
   "theorems": [
    "C101_loop_law"
   ],
   "note": "For all mirrors, linear sensors, turbulence histories and delays; the control matrix is a left inverse of the calibration."
  },
  {
   "property": "C102",
   "status": "proved",
   "theorems": [
    "C102_static_exact",
    "C102_converges",
    "C102_diverges"
   ],
   "note": "Exact law, convergence for 0 < gain < 2 and divergence otherwise."
  },
  {
   "property": "C103",
   "status": "proved",
   "theorems": [
    "C103_delay_converges",
    "C103_one_frame_limit",
    "C103_open_only_late"
   ],
   "note": "Sufficient condition for every delay; exact limit for one frame; open-loop mirrors."
  },
  {
   "property": "C104",
   "status": "proved",
   "theorems": [
    "C104_tracking"
   ],
   "note": "For all turbulence and noise histories, no loop delay."
  },
  {
   "property": "C105",
   "status": "partial",
   "theorems": [
    "C105_own_sensor_partial",
    "C105_isolated_partial",
    "C105_unattached_refuted",
    "C105_dropped_refuted"
   ],
   "note": "REFUTED when a mirror names no WFS (the default) and when calibration dropped actuators (exceptions). Proved for attached mirrors with all actuators kept, all histories."
  },
  {
   "property": "C106",
   "status": "partial",
   "theorems": [
    "C106_gain_law_partial",
    "C106_tip_tilt_gain_refuted",
    "C106_tip_tilt_memory_refuted",
    "C106_single_sensor"
   ],
   "note": "REFUTED when the first mirror is of type TT: no gain, no integration, no dependence on loop mode. Proved otherwise. With a single WFS all commands are zero."
  },
  {
   "property": "C107",
   "status": "partial",
   "theorems": [
    "C107_equal_sensors_partial",
    "C107_larger_refuted",
    "C107_smaller_refuted"
   ],
   "note": "REFUTED for two WFSs of different sizes. Proved for any number of equal ones."
  },
  {
   "property": "C108",
   "status": "partial",
   "theorems": [
    "C108_least_squares_partial",
    "C108_cutoff_refuted"
   ],
   "note": "REFUTED when the singular value cut-off 1e-8 acts: an off-axis measurement 1e-5 of the others is discarded although one linear estimate is exact. Proved for WFSs of equal size and a pinv that is a generalised inverse of the off-axis covariance (no singular value cut off)."
  },
  {
   "property": "C109",
   "status": "partial",
   "theorems": [
    "C109_mvm_partial",
    "C109_learn_and_apply_partial",
    "C109_never_refuted",
    "C109_never_one_mirror_refuted",
    "C109_woofer_idle_refuted"
   ],
   "note": "REFUTED: LearnAndApplyLTAO, GLAO_4LGS, LgsTT and ANN always raise, WooferTweeter raises with several mirrors and never moves a single one. Proved usable: MVM, LearnAndApply, MVM_SeparateDMs (C105)."
  },
  {
   "property": "C110",
   "status": "partial",
   "theorems": [
    "C110_reload_refuted",
    "C110_reload_control_refuted"
   ],
   "note": "REFUTED for every system with a second WFS."
  },
  {
   "property": "C111",
   "status": "proved",
   "theorems": [
    "C111_fast_piezo_agrees"
   ],
   "note": "For even sizes and a mirror that does not exactly fill the screen (Piezo cannot be built there, C114). The difference is exactly the mean of the FastPiezo surface over the screen."
  },
  {
   "property": "C112",
   "status": "partial",
   "theorems": [
    "C112_tip_tilt_arcsec_partial",
    "C112_tip_tilt_arcsec_refuted"
   ],
   "note": "REFUTED: the tilt is the command times pupil/(nx-1), so always a little too large for a mirror of the size of the pupil, and about half for one twice as large. Proved: that exact law, along one axis only."
  },
  {
   "property": "C113",
   "status": "partial",
   "theorems": [
    "C113_piezo_mirror_partial",
    "C113_gauss_mirror_refuted"
   ],
   "note": "REFUTED for GaussStack (off by one element). Proved for Piezo and FastPiezo with all actuators active."
  },
  {
   "property": "C114",
   "status": "partial",
   "theorems": [
    "C114_build_partial",
    "C114_build_refuted"
   ],
   "note": "REFUTED: exact list of the combinations that raise (CustomShapes with too few shapes by design). getActiveActs and the shapes only as far as they decide which exception is raised."
  },
  {
   "property": "C115",
   "status": "proved",
   "theorems": [
    "C115_lgs_atmos_science_complete"
   ],
   "note": "LGS, LGS_Geometric, LGS_Physical, atmos, ElongLineOfSight, PSFCamera, singleModeFibre. The model is generated from the source text by tools/extract_attrs.py; tests on data are free choices, so positive results hold for every data and `never returns` results too."
  },
  {
   "property": "C116",
   "status": "partial",
   "theorems": [
    "C116_mirrors_complete_partial",
    "C116_reset_before_frame_refuted",
    "C116_construction_refuted"
   ],
   "note": "REFUTED: reset before the first frame always raises (so does reset_loop right after aoinit); Piezo as large as its screen and KarhunenLoeve over 1000 modes stop in the constructor (there the branch taken stands for the data). Proved: everything else; everything once a frame was made. The model is generated from the source text by tools/extract_attrs.py; tests on data are free choices, so positive results hold for every data and `never returns` results too."
  },
  {
   "property": "C117",
   "status": "partial",
   "theorems": [
    "C117_line_of_sight_complete_partial",
    "C117_makePhase_first_refuted"
   ],
   "note": "REFUTED: makePhase before the first frame. Proved: everything else; everything once a frame was made. The model is generated from the source text by tools/extract_attrs.py; tests on data are free choices, so positive results hold for every data and `never returns` results too."
  },
  {
   "property": "C118",
   "status": "proved",
   "theorems": [
    "C118_sensors_complete",
    "C118_lgs_sensors_complete",
    "C118_legacy_complete"
   ],
   "note": "The model is generated from the source text by tools/extract_attrs.py; tests on data are free choices, so positive results hold for every data and `never returns` results too."
  },
  {
   "property": "C119",
   "status": "partial",
   "theorems": [
    "C119_no_measurement_count_refuted",
    "C119_gradient_complete_partial"
   ],
   "note": "REFUTED: Gradient (and the base sensor) never have n_measurements: integrating-only frames and aoinit with such a sensor always raise. Proved: all other uses of Gradient. The model is generated from the source text by tools/extract_attrs.py; tests on data are free choices, so positive results hold for every data and `never returns` results too."
  },
  {
   "property": "C120",
   "status": "proved",
   "theorems": [
    "C120_unbuildable"
   ],
   "note": "NameError `base`, AttributeError `activeSubaps` (see instance). The model is generated from the source text by tools/extract_attrs.py; tests on data are free choices, so positive results hold for every data and `never returns` results too."
  },
  {
   "property": "C121",
   "status": "partial",
   "theorems": [
    "C121_reconstructors_complete_partial",
    "C121_reconstruct_refuted",
    "C121_shapes_never_saved"
   ],
   "note": "REFUTED: before calibration calcCMat raises; GLAO_4LGS.reconstruct always raises (super of an unrelated class); ANN.reconstruct raises unless the user sets `net`; the base class has no calcCMat; mirror shapes are never saved. Proved: the rest, and everything but apply_gain after makeCMat for the other classes. The model is generated from the source text by tools/extract_attrs.py; tests on data are free choices, so positive results hold for every data and `never returns` results too."
  },
  {
   "property": "C122",
   "status": "partial",
   "theorems": [
    "C122_simulation_complete_partial",
    "C122_saving_without_camera_refuted"
   ],
   "note": "REFUTED: with a simName, no science camera and saveWfe or saveStrehl, aoloop always raises in the end. Proved for all other combinations; runWfs and runSciCams only after a first loopFrame; readParams (which replaces the configuration) excluded. The model is generated from the source text by tools/extract_attrs.py; tests on data are free choices, so positive results hold for every data and `never returns` results too."
  },
  {
   "property": "C123",
   "status": "proved",
   "theorems": [
    "C123_interfaces"
   ],
   "note": "The list of attributes read is in Props (with lines); dm_shape, n_valid_actuators, residual are conditional and left out. The model is generated from the source text by tools/extract_attrs.py; tests on data are free choices, so positive results hold for every data and `never returns` results too."
  },
  {
   "property": "C124",
   "status": "partial",
   "theorems": [
    "C124_missing_from_parts_refuted",
    "C124_phase_after_frame_partial"
   ],
   "note": "REFUTED: cameras never have focalPlane_efield (saveInstScieField), Shack-Hartmann and pyramid never have activeSubaps (LTAO, GLAO, LgsTT, ANN). Proved: uncorrectedPhase is there from the first frame on. The model is generated from the source text by tools/extract_attrs.py; tests on data are free choices, so positive results hold for every data and `never returns` results too."
  },
  {
   "property": "C125",
   "status": "partial",
   "theorems": [
    "C125_formats_partial",
    "C125_formats_refuted"
   ],
   "note": "REFUTED in one respect: a python file must have a group LGS as soon as it has a sensor, also without laser guide stars (KeyError); a YAML file need not. Proved: files with the same contents (guide-star parameters for the other sensors loadable) give the same configuration, object by object, or both raise."
  },
  {
   "property": "C126",
   "status": "partial",
   "theorems": [
    "C126_groups_partial",
    "C126_yaml_groups_partial",
    "C126_documented_refuted"
   ],
   "note": "REFUTED: the documentation of python files lists the groups without Reconstructor, and no such file loads. A missing group is a KeyError, not a ConfigurationError. Proved: for files that load, exactly which groups can be left out, for both formats."
  },
  {
   "property": "C127",
   "status": "proved",
   "theorems": [
    "C127_counts",
    "C127_extras",
    "C127_yaml_extras",
    "C127_enough",
    "C127_yaml_enough"
   ],
   "note": "Both formats. Extra values ignored; each parameter that is given must have an entry for each component."
  },
  {
   "property": "C128",
   "status": "partial",
   "theorems": [
    "C128_history_partial",
    "C128_stale_refuted",
    "C128_class_refuted"
   ],
   "note": "REFUTED: files are run in the module's own globals, so a file that does not bind simConfiguration silently gets the previous configuration (NameError in a new session), and a file that binds e.g. DmConfig breaks every later load with a mirror. Proved: history independence for files that use only names they bind and leave the classes alone. Programs are modelled as sequences of bindings, copies of names and exceptions."
  },
  {
   "property": "C129",
   "status": "partial",
   "theorems": [
    "C129_by_name_partial",
    "C129_saved_copy",
    "C129_case_refuted"
   ],
   "note": "REFUTED: .YAML, .YML are run as python (ConfigurationError). Proved: the choice by the text after the last dot, and that the saved copy loads like the original (the copy keeps the loader). PyYAML and the python parser are parameters of the model."
  },
  {
   "property": "C130",
   "status": "partial",
   "theorems": [
    "C130_again_partial",
    "C130_again_refuted"
   ],
   "note": "REFUTED: lists are appended to but loaded by index, so once there is a sensor (mirror, camera) every file that asks for one ends in AttributeError on the blank object left at the end. Proved: without components, the second load is as into a new configurator."
  },
  {
   "property": "C131",
   "status": "proved",
   "theorems": [
    "C131_round_trip"
   ],
   "note": "For every configuration loaded from either format: all attributes of all objects, derived ones included. Guide-star objects stand for themselves in the dictionary, as in the code. The sizes of 152-212 are modelled elsewhere (C08, C98)."
  },
  {
   "property": "C132",
   "status": "partial",
   "theorems": [
    "C132_text_partial",
    "C132_text_refuted"
   ],
   "note": "REFUTED: only wavelengths, guide-star heights, iMatValue and svdConditioning are converted; every other parameter keeps the text (r0, telDiam, loopTime ...). A text float() refuses is a ValueError, not a ConfigurationError. Proved: equality for the converted ones."
  },
  {
   "property": "C133",
   "status": "partial",
   "theorems": [
    "C133_transform_partial",
    "C133_no_data_partial",
    "C133_gpu_refuted",
    "C133_bind_partial",
    "C133_bind_refuted"
   ],
   "note": "REFUTED: with reikna FORWARD gives the inverse transform and BACKWARD the forward one (assuming reikna's third argument means inverse); with pyfftw, the default, the documented obj.inputData = data is ignored by fft(), and the next fft(y) overwrites data and does not transform y. Proved for pyfftw and fftpack and every history without such an assignment, with any behaviour of FFTW_DESTROY_INPUT."
  },
  {
   "property": "C134",
   "status": "partial",
   "theorems": [
    "C134_result_partial",
    "C134_result_refuted"
   ],
   "note": "REFUTED: pyfftw, the default, returns the same array every time. Proved for fftpack and reikna."
  },
  {
   "property": "C135",
   "status": "partial",
   "theorems": [
    "C135_inputs_partial",
    "C135_inputs_refuted"
   ],
   "note": "REFUTED: fftpack mode keeps the caller's array as inputData, so a later obj.inputData[:] = y overwrites it. Proved for the others, and for fftpack when inputData is not assigned into."
  },
  {
   "property": "C136",
   "status": "partial",
   "theorems": [
    "C136_fallback_partial",
    "C136_always_partial",
    "C136_fallback_refuted"
   ],
   "note": "REFUTED: mode 'scipy' without scipy does not fall back on pyfftw, and an unknown mode is not refused: both end in AttributeError. Proved: the library chosen is one that is there, in the order stated, and for 'pyfftw' and 'gpu' one is always found."
  },
  {
   "property": "C137",
   "status": "partial",
   "theorems": [
    "C137_padding_partial",
    "C137_padding_refuted"
   ],
   "note": "REFUTED: pyfftw refuses smaller arrays, and repeats an axis of length one instead of padding it. Proved for fftpack. Two dimensional objects transforming both axes."
  },
  {
   "property": "C138",
   "status": "partial",
   "theorems": [
    "C138_convolve_partial",
    "C138_symmetric",
    "C138_shapes",
    "C138_unit_refuted"
   ],
   "note": "REFUTED: the result is divided by the number of pixels, and for odd sizes it is moved by one element. Proved: the exact value for every size, total light, symmetry, refusal of other shapes. Exact arithmetic, real images."
  },
  {
   "property": "C139",
   "status": "partial",
   "theorems": [
    "C139_object_partial",
    "C139_shapes",
    "C139_unit_refuted"
   ],
   "note": "REFUTED: the result is upside down (turned half a turn) and divided by the number of pixels. Proved: it is the result of convolve turned half a turn, for sizes that are even or 3 modulo 4 (others: C40)."
  },
  {
   "property": "C140",
   "status": "partial",
   "theorems": [
    "C140_correlation_partial",
    "C140_order_refuted",
    "C140_convolution_refuted"
   ],
   "note": "REFUTED: fftshift without axes also shifts the sub-apertures, so image k is that of sub-aperture k - n//2; and there is no conjugate, so it is a convolution. Proved for one sub-aperture and a reference symmetric about its middle. (The class cannot be constructed at this commit: C120.)"
  },
  {
   "property": "C141",
   "status": "partial",
   "theorems": [
    "C141_reference_partial",
    "C141_reference_refuted"
   ],
   "note": "REFUTED: another shape is accepted and silently sets all references to zero, which makes every correlation image zero. Proved for the three shapes handled. Reading from a FITS file not modelled."
  },
  {
   "property": "C142",
   "status": "partial",
   "theorems": [
    "C142_files",
    "C142_random_partial",
    "C142_inner_scale_refuted"
   ],
   "note": "REFUTED for the inner scale: randomScrns draws its screens with l0 = 0.01 m, the moving screens have 0.001 m. Strength proved for files and random screens; the generator (aotools) is an arbitrary function with Kolmogorov scaling in r0."
  },
  {
   "property": "C143",
   "status": "partial",
   "theorems": [
    "C143_files_partial",
    "C143_too_small_refuted",
    "C143_mixed_refuted"
   ],
   "note": "REFUTED: the explanatory exception is only reached when the last file is a single row; any other screen that is too small, or screens of different sizes, end in a ValueError of numpy or scipy. Which files are accepted is proved."
  },
  {
   "property": "C144",
   "status": "partial",
   "theorems": [
    "C144_round_trip_partial",
    "C144_again_refuted",
    "C144_infinite_refuted"
   ],
   "note": "REFUTED: an existing file stops saveScrns half way, leaving screens of two atmospheres in the directory; infinite screens cannot be saved (KeyError). The round trip is proved for finite screens in a directory without the files."
  },
  {
   "property": "C145",
   "status": "partial",
   "theorems": [
    "C145_marker_partial",
    "C145_kept_partial",
    "C145_nan_refuted",
    "C145_shape_refuted"
   ],
   "note": "REFUTED for the default marker NaN (nothing is left out: x == NaN is never true), for newSize not square (result transposed; ValueError for stacks) and for arrays not square (IndexError). Proved for square arrays with a number as marker."
  },
  {
   "property": "C146",
   "status": "partial",
   "theorems": [
    "C146_same_size",
    "C146_zoomed_partial",
    "C146_refused",
    "C146_zero_is_missing",
    "C146_between",
    "C146_plane_partial",
    "C146_border_refuted"
   ],
   "note": "REFUTED: a shape made larger has zeros all around its border, whatever the file holds (the border lies outside the points interpolated between). Proved: values within those of the file or zero; planes kept inside the points of the file, so everywhere when made smaller; values kept where the grids share a point; zeros in the file count as missing."
  },
  {
   "property": "C147",
   "status": "proved",
   "theorems": [
    "C147_bilinear",
    "C147_zoom",
    "C147_exact",
    "C147_separate_arrays_needed"
   ],
   "note": "Interleaving semantics of single element accesses, arbitrary arithmetic; sequentially consistent memory. C147_separate_arrays_needed shows the proviso on the output array is needed."
  },
  {
   "property": "C148",
   "status": "proved",
   "theorems": [
    "C148_bin",
    "C148_bin_stack",
    "C148_slow_variants",
    "C148_exact"
   ],
   "note": "Interleaving semantics, arbitrary (non-associative) addition."
  },
  {
   "property": "C149",
   "status": "proved",
   "theorems": [
    "C149_chop"
   ],
   "note": "Windows inside the arrays (C61 on shapes)."
  },
  {
   "property": "C150",
   "status": "proved",
   "theorems": [
    "C150_shift"
   ],
   "note": "Every size; for odd sizes the result is not fftshift, see C38."
  },
  {
   "property": "C151",
   "status": "proved",
   "theorems": [
    "C151_never_full",
    "C151_exclusion",
    "C151_never_stuck",
    "C151_five_is_most"
   ],
   "note": "Steps are single accesses to flag, lock and queue; frames asked for by hand count as one more thread. C151_five_is_most: with six threads the queue overflows and the lock is released twice."
  },
  {
   "property": "C152",
   "status": "partial",
   "theorems": [
    "C152_in_order_partial",
    "C152_refuted"
   ],
   "note": "REFUTED with two threads running frames (frame button while the loop runs); proved for one."
  },
  {
   "property": "C153",
   "status": "partial",
   "theorems": [
    "C153_next_frame_partial",
    "C153_refuted"
   ],
   "note": "REFUTED: a request made while the loop is between releasing the lock and clearing the flag is lost (the next timer tick asks again). Proved when no delivery is under way at the request."
  },
  {
   "property": "C154",
   "status": "partial",
   "theorems": [
    "C154_stop_partial",
    "C154_refuted"
   ],
   "note": "REFUTED: stop pressed before the loop thread has executed `go = True` is lost. Proved once every loop thread has begun."
  },
  {
   "property": "C155",
   "status": "partial",
   "theorems": [
    "C155_alone_partial",
    "C155_two_loops_refuted",
    "C155_init_refuted"
   ],
   "note": "REFUTED: run does not check for a running loop, init does not wait for the loop to end. Proved for an operator who presses run and init only when everything has ended."
  },
  {
   "property": "C156",
   "status": "proved",
   "theorems": [
    "C156_interpolation_inside",
    "C156_clipped_inside",
    "C156_zoom_inside",
    "C156_sizes_needed"
   ],
   "note": "In binary64, with float32(size) as in the zoom: axes of 2 to 2^24+1 elements, outputs up to 2^24; C156_sizes_needed shows that the limits are real. Non-finite coordinates, and negative ones where the kernel checks the bounds, are not covered."
  },
  {
   "property": "C157",
   "status": "proved",
   "theorems": [
    "C157_image",
    "C157_upside_down",
    "C157_exchanged",
    "C157_opposite_tilts"
   ],
   "note": "Exact complex arithmetic. Image: any wavefront; slopes: symmetric mask and sub-apertures. Modulation points as the code computes them (at least 32), their number a multiple of 2 or 4 as stated in the theorem."
  },
  {
   "property": "C158",
   "status": "partial",
   "theorems": [
    "C158_frames_partial",
    "C158_refuted"
   ],
   "note": "REFUTED: with run pressed twice, two loops can pass the test together and one frame more than nIters is run. Proved for an operator who presses run and init only when everything has ended."
  },
  {
   "property": "C159",
   "status": "partial",
   "theorems": [
    "C159_no_option_partial",
    "C159_debug_gui_partial",
    "C159_verbosity_refuted",
    "C159_debug_refuted",
    "C159_file_refuted"
   ],
   "note": "REFUTED: -V gives the verbosity as text and the first message compares it with an integer (TypeError in Python 3); -d without the GUI is undone by aoinit; the verbosity of the file is overwritten by the command line default. Proved: no option at all, and -d with the GUI. Python 2 and IPython left out."
  },
  {
   "property": "C160",
   "status": "partial",
   "theorems": [
    "C160_counts_partial",
    "C160_learn_refuted",
    "C160_silence_refuted"
   ],
   "note": "REFUTED: learning counts from 2 to n+1 of n, and progress is shown at verbosity 0. Proved: the interaction matrix and the loop count 1 to the total and end the line exactly once."
  },
  {
   "property": "C161",
   "status": "partial",
   "theorems": [
    "C161_moves",
    "C161_moves_partial",
    "C161_scale_partial",
    "C161_centre",
    "C161_refuted"
   ],
   "note": "REFUTED unless subapFOV is a whole number of wavelengths over the sub-aperture: the number is rounded, so the pixel scale differs from the configured one by up to one part in twice that number. Proved for the real pixel scale, and for the configured one when the number is whole. Exact arithmetic; light that leaves one side of the window enters on the other. Starts from the field in front of the lenslets; C174 adds its interpolation."
  },
  {
   "property": "C162",
   "status": "partial",
   "theorems": [
    "C162_position",
    "C162_flat",
    "C162_offset",
    "C162_centred_partial",
    "C162_even_refuted",
    "C162_odd_refuted"
   ],
   "note": "REFUTED: with an even number of pixels the correcting tilt is too large by elements/(elements-1); with an odd number and a transform of 4k+1 elements the spot is one element off, of an even number half an element off. Proved: where the spot is, for every configuration, and that it is centred in the other cases. The static slopes that are subtracted hide this in the measurements."
  },
  {
   "property": "C163",
   "status": "proved",
   "theorems": [
    "C163_light",
    "C163_own_wavefront"
   ],
   "note": "Exact arithmetic, geometric propagation, one frame."
  },
  {
   "property": "C164",
   "status": "proved",
   "theorems": [
    "C164_exchanged"
   ],
   "note": "Exact arithmetic."
  },
  {
   "property": "C165",
   "status": "partial",
   "theorems": [
    "C165_tiles_partial",
    "C165_margin_partial",
    "C165_refuted"
   ],
   "note": "REFUTED when the scaled padding rounds to under two elements (a slice [0:-0]): every frame raises ValueError. Positions of the sub-apertures are those of aotools.wfs.findActiveSubaps, taken as (x, y) * pupil / nxSubaps."
  },
  {
   "property": "C166",
   "status": "partial",
   "theorems": [
    "C166_placed_partial",
    "C166_window_pixels",
    "C166_windows",
    "C166_light",
    "C166_odd_refuted",
    "C166_single_refuted"
   ],
   "note": "REFUTED with the doubled field on detectors with an odd number of pixels, or with one sub-aperture: ValueError. LGS uplink is not part of this model."
  },
  {
   "property": "C167",
   "status": "partial",
   "theorems": [
    "C167_removed_partial",
    "C167_zero_partial",
    "C167_insensitive_partial",
    "C167_twice_partial",
    "C167_smaller_first_refuted",
    "C167_larger_first_refuted"
   ],
   "note": "REFUTED for sensors with different numbers of sub-apertures: ValueError when a smaller one comes first; when a larger one comes first slopes of the second are left as they were or taken from the first."
  },
  {
   "property": "C168",
   "status": "partial",
   "theorems": [
    "C168_dark_partial",
    "C168_refuted",
    "C168_lit_partial"
   ],
   "note": "REFUTED: the NaN centroid is replaced by 0 before half the window is subtracted, so the slope is minus the distance from the first pixel to the spot of a flat wavefront, about half a window, in x and y. Infinities and rounding are left out; the centroid is that of aotools, taken as the centre of gravity."
  },
  {
   "property": "C169",
   "status": "partial",
   "theorems": [
    "C169_numbers_partial",
    "C169_commands_partial",
    "C169_legacy_refuted",
    "C169_legacy_tt_refuted",
    "C169_poisoned_refuted",
    "C169_reset_partial"
   ],
   "note": "REFUTED for the legacy sensor: nan_to_num at the end of WFS.frame returns a copy that is dropped; one NaN makes NaN of all commands of all mirrors until reset_loop. Proved for the ordinary Shack-Hartmann."
  },
  {
   "property": "C170",
   "status": "partial",
   "theorems": [
    "C170_moves_partial",
    "C170_refuted",
    "C170_init_keeps_partial",
    "C170_reload_partial"
   ],
   "note": "REFUTED after \"load parameters\" without a new initialisation: the boxes change the configuration just loaded, which no mirror holds. Proved from an initialisation until the next load. The number of boxes is taken as the number of mirrors."
  },
  {
   "property": "C171",
   "status": "partial",
   "theorems": [
    "C171_shown_partial",
    "C171_refuted"
   ],
   "note": "REFUTED for gains that are not whole hundredths or lie outside 0 to 1 (a gain above 1 is shown as 1); exact for all others. QDoubleSpinBox is taken as: default range 0 to 99.99, two decimals, rounding any monotone function onto hundredths."
  },
  {
   "property": "C172",
   "status": "partial",
   "theorems": [
    "C172_moves_partial",
    "C172_scale_partial",
    "C172_overshoot_refuted",
    "C172_refuted"
   ],
   "note": "REFUTED: the phase is sampled at F points from edge to edge of the aperture (F - 1 spaces) but transformed as F, so an image moves by F / (F - 1) pixels per configured pixel scale when D * fov / lambda is whole, and by a further rounding factor otherwise (C172_scale_partial gives the angle exactly). Proved: the image moves rigidly by one pixel per that angle. The coordinates are exact (float32 rounding of them is not modelled here)."
  },
  {
   "property": "C173",
   "status": "proved",
   "theorems": [
    "C173_exchanged"
   ],
   "note": "For every camera geometry, even or odd transforms included."
  },
  {
   "property": "C174",
   "status": "partial",
   "theorems": [
    "C174_moves_partial",
    "C174_refuted"
   ],
   "note": "REFUTED: zoomtoefield spreads n elements over N - 0.99999999 spaces, so the angle per pixel differs from the configured one by (1 - 0.99999999 / N) / (1 - 1 / n) even where nothing is rounded. Proved: the spots move rigidly by one pixel per the angle true_spot_scale. The coordinates are exact (C156 has them in binary64)."
  },
  {
   "property": "C175",
   "status": "proved",
   "theorems": [
    "C175_split"
   ],
   "note": "One frame from any state. Common means the same number in every x, and in every y, slope of the estimate."
  },
  {
   "property": "C176",
   "status": "partial",
   "theorems": [
    "C176_reads_partial",
    "C176_distinct_partial",
    "C176_plus_refuted"
   ],
   "note": "REFUTED for tags with a plus sign (two different checkouts, one version); proved for all others, starting from what git describe prints. Git itself, failures to run it and hash collisions are left out."
  },
  {
   "property": "C177",
   "status": "partial",
   "theorems": [
    "C177_a_tag_partial",
    "C177_final_partial",
    "C177_tags_only_partial",
    "C177_unknown_partial",
    "C177_oldest_refuted",
    "C177_branch_refuted"
   ],
   "note": "REFUTED: the alphabetically first tag is reported (1.0 of 1.0 and 2.0, 10 of 9 and 10), and without tags a branch named like a version is. Proved: it is a tag of the commit, never a pre-release of a version tagged as well, independent of order and branches; unknown without candidates."
  },
  {
   "property": "C178",
   "status": "proved",
   "theorems": [
    "C178_robust",
    "C178_scaled"
   ],
   "note": "Without loop delay, all mirrors in closed loop; sensors are arbitrary functions of the corrections."
  },
  {
   "property": "C179",
   "status": "proved",
   "theorems": [
    "C179_mirrors",
    "C179_loop_law"
   ],
   "note": "Slopes are any linear function of the phase (as of a gradient sensor); noise off, exposure of one frame, rotation 0. Sensors that are not linear: C178."
  },
  {
   "property": "C180",
   "status": "proved",
   "theorems": [
    "C180_residual",
    "C180_settles"
   ],
   "note": "As C179, for static turbulence; what no commands can make stays outside this claim."
  },
  {
   "property": "C181",
   "status": "proved",
   "theorems": [
    "C181_robust_delay",
    "C181_scaled_delay"
   ],
   "note": "All mirrors in closed loop; sensors are arbitrary functions of the corrections. For loop_delay = 0 the condition is that of C178."
  },
  {
   "property": "C182",
   "status": "proved",
   "theorems": [
    "C182_layer",
    "C182_frame_refuses"
   ],
   "note": "Screens square, at least 2 pixels a side; positions given by the configuration (not metaPupilPos); telescope_diameter = pupil_size * phase_pixel_scale. The tangents of the position are given."
  },
  {
   "property": "C183",
   "status": "partial",
   "theorems": [
    "C183_frame_partial",
    "C183_units_refuted",
    "C183_up_refuted",
    "C183_above_refuted"
   ],
   "note": "REFUTED: radians without corrections, nanometres with them; looking up, corrections equal to the turbulence double it; a layer above the source makes the frame fail unless nx_out_pixels = sim_size. Proved: phase, field and residual in full for both directions."
  },
  {
   "property": "C184",
   "status": "partial",
   "theorems": [
    "C184_swapped_partial",
    "C184_transposed_partial",
    "C184_same_position_refuted"
   ],
   "note": "REFUTED for the same position: the legacy one takes X along columns, the current one along rows. Proved: equal with the components of the position swapped, or on transposed screens, looking down, for beams an even number of screen pixels wide, tangents for angles."
  },
  {
   "property": "C185",
   "status": "partial",
   "theorems": [
    "C185_up_partial",
    "C185_up_refuted",
    "C185_down_refuted",
    "C185_down_partial"
   ],
   "note": "REFUTED: downwards, light goes to the ground right after the highest layer and meets all others at or below it; upwards it ends beyond the source by the altitude of the lowest layer. Proved: order, altitudes upwards, exact way down for one layer."
  },
  {
   "property": "C186",
   "status": "proved",
   "theorems": [
    "C186_sight",
    "C186_robust",
    "C186_robust_delay"
   ],
   "note": "The phase on the line of sight is that of Model/Chain.v (geometric). The sensors are any functions of the phase that meet the accuracy bound."
  },
  {
   "property": "C187",
   "status": "proved",
   "theorems": [
    "C187_marechal",
    "C187_cropped",
    "C187_close"
   ],
   "note": "Cameras without oversampling, even transform, non-negative aperture: with oversampling the central pixel is not the peak (C60, C92)."
  },
  {
   "property": "C188",
   "status": "proved",
   "theorems": [
    "C188_image",
    "C188_settles",
    "C188_robust",
    "C188_robust_delay"
   ],
   "note": "Geometric lines of sight as wide as the padded pupil (pad > 0), cameras as in C187. Floats exact: rationals for phases, reals for images."
  },
  {
   "property": "C189",
   "status": "proved",
   "theorems": [
    "C189_law",
    "C189_static",
    "C189_settles",
    "C189_least_squares",
    "C189_never_worse"
   ],
   "note": "Linear sensors, all mirrors closed with one gain (with different gains the build-up claim is not made). The pseudo-inverse is any matrix with the algebraic property of one; how numpy computes it is not modelled. Floats exact."
  },
  {
   "property": "C190",
   "status": "proved",
   "theorems": [
    "C190_delay",
    "C190_float"
   ],
   "note": "Open and closed mirrors without loop delay (C190_float); closed mirrors with any loop delay (C190_delay). Everything between the mirrors and the product with the control matrix is an arbitrary function of stated accuracy; its rounding is part of that accuracy."
  },
  {
   "property": "C191",
   "status": "proved",
   "theorems": [
    "C191_product",
    "C191_orders",
    "C191_loop"
   ],
   "note": "Up to n u <= 1/2 measurements and terms far from overflow. Loop without delay. Wider registers and Strassen-like products are left out. C191_orders_differ shows that results of different orders can indeed differ."
  },
  {
   "property": "C192",
   "status": "proved",
   "theorems": [
    "C192_kernel",
    "C192_interp",
    "C192_los",
    "C192_zoom",
    "C192_range"
   ],
   "note": "Arithmetic in double precision throughout (single-precision data converted when read, the result before it is stored); arrays and zoomed sizes from 2 to 2^20, elements up to 2^800."
  },
  {
   "property": "C193",
   "status": "proved",
   "theorems": [
    "C193_flow"
   ],
   "note": "Double precision throughout; screens up to 2^20 elements a side; wind speeds that are not negative (C28_negative_wind_refuted) and all columns but the last two (C70_last_columns_refuted); wind along an axis (the rotation of oblique screens is not included). The rows made by aotools are arbitrary."
  },
  {
   "property": "C194",
   "status": "proved",
   "theorems": [
    "C194_residual"
   ],
   "note": "Geometric propagation downwards with screens and corrections; footprints as given by their (clipped) coordinates; screens of 2 to 2^20 elements a side with totals up to 2^50; 2^-60 to 2^60 radians per nm. The complex field is not included."
  },
  {
   "property": "C195",
   "status": "partial",
   "theorems": [
    "C195_later_partial",
    "C195_first_refuted",
    "C195_close_partial"
   ],
   "note": "REFUTED in the last bits: the phase array is of single precision until the first corrected frame replaces it by one of double precision, so the first frame differs from later ones given the same screens. Proved: all frames but the first agree exactly whatever came before, and any two agree to 2e-7 of the largest values."
  },
  {
   "property": "C196",
   "status": "proved",
   "theorems": [
    "C196_footprints",
    "C196_residual"
   ],
   "note": "Propagation downwards (no launch position), geometric; at least two pixels across; altitudes from 0 to that of the source; sizes and pixel counts up to 2^20, other quantities 2^-100 to 2^100. numpy.linspace modelled as in numpy (step, underflowing step, last point)."
  },
  {
   "property": "C197",
   "status": "partial",
   "theorems": [
    "C197_drawn_partial",
    "C197_beacon_refuted",
    "C197_physical_refuted",
    "C197_images_refuted"
   ],
   "note": "REFUTED with numpy from 2.0, where numpy.any(None) is False instead of None: a sensor without a beacon raises KeyError before any mirror or camera is drawn, and a camera without a residual leaves nothing drawn (setup.py asks for numpy >= 1.7.0). REFUTED with older numpy for cameras with physical propagation alone: min of an empty list. Proved otherwise: every image is drawn in its own plot and nowhere else, and the common scale of the wavefronts is exactly the range of their values. The behaviour of numpy.any on objects and of pyqtgraph setImage(None) is taken from their documentation."
  },
  {
   "property": "C198",
   "status": "partial",
   "theorems": [
    "C198_speed_partial",
    "C198_resumed_refuted"
   ],
   "note": "REFUTED for a loop that is stopped and started again without reset: the frames from before are counted as done since the start, so the speed is too high and the time remaining too short. Proved for a loop started at the first frame."
  },
  {
   "property": "C199",
   "status": "proved",
   "theorems": [
    "C199_chain"
   ],
   "note": "The composition of C193, C192, C195 and C196, with the conversion to nanometres, the four orientations along an axis and the rotation for oblique winds (the larger grid that the program computes for them is shown large enough).  The scale is the program's own float for 500/(2 pi), and the cosine and sine of oblique winds the program's own floats, whose distances from the real numbers are not bounded here; the two pixels next to the edges (C70) are not covered."
  },
  {
   "property": "C200",
   "status": "partial",
   "theorems": [
    "C200_coupling",
    "C200_long_refuted",
    "C200_physical_refuted"
   ],
   "note": "REFUTED in two respects: the long exposure Strehl of a fibre, which the simulation records, is zero for ever, and with physical propagation every frame raises ValueError because the field is always larger than the mode. The rest is proved for geometric propagation, in exact arithmetic. That the size of the mode is the best one rests on scipy and is not claimed."
  },
  {
   "property": "C201",
   "status": "proved",
   "theorems": [
    "C201_window",
    "C201_still"
   ],
   "note": "One axis of one layer (the axes and layers are independent); the interpolation of the stored screen is scipy's spline and not covered. The loss of up to a pixel at the ends of the screen is that of C27."
  },
  {
   "property": "C202",
   "status": "partial",
   "theorems": [
    "C202_counts_partial",
    "C202_done_refuted",
    "C202_learn_refuted"
   ],
   "note": "REFUTED: the step shown is the one before, so that a finished job of less than 200 steps shows less than 100% and any shows n - 1 of n; a Learn moves the bar forward and back on each frame, and its announcement of the covariance matrices passes its arguments in the wrong order, which raises ValueError in the GUI. Proved: apart from the Learn the bar shows the share of the steps before the last, never goes back, and messages leave it alone. The rounding of the division by floats is not modelled."
  },
  {
   "property": "C203",
   "status": "proved",
   "theorems": [
    "C203_separations"
   ],
   "note": "binary64 with the rounding of Flocq, sqrt included; x ** 2 as a product. The positions themselves come from aotools and are parameters."
  },
  {
   "property": "C204",
   "status": "proved",
   "theorems": [
    "C204_footprints",
    "C204_residual"
   ],
   "note": "binary64 coordinates, float32 fields as in C194 and C196. ASEC2RAD is any number; the clip of the coordinates is that of C194's interpolation."
  },
  {
   "property": "C205",
   "status": "proved",
   "theorems": [
    "C205_slopes",
    "C205_best"
   ],
   "note": "the sub-aperture's phase in float32, weights and products in binary64; sums in any order (and with or without fused products). A float32 operation is a binary64 one rounded once more. removeTT, noise and the amplitude of the reference tilt are not in this model (see the exact model of the sensor)."
  },
  {
   "property": "C206",
   "status": "partial",
   "theorems": [
    "C206_curves_partial",
    "C206_idle",
    "C206_colours",
    "C206_length_refuted",
    "C206_reset_refuted"
   ],
   "note": "REFUTED: every curve always has nIters points, those of frames not yet run being at zero; after a reset the curve of instantaneous Strehl ratios still shows the frames of the run before, because reset_loop does not clear instStrehl; and cameras seven apart share a colour. Proved: updates never raise, leave exactly two curves per camera, whose points are those of the last frame with that index since the last reset; cameras less than seven apart and successive runs have different colours; the labels show the last frame. Formatting of the labels and matplotlib are not modelled."
  },
  {
   "property": "C207",
   "status": "proved",
   "theorems": [
    "C207_slopes"
   ],
   "note": "for one sub-aperture at a time; without noise and frame delay; the bounds are on the geometry and the numbers, the sizes within them are arbitrary"
  },
  {
   "property": "C208",
   "status": "partial",
   "theorems": [
    "C208_reads_back",
    "C208_forgotten_refuted",
    "C208_current_refuted",
    "C208_height_refuted",
    "C208_legacy_partial",
    "C208_cone_refuted"
   ],
   "note": "REFUTED: both read back as set, but a current light path goes on reading what it read when it was built (calcInitParams brings in the position but never the height); a legacy one follows the position, but keeps the old cone through the screens while using the new one through the mirrors; and on a sensor a position set is undone by the next calcParams and never reaches GSPosition, which the laser and the sodium layers take."
  },
  {
   "property": "C209",
   "status": "proved",
   "theorems": [
    "C209_surface",
    "C209_screen"
   ],
   "note": "for mirrors without rotation, not wider than the screen; commands in double precision"
  },
  {
   "property": "C210",
   "status": "proved",
   "theorems": [
    "C210_slopes"
   ],
   "note": "for one sub-aperture at a time; without noise and frame delay; mirrors in closed loop, without rotation, not wider than the screen"
  },
  {
   "property": "C211",
   "status": "proved",
   "theorems": [
    "C211_loop",
    "C211_delay"
   ],
   "note": "gradient sensors without noise and frame delay, read out in every frame; mirrors in closed loop, without rotation, not wider than the screen"
  },
  {
   "property": "C212",
   "status": "proved",
   "theorems": [
    "C212_interaction",
    "C212_loop",
    "C212_delay",
    "C212_measured"
   ],
   "note": "as C211; all actuators kept when the interaction matrix is made; how the control matrix is computed from it is not part of this theorem"
  },
  {
   "property": "C213",
   "status": "proved",
   "theorems": [
    "C213_kept",
    "C213_effect"
   ],
   "note": "largest element between 2^-1000 and 2^1000; the second theorem for gradient sensors"
  }
 ]
}
{"id": "C01", "title": "Loop delay is exact", "statement": "With a constant loopDelay of d frames, the command vector applied to the mirrors in frame n is the one the controller produced in frame n-d, and an all-zero vector in the first d frames; nothing is skipped, repeated or reordered.", "quantifier": "every delay d >= 0, every run length, every sequence of command vectors", "why_tests_cant": "A test fixes one d and one short run; the claim is about every run length and the queue state after arbitrarily many frames.", "anchors": ["soapy/simulation.py:DelayBuffer.delay", "soapy/simulation.py:Sim.loopFrame"]}
{"id": "C02", "title": "Loop delay when the delay setting changes during a run", "statement": "If the user changes loopDelay between frames, the value applied is always either the command computed exactly loopDelay frames ago or zero; it is zero exactly when the buffer does not reach back that far because the run is too young or an earlier, smaller setting discarded that history. No command is ever delivered out of order.", "quantifier": "every finite sequence of (command, non-negative delay) pairs", "why_tests_cant": "The state depends on the whole history of settings; tests sample a few histories.", "anchors": ["soapy/simulation.py:DelayBuffer.delay"]}
{"id": "C03", "title": "In-place command writes cannot corrupt delayed commands", "statement": "Although the loop overwrites its command array in place each frame, the arrays waiting in the delay buffer are never modified: each delivered array has the contents it had when it was enqueued.", "quantifier": "every delay sequence, every sequence of reconstructor outputs, with object identity of numpy arrays modelled", "why_tests_cant": "Aliasing bugs only show for particular interleavings of references; the claim is about every reachable heap.", "anchors": ["soapy/simulation.py:Sim.loopFrame", "soapy/simulation.py:DelayBuffer.delay"]}
{"id": "C04", "title": "reset_loop forgets the previous run", "statement": "After reset_loop the commands applied to the mirrors depend only on what happens after the reset.", "quantifier": "every history before the reset, every loopDelay", "why_tests_cant": "Needs a comparison of two arbitrary histories; a test with delay 0 (the default) cannot see the stale queue.", "anchors": ["soapy/simulation.py:Sim.reset_loop", "soapy/simulation.py:DelayBuffer"]}
{"id": "C05", "title": "WFS read-out schedule", "statement": "A WFS whose exposureTime is k loop periods is read on exactly every k-th frame; more generally, for exposureTime >= loopTime, after n frames it has been read floor(n*loopTime/exposureTime) times, and a WFS with exposureTime below loopTime is read on every frame.", "quantifier": "every number of frames, every loopTime and exposureTime, every number of WFSs", "why_tests_cant": "The schedule is an infinite sequence; an off-by-one may only appear after many frames.", "anchors": ["soapy/simulation.py:Sim.runWfs_noMP"]}
{"id": "C06", "title": "Read-out schedule restarts with reset_loop", "statement": "After reset_loop the frames on which each WFS is read are the same as after a fresh initialisation.", "quantifier": "every history before the reset, every exposure ratio", "why_tests_cant": "Depends on a counter that survives the reset, visible only for exposures longer than a loop period.", "anchors": ["soapy/simulation.py:Sim.reset_loop", "soapy/simulation.py:Sim.runWfs_noMP"]}
{"id": "C07", "title": "Multi-process and single-process WFS reads agree", "statement": "Switching wfsMP on or off does not change on which frames a WFS is read out.", "quantifier": "every frame index and exposure ratio", "why_tests_cant": "Two implementations have to agree on infinite sequences of frames.", "anchors": ["soapy/simulation.py:Sim.runWfs_noMP", "soapy/simulation.py:Sim.runWfs_MP"]}
{"id": "C08", "title": "Detector integrates exactly one exposure", "statement": "The image that is centroided at a read is the sum of the focal-plane intensities of exactly the frames since the previous read, with no light lost, duplicated or carried over to the next exposure.", "quantifier": "every read schedule and every sequence of focal-plane intensities", "why_tests_cant": "The claim relates accumulators across an unbounded history of read/no-read frames.", "anchors": ["soapy/wfs/wfs.py:WFS.frame", "soapy/wfs/shackhartmann.py:ShackHartmann.zeroData", "soapy/wfs/shackhartmann.py:ShackHartmann.calcFocalPlane", "soapy/wfs/shackhartmann.py:ShackHartmann.integrateDetectorPlane"]}
{"id": "C09", "title": "Slopes on frames without a read", "statement": "On a frame where the WFS is not read the sensor provides the previous (old) slopes, as documented for runWfs.", "quantifier": "every read schedule", "why_tests_cant": "A test with exposureTime equal to loopTime never takes that path.", "anchors": ["soapy/wfs/wfs.py:WFS.frame", "soapy/simulation.py:Sim.runWfs_noMP"]}
{"id": "C10", "title": "Measurement vector layout", "statement": "The concatenated measurement vector holds each WFS's slopes once, in WFS order, in the index range announced for that WFS; the ranges are contiguous, disjoint and cover the vector.", "quantifier": "every number of WFSs and every measurement count per WFS", "why_tests_cant": "Layouts with many unequal sensors are unbounded in number.", "anchors": ["soapy/simulation.py:Sim.aoinit", "soapy/simulation.py:Sim.runWfs_noMP"]}
{"id": "C11", "title": "Gain law", "statement": "With a fixed gain g, a closed DM's commands are the integral g*sum of all reconstructed vectors since the last reset, and an open DM's commands are the exponential filter a' = g*new + (1-g)*a; each DM uses its own gain and its commands are not influenced by the other DMs.", "quantifier": "every number of DMs, every command length, every gain, every number of frames", "why_tests_cant": "The integrator's state depends on the whole history of frames.", "anchors": ["soapy/reconstruction.py:Reconstructor.apply_gain", "soapy/reconstruction.py:Reconstructor.reconstruct", "soapy/reconstruction.py:Reconstructor.reset"]}
{"id": "C12", "title": "Command vector layout", "statement": "The command vector is split among the DMs into contiguous, disjoint, covering slices, in DM order, of length equal to the DM's number of valid actuators, and the simulation and the reconstructor use the same split.", "quantifier": "every number of DMs and every set of valid actuators", "why_tests_cant": "Index bookkeeping over unbounded lists; off-by-one errors depend on the combination.", "anchors": ["soapy/simulation.py:Sim.makeIMat", "soapy/simulation.py:Sim.runDM", "soapy/reconstruction.py:Reconstructor.apply_gain", "soapy/reconstruction.py:Reconstructor.makeIMat"]}
{"id": "C13", "title": "Interaction matrix rows match actuators", "statement": "Row k of the interaction matrix is minus the WFS response to poking the same actuator of the same DM that element k of the command vector drives afterwards.", "quantifier": "every list of DMs, every pattern of valid actuators, every WFS response function", "why_tests_cant": "Relates calibration to operation through two filtering steps, for every pattern of dropped actuators.", "anchors": ["soapy/reconstruction.py:Reconstructor.makeIMat", "soapy/reconstruction.py:Reconstructor.make_dm_iMat", "soapy/DM.py:DM.valid_actuators", "soapy/simulation.py:Sim.runDM"]}
{"id": "C14", "title": "Actuator rejection threshold", "statement": "An actuator is kept exactly when its largest absolute WFS response exceeds 0.001 times the DM's largest response; kept actuators keep their order, and n_valid_actuators counts them. A DM no WFS can see keeps no actuator.", "quantifier": "every response matrix", "why_tests_cant": "Quantifies over all real matrices including all-zero and tied maxima.", "anchors": ["soapy/reconstruction.py:Reconstructor.make_dm_iMat", "soapy/DM.py:DM.valid_actuators"]}
{"id": "C15", "title": "Recalibrating the same simulation", "statement": "Calling makeIMat a second time on the same simulation succeeds and gives the same interaction matrix.", "quantifier": "every pattern of rejected actuators", "why_tests_cant": "Only histories in which the first calibration rejects an actuator distinguish the behaviours.", "anchors": ["soapy/reconstruction.py:Reconstructor.make_dm_iMat", "soapy/DM.py:DM.valid_actuators", "soapy/simulation.py:Sim.makeIMat"]}
{"id": "C16", "title": "Per-DM sub-matrix extraction", "statement": "The per-DM interaction matrix returned for one DM contains exactly that DM's rows.", "quantifier": "every list of DMs and every pattern of valid actuators", "why_tests_cant": "Wrong only when an earlier DM lost actuators.", "anchors": ["soapy/reconstruction.py:Reconstructor.get_dm_imat", "soapy/reconstruction.py:MVM_SeparateDMs.calcCMat"]}
{"id": "C17", "title": "Calibration leaves the noise settings unchanged", "statement": "Building the interaction matrix or taking an iMat frame leaves the WFS noise and removeTT settings as the user set them.", "quantifier": "every noise setting and every iMat option, including a frame that raises", "why_tests_cant": "Restoration must hold on every path, including exceptional ones.", "anchors": ["soapy/reconstruction.py:Reconstructor.make_dm_iMat", "soapy/wfs/wfs.py:WFS.frame"]}
{"id": "C18", "title": "Interaction matrix save/load round trip", "statement": "Loading an interaction matrix saved by the same configuration restores the same matrix and the same valid actuators for every DM.", "quantifier": "every list of DMs, every pattern of valid actuators, every matrix", "why_tests_cant": "Round trip over unbounded data.", "anchors": ["soapy/reconstruction.py:Reconstructor.save_interaction_matrix", "soapy/reconstruction.py:Reconstructor.load_interaction_matrix"]}
{"id": "C19", "title": "A rejected load leaves the simulation usable", "statement": "If loading a stored interaction matrix fails, the system is as if no load had been attempted, so the fall-back calibration works.", "quantifier": "every stored file content and configuration", "why_tests_cant": "Depends on partial effects of a multi-step load that fails at its last step.", "anchors": ["soapy/reconstruction.py:Reconstructor.load_interaction_matrix", "soapy/reconstruction.py:Reconstructor.makeCMat"]}
{"id": "C20", "title": "Saving calibration is crash safe", "statement": "If the process dies while saving an interaction matrix, a later load either rejects the files or returns one consistent calibration, never a mixture of two.", "quantifier": "every crash point in the save and every previous file content", "why_tests_cant": "Crash points are not reachable from unit tests.", "anchors": ["soapy/reconstruction.py:Reconstructor.save_interaction_matrix", "soapy/reconstruction.py:Reconstructor.load_interaction_matrix"]}
{"id": "C21", "title": "Control matrix load checks", "statement": "A stored control matrix is used only if its SVD conditioning and its shape agree with the current configuration; otherwise a new one is computed.", "quantifier": "every stored header and shape", "why_tests_cant": "All header/shape combinations.", "anchors": ["soapy/reconstruction.py:Reconstructor.loadCMat", "soapy/reconstruction.py:Reconstructor.makeCMat"]}
{"id": "C22", "title": "Matrix-vector reconstruction is linear", "statement": "With matrix-vector reconstructors, and gains fixed, the mirror commands after any number of frames depend linearly on the sequence of slopes.", "quantifier": "every control matrix, gain, frame count and slope sequence", "why_tests_cant": "Linearity over all sequences.", "anchors": ["soapy/reconstruction.py:Reconstructor.reconstruct", "soapy/reconstruction.py:MVM.reconstruct", "soapy/reconstruction.py:Reconstructor.apply_gain"]}
{"id": "C23", "title": "DM frame size", "statement": "The correction returned by a DM always has the shape of the simulation's screens, whatever the DM's diameter, altitude or field of view.", "quantifier": "every DM size and screen size", "why_tests_cant": "Crop/pad arithmetic only fails for particular parities.", "anchors": ["soapy/DM.py:DM.dmFrame", "soapy/DM.py:DM.__init__"]}
{"id": "C24", "title": "DM surfaces superpose", "statement": "The surface of a DM is the sum over its valid actuators of command times influence function; it is linear in the commands and, after piston removal, has zero mean.", "quantifier": "every command vector and set of influence functions", "why_tests_cant": "Linearity over all vectors.", "anchors": ["soapy/DM.py:DM.makeDMFrame", "soapy/DM.py:DM.dmFrame"]}
{"id": "C25", "title": "Open and closed DMs are applied exactly once", "statement": "In each frame the combined correction seen by the science cameras contains every DM's current surface exactly once, each DM being in the closed or the open group according to its setting; the closed group only is seen by the WFSs.", "quantifier": "every number of DMs, every assignment of closed/open flags, every command history", "why_tests_cant": "Quantifies over all histories and flag patterns (including flags changed during the run).", "anchors": ["soapy/simulation.py:Sim.runDM", "soapy/simulation.py:Sim.loopFrame"]}
{"id": "C26", "title": "Phase-screen window stays inside the screen", "statement": "With finite phase screens, the region sampled for each layer lies inside the stored screen on every frame.", "quantifier": "every wind velocity, screen size, window size not larger than the screen, and number of frames", "why_tests_cant": "The position is an unbounded trajectory; wrap-around happens rarely.", "anchors": ["soapy/atmosphere.py:atmos.moveScrns"]}
{"id": "C27", "title": "Frozen flow", "statement": "With finite screens, successive frames show the same turbulence displaced by the wind velocity, with cyclic continuation of the stored screen and no jump when the window wraps.", "quantifier": "every wind velocity, every screen and number of frames", "why_tests_cant": "Jumps occur only on wrap frames, which depend on sizes and velocities.", "anchors": ["soapy/atmosphere.py:atmos.moveScrns", "soapy/atmosphere.py:atmos.__init__"]}
{"id": "C28", "title": "Infinite screens advance at the wind speed", "statement": "With infinite screens, after n frames exactly floor(n*v) rows have been added, the sub-pixel offset is in [0,1), and the total displacement is n*v.", "quantifier": "every wind speed and number of frames", "why_tests_cant": "Telescoping claim about an unbounded run.", "anchors": ["soapy/atmosphere.py:InfinitePhaseScreen.move_screen"]}
{"id": "C29", "title": "Layer strengths are normalised", "statement": "The turbulence strengths used per layer are proportional to the configured ones and sum to one.", "quantifier": "every list of strengths with non-zero sum", "why_tests_cant": "All profiles.", "anchors": ["soapy/atmosphere.py:atmos.__init__"]}
{"id": "C30", "title": "Line of sight superposition", "statement": "Without a correction the phase of a geometric line of sight is the sum over layers of the layer's phase at that direction's footprint, is linear in the screens and does not depend on earlier frames.", "quantifier": "every number of layers, every screens, every call history", "why_tests_cant": "History independence over arbitrary sequences.", "anchors": ["soapy/lineofsight.py:LineOfSight.makePhaseGeometric", "soapy/lineofsight.py:LineOfSight.frame", "soapy/lineofsight.py:LineOfSight.zeroData"]}
{"id": "C31", "title": "Footprints stay inside the screens", "statement": "All interpolation coordinates of a line of sight lie inside the phase screens, so no sample is taken outside the stored data.", "quantifier": "every guide star position, height, layer altitude and screen size", "why_tests_cant": "Boundary case analysis over all geometries.", "anchors": ["soapy/lineofsight.py:LineOfSight.calcInitParams", "soapy/lineofsight.py:LineOfSight.calculate_altitude_coords"]}
{"id": "C32", "title": "Cone effect geometry", "statement": "For a source at height H the footprint at altitude h has diameter (1-h/H) times the pupil and is centred on the line from the pupil to the source; layers above the source are not sampled with a negative size.", "quantifier": "every altitude, height and position", "why_tests_cant": "Geometry for all reals.", "anchors": ["soapy/lineofsight.py:LineOfSight.calculate_altitude_coords"]}
{"id": "C33", "title": "Physical propagation distance", "statement": "In physical mode the propagation distances between layers add up to the whole path from the highest layer (or the source) to the telescope, with each layer's phase applied once.", "quantifier": "every increasing list of layer altitudes, source height and direction", "why_tests_cant": "Telescoping sum over unbounded lists.", "anchors": ["soapy/lineofsight.py:LineOfSight.physical_atmosphere_propagation"]}
{"id": "C34", "title": "Residual phase units", "statement": "The array returned by a line-of-sight frame is in the same unit whether or not a correction is supplied and for both propagation directions.", "quantifier": "every screen, correction and direction", "why_tests_cant": "Unit errors show only as scale factors on some paths.", "anchors": ["soapy/lineofsight.py:LineOfSight.frame", "soapy/lineofsight.py:LineOfSight.performCorrection"]}
{"id": "C35", "title": "Bilinear interpolation is exact and bounded", "statement": "Interpolation at grid points returns the data, reproduces bilinear functions exactly, and every interpolated value lies between the minimum and maximum of the data; no element outside the array is read for coordinates in range.", "quantifier": "every array size >= 2x2, every data, every coordinate in range", "why_tests_cant": "All reals and sizes, including the last row and column.", "anchors": ["soapy/numbalib/numbalib.py:bilinear_interp", "soapy/numbalib/numbalib.py:bilinear_interp_numba_inbounds", "soapy/numbalib/numbalib.py:bilinear_interp_numba"]}
{"id": "C36", "title": "Zoom is consistent", "statement": "Zooming an array to its own size returns it unchanged, constants are preserved, and every output is a convex combination of inputs.", "quantifier": "every size and data", "why_tests_cant": "All sizes including 2 and non-square.", "anchors": ["soapy/numbalib/numbalib.py:zoom", "soapy/numbalib/wfslib.py:zoomtoefield"]}
{"id": "C37", "title": "Binning conserves flux", "statement": "Binning an image by an integer factor conserves the total intensity, each input pixel contributing to exactly one output pixel.", "quantifier": "every factor, output size and image", "why_tests_cant": "All sizes; an index slip preserves many small examples.", "anchors": ["soapy/numbalib/numbalib.py:bin_img", "soapy/numbalib/wfslib.py:bin_imgs", "soapy/interp.py:binImgs"]}
{"id": "C38", "title": "In-place FFT shift", "statement": "The in-place shift swaps the quadrants exactly as numpy.fft.fftshift does and applying it twice is the identity.", "quantifier": "every array size", "why_tests_cant": "Odd sizes and sequential in-place updates.", "anchors": ["soapy/numbalib/numbalib.py:fftshift_2d_inplace"]}
{"id": "C39", "title": "Multi-process FFT reassembles in order", "statement": "The multi-process FFT returns, for every row of the input, the transform of that row in its place, for any number of processes and any completion order.", "quantifier": "every number of rows, processes >= 1 and completion schedule", "why_tests_cant": "Schedules and sizes are unbounded.", "anchors": ["soapy/AOFFT.py:mpFFT"]}
{"id": "C40", "title": "ftShift2d swaps quadrants", "statement": "The FFT shift helper moves the zero frequency to the centre of the array.", "quantifier": "every array", "why_tests_cant": "A statement about all index positions.", "anchors": ["soapy/AOFFT.py:ftShift2d"]}
{"id": "C41", "title": "Sub-aperture windows", "statement": "Each sub-aperture's detector window lies inside the detector, windows of different sub-apertures do not overlap when centroiding, and each window has pxlsPerSubap^2 pixels.", "quantifier": "every number of sub-apertures, pixels per sub-aperture and active pattern", "why_tests_cant": "All layouts.", "anchors": ["soapy/wfs/shackhartmann.py:ShackHartmann.findActiveSubaps"]}
{"id": "C42", "title": "Placing sub-apertures on the detector conserves light", "statement": "The source and destination windows used to place an oversized sub-aperture image on the detector have the same size, so all light that falls on the detector is added once.", "quantifier": "every sub-aperture position, size and oversize factor", "why_tests_cant": "Edge sub-apertures and odd sizes.", "anchors": ["soapy/wfs/shackhartmann.py:ShackHartmann.findActiveSubaps", "soapy/numbalib/wfslib.py:place_subaps_on_detector"]}
{"id": "C43", "title": "Guide star magnitude sets the detected flux", "statement": "After read-out the noiseless detector sums to the number of photons configured by the guide star magnitude, independent of exposure structure.", "quantifier": "every non-zero accumulated image", "why_tests_cant": "All images.", "anchors": ["soapy/wfs/shackhartmann.py:ShackHartmann.readDetectorPlane", "soapy/wfs/shackhartmann.py:ShackHartmann.photons_per_mag"]}
{"id": "C44", "title": "Tip-tilt removal", "statement": "With removeTT enabled the mean x slope and mean y slope are zero and differences between sub-apertures are unchanged; applying it twice equals applying it once.", "quantifier": "every slope vector and number of sub-apertures", "why_tests_cant": "All vectors.", "anchors": ["soapy/wfs/shackhartmann.py:ShackHartmann.calculateSlopes", "soapy/wfs/gradient.py:Gradient.calculateSlopes", "soapy/reconstruction.py:removeCommonTT"]}
{"id": "C45", "title": "FFT padding choice", "statement": "The FFT padding loops terminate and give a padding at least as large as the field they must hold, a multiple of the detector sampling.", "quantifier": "every size", "why_tests_cant": "Termination and arithmetic for all integers.", "anchors": ["soapy/wfs/shackhartmann.py:ShackHartmann.initFFTs", "soapy/scienceinstrument.py:PSFCamera.__init__"]}
{"id": "C46", "title": "Gradient WFS measures tilt", "statement": "The gradient WFS is insensitive to piston, linear in the phase, and reports unit slope for a unit tilt across a sub-aperture and zero cross-talk to the other axis.", "quantifier": "every sub-aperture size and phase", "why_tests_cant": "All phases and sizes.", "anchors": ["soapy/wfs/gradient.py:Gradient.calculateSlopes", "soapy/wfs/gradient.py:Gradient.calcInitParams"]}
{"id": "C47", "title": "Gradient WFS accepts every sub-aperture count", "statement": "A gradient WFS frame succeeds for every number of sub-apertures across the pupil.", "quantifier": "every pupil size and sub-aperture count", "why_tests_cant": "Rounding mismatch depends on the pair of sizes.", "anchors": ["soapy/wfs/gradient.py:Gradient.calcFocalPlane", "soapy/wfs/gradient.py:Gradient.allocDataArrays"]}
{"id": "C48", "title": "Pyramid slopes", "statement": "Pyramid slopes do not depend on the flux scale, are bounded, and a flat wavefront (any piston) gives exactly zero slopes.", "quantifier": "every detector image with positive total flux, every optical propagation operator that is linear", "why_tests_cant": "All images.", "anchors": ["soapy/wfs/pyramid.py:Pyramid.calculateSlopes", "soapy/wfs/pyramid.py:Pyramid.calcFlatSlopes"]}
{"id": "C49", "title": "Pyramid frames are history independent", "statement": "The pyramid detector image of a frame is determined by that frame's phase and the configured modulation points only.", "quantifier": "every nb_modulation and every earlier memory content", "why_tests_cant": "Uninitialised or stale memory is not controllable from a test.", "anchors": ["soapy/wfs/pyramid.py:Pyramid.initFFTs", "soapy/wfs/pyramid.py:Pyramid.calcFocalPlane"]}
{"id": "C50", "title": "Configuration parameters: required, optional, unknown", "statement": "Loading a configuration fails with ConfigurationError exactly when a required parameter is missing; missing optional parameters take their documented defaults; given values are used; unknown keys are ignored.", "quantifier": "every configuration dictionary", "why_tests_cant": "All dictionaries.", "anchors": ["soapy/confParse.py:ConfigObj.loadParams"]}
{"id": "C51", "title": "Misspelt attributes are rejected", "statement": "Setting any attribute that is not a declared parameter of a configuration object raises ConfigurationError and leaves it unchanged; declared parameters can be set and read back.", "quantifier": "every attribute name and value", "why_tests_cant": "All names.", "anchors": ["soapy/confParse.py:ConfigObj.__setattr__", "soapy/confParse.py:ConfigObj.__iter__"]}
{"id": "C52", "title": "Simulation sizes", "statement": "simSize = pupilSize + 2*simPad with simPad >= 1, the atmosphere screens are even-sized and at least simSize, and pixel scale is consistent.", "quantifier": "every pupil size, oversize factor and field geometry", "why_tests_cant": "Rounding over all rationals.", "anchors": ["soapy/confParse.py:PY_Configurator.calcParams"]}
{"id": "C53", "title": "Screens cover every line of sight", "statement": "The screen size chosen by the configuration covers the footprint of every WFS and science target at every layer.", "quantifier": "every set of positions and altitudes", "why_tests_cant": "Depends on signs and maxima over unbounded lists.", "anchors": ["soapy/confParse.py:PY_Configurator.calcParams", "soapy/lineofsight.py:LineOfSight.calcInitParams"]}
{"id": "C54", "title": "Re-deriving the configuration", "statement": "Recomputing the derived parameters after the user edits a configuration gives the same result as loading a configuration with those values, and recomputing twice changes nothing.", "quantifier": "every sequence of edits and recomputations", "why_tests_cant": "Histories of edits.", "anchors": ["soapy/confParse.py:PY_Configurator.calcParams", "soapy/simulation.py:Sim.aoinit"]}
{"id": "C55", "title": "Number of frames run", "statement": "aoloop runs exactly nIters minus the current iteration count frames (none if negative), and saves and reports once however it ends, including a keyboard interrupt at any frame.", "quantifier": "every nIters, iteration count and interrupt position", "why_tests_cant": "Interrupt points are not reachable from tests.", "anchors": ["soapy/simulation.py:Sim.aoloop"]}
{"id": "C56", "title": "Per-frame records are a ring buffer", "statement": "After any number of frames the recorded slopes, commands and Strehls hold the values of the last nIters frames, each at index frame mod nIters, and never raise.", "quantifier": "every number of frames and nIters >= 1, every save option", "why_tests_cant": "Continuous running wraps the index arbitrarily often.", "anchors": ["soapy/simulation.py:Sim.storeData", "soapy/simulation.py:Sim.initSaveData"]}
{"id": "C57", "title": "Background loop start and stop", "statement": "Starting twice creates at most one loop thread; when stop returns no further frame is executed; data are saved once per stop; frames are never run concurrently.", "quantifier": "every interleaving of start/stop calls with the loop thread's steps", "why_tests_cant": "Schedules.", "anchors": ["soapy/simulation.py:Sim.start_aoloop_thread", "soapy/simulation.py:Sim.stop_aoloop_thread", "soapy/simulation.py:Sim._aoloop_thread"]}
{"id": "C58", "title": "What reset_loop clears", "statement": "After reset_loop the iteration counter, slopes, commands, recorded Strehls, science images and mirror shapes are zero and calibration data are kept.", "quantifier": "every state", "why_tests_cant": "All states.", "anchors": ["soapy/simulation.py:Sim.reset_loop", "soapy/reconstruction.py:Reconstructor.reset", "soapy/DM.py:DM.reset", "soapy/scienceinstrument.py:PSFCamera.reset"]}
{"id": "C59", "title": "Pupil mask shape", "statement": "The pupil mask always has shape simSize x simSize or a ValueError is raised; a user mask of pupil size is centred with zero padding.", "quantifier": "every user mask shape", "why_tests_cant": "All shapes.", "anchors": ["soapy/simulation.py:make_mask"]}
{"id": "C60", "title": "Science image normalisation", "statement": "Science images sum to one, the long exposure image is the normalised sum of all frames since the last reset, and Strehl is one for an uncorrected flat wavefront.", "quantifier": "every sequence of non-zero images", "why_tests_cant": "Unbounded accumulation.", "anchors": ["soapy/scienceinstrument.py:PSFCamera.calcFocalPlane", "soapy/scienceinstrument.py:PSFCamera.calcInstStrehl", "soapy/scienceinstrument.py:PSFCamera.reset"]}
{"id": "C61", "title": "Science focal-plane geometry", "statement": "The aperture is placed centrally in the FFT array with its exact size, and the cropped focal plane has the size the detector binning expects.", "quantifier": "every field of view, detector size, pupil size and oversampling", "why_tests_cant": "Parity failures for some combinations only.", "anchors": ["soapy/scienceinstrument.py:PSFCamera.__init__", "soapy/scienceinstrument.py:PSFCamera.calcFocalPlane"]}
{"id": "C62", "title": "Wavefront error ignores piston", "statement": "The reported wavefront error is invariant under adding piston, zero for a flat wavefront, scales linearly with the phase, and its square is the variance over the pupil.", "quantifier": "every phase and binary mask", "why_tests_cant": "All phases.", "anchors": ["soapy/scienceinstrument.py:PSFCamera.calc_wavefronterror"]}
{"id": "C63", "title": "LGS launch geometry", "statement": "The uplink meta-pupil is at the launch position on the ground, at the guide star position at the LGS height, and moves affinely in between.", "quantifier": "every launch and guide star position, LGS height and layer height", "why_tests_cant": "All reals.", "anchors": ["soapy/LGS.py:lgsOALaunchMetaPupilPos"]}
{"id": "C64", "title": "LGS elongation central layer", "statement": "The central elongation layer of an LGS is at the configured guide-star position and height, with elongation layers spaced symmetrically over the configured depth.", "quantifier": "every depth, number of layers and position", "why_tests_cant": "All geometries.", "anchors": ["soapy/wfs/wfs.py:WFS.calcElongPos", "soapy/wfs/wfs.py:WFS.calcElongPhaseAddition"]}
{"id": "C65", "title": "Logging verbosity is monotone", "statement": "Raising the verbosity never suppresses a message; a message of level l is logged exactly when verbosity >= l; print_ always logs.", "quantifier": "every verbosity and message level", "why_tests_cant": "Small but total claim.", "anchors": ["soapy/logger.py:_printMessage", "soapy/logger.py:print_"]}
{"id": "C66", "title": "Calibration noise setting", "statement": "With imat_noise on, calibration frames are measured with the noise settings of the WFS.", "quantifier": "every WFS noise setting", "why_tests_cant": "A claim about every combination of two switches handled in two different functions.", "anchors": ["soapy/reconstruction.py:Reconstructor.make_dm_iMat", "soapy/wfs/wfs.py:WFS.frame"]}
{"id": "C67", "title": "Reloading a calibration in the same session", "statement": "Calling makeIMat again with loading enabled in a session whose calibration was saved finds the saved calibration.", "quantifier": "every system and every pattern of rejected actuators", "why_tests_cant": "Depends on the history of the session.", "anchors": ["soapy/reconstruction.py:Reconstructor.load_interaction_matrix", "soapy/simulation.py:Sim.makeIMat"]}
{"id": "C68", "title": "The control matrix belongs to the interaction matrix", "statement": "After makeCMat the control matrix in use was computed from the interaction matrix in use.", "quantifier": "every content of the calibration directory and every combination of load flags", "why_tests_cant": "Depends on files left by earlier sessions.", "anchors": ["soapy/reconstruction.py:Reconstructor.makeCMat", "soapy/reconstruction.py:Reconstructor.loadCMat"]}
{"id": "C69", "title": "DM rotation", "statement": "A DM with a configured rotation applies its surface rotated by that angle.", "quantifier": "every rotation, DM class and command vector", "why_tests_cant": "The claim is for every angle; the code path is never run by the tests.", "anchors": ["soapy/DM.py:DM.dmFrame"]}
{"id": "C70", "title": "Infinite-screen columns show their own turbulence", "statement": "Every pixel column of an infinite phase screen shows its own column of the stored turbulence.", "quantifier": "every screen size, wind and frame", "why_tests_cant": "An edge effect that is there on every frame, whatever the random screen.", "anchors": ["soapy/atmosphere.py:InfinitePhaseScreen.move_screen", "soapy/numbalib/numbalib.py:bilinear_interp"]}
{"id": "C71", "title": "Wind direction means the same for all screens", "statement": "A configured wind direction moves the turbulence the same way for finite and infinite screens, and for cardinal and oblique directions.", "quantifier": "every direction, wind speed and screen", "why_tests_cant": "A relation between different code paths over all directions.", "anchors": ["soapy/atmosphere.py:atmos.moveScrns", "soapy/atmosphere.py:InfinitePhaseScreen.move_screen", "soapy/atmosphere.py:InfinitePhaseScreen.rotate_screen"]}
{"id": "C72", "title": "Oblique infinite screens stay in bounds", "statement": "An infinite screen with an oblique wind direction is sampled inside the enlarged stored screen and returns values within its range.", "quantifier": "every direction and screen size", "why_tests_cant": "All real angles.", "anchors": ["soapy/atmosphere.py:InfinitePhaseScreen.rotate_screen"]}
{"id": "C73", "title": "Requested coherence time", "statement": "When a coherence time is requested, the scaled wind speeds have exactly that coherence time.", "quantifier": "every r0, layer strengths, wind speeds and requested value", "why_tests_cant": "All reals.", "anchors": ["soapy/atmosphere.py:atmos.__init__"]}
{"id": "C74", "title": "Conjugate correction cancels", "statement": "Correcting a line of sight with DM surfaces equal to the turbulence at their conjugate altitudes leaves no residual phase.", "quantifier": "every direction, source height, propagation direction, screens and history", "why_tests_cant": "A cancellation at every pixel for all geometries.", "anchors": ["soapy/lineofsight.py:LineOfSight.frame", "soapy/lineofsight.py:LineOfSight.performCorrection"]}
{"id": "C75", "title": "Physical lines of sight report their phase", "statement": "The array returned by a line-of-sight frame in physical mode reflects the turbulence along that line of sight.", "quantifier": "every screens, direction and source", "why_tests_cant": "A claim about every frame of one propagation mode.", "anchors": ["soapy/lineofsight.py:LineOfSight.frame", "soapy/lineofsight.py:LineOfSight.makePhasePhys"]}
{"id": "C76", "title": "Sub-apertures cut the field into tiles", "statement": "The piece of the wavefront each sub-aperture sees lies inside the interpolated field, and neighbouring pieces touch without overlapping.", "quantifier": "every pupil size, padding, number of sub-apertures and field sampling", "why_tests_cant": "Rounding of coordinates depends on every combination of sizes.", "anchors": ["soapy/wfs/shackhartmann.py:ShackHartmann.findActiveSubaps", "soapy/wfs/shackhartmann.py:ShackHartmann.calcInitParams", "soapy/numbalib/wfslib.py:chop_subaps_mask"]}
{"id": "C77", "title": "Which sub-apertures are used", "statement": "Every pupil pixel belongs to exactly one sub-aperture, and a sub-aperture is used exactly when the mean of the mask over its pixels reaches the threshold; none is used twice.", "quantifier": "every mask, number of sub-apertures and threshold", "why_tests_cant": "All masks and sizes, including sizes that do not divide.", "anchors": ["soapy/wfs/shackhartmann.py:findActiveSubaps"]}
{"id": "C78", "title": "Throughput scales the detected flux", "statement": "The flux on the noiseless detector is the configured throughput times the photons collected from the guide star.", "quantifier": "every throughput, magnitude, exposure and image", "why_tests_cant": "A law over all real throughputs.", "anchors": ["soapy/wfs/shackhartmann.py:ShackHartmann.readDetectorPlane", "soapy/confParse.py:WfsConfig"]}
{"id": "C79", "title": "Flat wavefronts measure zero", "statement": "A Shack-Hartmann sensor without noise measures exactly zero slopes for a flat wavefront, whatever was measured before.", "quantifier": "every optics, centroider, history of frames ending in a read", "why_tests_cant": "All optical configurations and histories.", "anchors": ["soapy/wfs/shackhartmann.py:ShackHartmann.getStatic", "soapy/wfs/shackhartmann.py:ShackHartmann.calculateSlopes", "soapy/wfs/wfs.py:WFS.frame"]}
{"id": "C80", "title": "Partially lit sub-apertures receive light in proportion to their lit area", "statement": "The relative flux of two sub-apertures on the detector is the ratio of their lit areas.", "quantifier": "every pair of sub-apertures and fill factors", "why_tests_cant": "All masks.", "anchors": ["soapy/wfs/shackhartmann.py:ShackHartmann.integrateDetectorPlane", "soapy/wfs/shackhartmann.py:ShackHartmann.setMask"]}
{"id": "C81", "title": "Physical Shack-Hartmann frames see the turbulence", "statement": "In physical propagation mode the sub-aperture fields are those of the propagated complex amplitude.", "quantifier": "every complex amplitude", "why_tests_cant": "A claim about every input of one propagation mode.", "anchors": ["soapy/wfs/shackhartmann.py:ShackHartmann.calcFocalPlane", "soapy/interp.py:zoom"]}
{"id": "C82", "title": "Every type of sensor can be used in a simulation", "statement": "Initialising a simulation with any of the sensor types the library offers succeeds, and the length of the slope vector is the sum of the sensors' numbers of measurements.", "quantifier": "every list of sensors", "why_tests_cant": "All combinations of sensors.", "anchors": ["soapy/simulation.py:Sim.aoinit", "soapy/wfs/gradient.py:Gradient", "soapy/wfs/zernike.py:Zernike"]}
{"id": "C83", "title": "Elongated guide stars work with every sensor type", "statement": "A frame with an elongated laser guide star succeeds on every sensor type.", "quantifier": "every sensor type and number of sodium layers", "why_tests_cant": "All layer counts and classes.", "anchors": ["soapy/wfs/wfs.py:WFS.makeElongationFrame", "soapy/wfs/gradient.py:Gradient.calcFocalPlane", "soapy/wfs/pyramid.py:Pyramid.calcFocalPlane"]}
{"id": "C84", "title": "Long exposures of gradient and pyramid sensors integrate", "statement": "With an exposure of several loop periods the measurement of a gradient or pyramid sensor averages over all frames of the exposure.", "quantifier": "every history of frames", "why_tests_cant": "A claim about all histories.", "anchors": ["soapy/wfs/wfs.py:WFS.frame", "soapy/wfs/gradient.py:Gradient.calcFocalPlane", "soapy/wfs/pyramid.py:Pyramid.calcFocalPlane"]}
{"id": "C85", "title": "Pyramid measurement count", "statement": "A pyramid sensor delivers exactly as many slopes per frame as it announces as its number of measurements.", "quantifier": "every pupil shape, detector size, separation and detector image", "why_tests_cant": "All masks and images.", "anchors": ["soapy/wfs/pyramid.py:Pyramid.calcDetectorMask", "soapy/wfs/pyramid.py:Pyramid.calculateSlopes"]}
{"id": "C86", "title": "Which sizes a pyramid accepts", "statement": "A pyramid sensor can be built exactly when the simulated aperture is even, bins exactly to an even detector and the four pupil images fit on it; otherwise it raises ValueError when it is built.", "quantifier": "every aperture size, pupil size, number of sub-apertures and separation", "why_tests_cant": "All combinations of sizes.", "anchors": ["soapy/wfs/pyramid.py:Pyramid.calcInitParams", "soapy/wfs/pyramid.py:Pyramid.calcDetectorMask", "soapy/wfs/pyramid.py:rebin"]}
{"id": "C87", "title": "Pyramid detectors conserve light", "statement": "The light on the pyramid detector equals the light through the pupil (up to the averaging of the binning), whatever the wavefront, modulation and earlier frames.", "quantifier": "every phase, modulation and memory content", "why_tests_cant": "All wavefronts and histories.", "anchors": ["soapy/wfs/pyramid.py:Pyramid.calcFocalPlane"]}
{"id": "C88", "title": "The reported Strehl is that of the last frame", "statement": "The Strehl ratio printed at the end of a run is the value recorded by the last frame run, whatever the number of frames and nIters.", "quantifier": "every number of frames and nIters >= 1", "why_tests_cant": "All run lengths relative to the record length.", "anchors": ["soapy/simulation.py:Sim.finishUp", "soapy/simulation.py:Sim.storeData"]}
{"id": "C89", "title": "The background loop can be restarted after a failed frame", "statement": "After a frame of the background loop raised an exception, start_aoloop_thread starts the loop again.", "quantifier": "every interleaving and frame at which the exception occurs", "why_tests_cant": "A claim about every crash point.", "anchors": ["soapy/simulation.py:Sim.start_aoloop_thread", "soapy/simulation.py:Sim._aoloop_thread"]}
{"id": "C90", "title": "User classes from a module", "statement": "With loadModule given, every component class (sensor, mirror, reconstructor, camera) is taken from the named module, and a missing class raises ConfigurationError.", "quantifier": "every component kind, module and class name", "why_tests_cant": "A claim about every module.", "anchors": ["soapy/simulation.py:Sim.aoinit"]}
{"id": "C91", "title": "Running again after reset", "statement": "After reset_loop a second run of the loop succeeds whenever the first did.", "quantifier": "every save option and run length", "why_tests_cant": "A claim about pairs of runs.", "anchors": ["soapy/simulation.py:Sim.reset_loop", "soapy/simulation.py:Sim.storeData"]}
{"id": "C92", "title": "Strehl ratio never exceeds one", "statement": "No wavefront has a larger Strehl ratio than the flat one, so reported Strehl ratios are between zero and one, and in tip-tilt mode equal the squared modulus of the mean complex amplitude over the aperture.", "quantifier": "every wavefront, aperture, detector and oversampling", "why_tests_cant": "A claim about every wavefront.", "anchors": ["soapy/scienceinstrument.py:PSFCamera.calcInstStrehl", "soapy/scienceinstrument.py:PSFCamera.calcFocalPlane"]}
{"id": "C93", "title": "Science focal plane is in frequency order", "statement": "Each focal-plane element is the far field of the aperture at its own angle from the optical axis, increasing along each axis and zero at the central element.", "quantifier": "every aperture field, transform size and element", "why_tests_cant": "A claim about every transform size.", "anchors": ["soapy/scienceinstrument.py:PSFCamera.calcFocalPlane", "soapy/numbalib/numbalib.py:fftshift_2d_inplace"]}
{"id": "C94", "title": "Sampling of science phase and mask", "statement": "Science phase is read inside the line-of-sight array, at the same points at which the aperture mask is sampled.", "quantifier": "every pupil size, padding and field of view", "why_tests_cant": "A claim about every size; the reads are not bounds-checked.", "anchors": ["soapy/scienceinstrument.py:PSFCamera.__init__", "soapy/interp.py:zoom", "soapy/numbalib/numbalib.py:bilinear_interp_numba_inbounds"]}
{"id": "C95", "title": "LGS uplink blurs without displacing", "statement": "With uplink simulated every spot is the convolution of the natural spot with the beacon image: light multiplies, and an undistorted beacon leaves each spot where it was.", "quantifier": "every spot image, beacon image and transform size", "why_tests_cant": "A claim about every image and size.", "anchors": ["soapy/wfs/shackhartmann.py:ShackHartmann.applyLgsUplink", "soapy/LGS.py:LGS_Geometric.getLgsPsf", "soapy/AOFFT.py:ftShift2d"]}
{"id": "C96", "title": "LGS beacon and spots share a pixel scale", "statement": "The beacon image is sampled at the same angle per element as the spots it is convolved with.", "quantifier": "every sub-aperture size, field of view, wavelength and oversampling", "why_tests_cant": "All configurations.", "anchors": ["soapy/wfs/shackhartmann.py:ShackHartmann.initLGS", "soapy/wfs/shackhartmann.py:ShackHartmann.calcInitParams", "soapy/LGS.py:LGS_Geometric.calcInitParams"]}
{"id": "C97", "title": "LGS beacon images have the requested size", "statement": "Every launch aperture and field of view gives a beacon image with the requested number of pixels.", "quantifier": "every launch aperture, pixel scale and image size", "why_tests_cant": "All sizes.", "anchors": ["soapy/LGS.py:LGS_Geometric.calcInitParams", "soapy/LGS.py:LGS_Geometric.getLgsPsf", "soapy/LGS.py:LGS_Physical.calcInitParams", "soapy/LGS.py:LGS_Physical.getLgsPsf"]}
{"id": "C98", "title": "Sodium profile weights", "statement": "The image of an elongated guide star is the sum of its layers weighted by naProfile (uniform by default), only relative strengths matter after scaling to the flux of the star, and a profile shorter than the number of layers is refused.", "quantifier": "every profile, number of layers and layer images", "why_tests_cant": "All profiles.", "anchors": ["soapy/wfs/wfs.py:WFS.makeElongationFrame", "soapy/wfs/shackhartmann.py:ShackHartmann.calcFocalPlane", "soapy/confParse.py:LgsConfig.calcParams"]}
{"id": "C99", "title": "LGS precompensation", "statement": "With precompensation the laser is launched in each frame with that frame's correction, and otherwise with none.", "quantifier": "every configuration and sequence of corrections", "why_tests_cant": "All configurations and histories.", "anchors": ["soapy/wfs/wfs.py:WFS.frame", "soapy/LGS.py:LGS.getLgsPsf"]}
{"id": "C100", "title": "LGS off-axis warning", "statement": "A warning is logged exactly when some LGS meta-pupil reaches beyond the simulated array.", "quantifier": "every set of layer positions and array size", "why_tests_cant": "All positions, on both sides of the axis.", "anchors": ["soapy/LGS.py:LGS.initLos"]}
{"id": "C101", "title": "Closed-loop law", "statement": "A calibrated system with linear sensors runs without exception whatever the turbulence and the loop delay; every actuator follows its own mirror's law: closed-loop mirrors integrate gain times the command that is left to do in the frame, open-loop mirrors filter the command asked for, and the command applied is the one computed loopDelay frames earlier; the science cameras see the surfaces of all mirrors for the applied commands.", "quantifier": "every set of mirrors and sensors, every history of turbulence and noise, every loop delay", "why_tests_cant": "Composition of calibration, reconstruction, delay and correction over unbounded histories.", "anchors": ["soapy/simulation.py:Sim.loopFrame", "soapy/simulation.py:Sim.runDM", "soapy/simulation.py:DelayBuffer.delay", "soapy/reconstruction.py:Reconstructor.reconstruct", "soapy/reconstruction.py:Reconstructor.apply_gain", "soapy/reconstruction.py:Reconstructor.makeIMat"]}
{"id": "C102", "title": "Static aberrations are corrected", "statement": "Without loop delay, static turbulence that asks for command t is corrected as (1-(1-g)^n) t: the loop converges for gains between 0 and 2 and for no others.", "quantifier": "every calibrated system, aberration, gain, tolerance and number of frames", "why_tests_cant": "Convergence is a statement about all frames.", "anchors": ["soapy/simulation.py:Sim.loopFrame", "soapy/reconstruction.py:Reconstructor.apply_gain"]}
{"id": "C103", "title": "Stability with loop delay", "statement": "With a loop delay of D frames a closed-loop mirror converges for every gain up to 1 with gain*D < 1; with D = 1 it never settles from gain 1 on; open-loop mirrors are only late.", "quantifier": "every calibrated system, delay, gain, aberration and tolerance", "why_tests_cant": "Stability is a statement about all frames and all delays.", "anchors": ["soapy/simulation.py:Sim.loopFrame", "soapy/simulation.py:DelayBuffer.delay", "soapy/reconstruction.py:Reconstructor.apply_gain"]}
{"id": "C104", "title": "Lag and noise", "statement": "For turbulence whose wanted command changes by at most v per frame and noise worth at most eta of command, the error of a closed-loop actuator without delay is at most (1-g)^n of the first command plus v/g plus eta.", "quantifier": "every calibrated system, turbulence history, noise history and gain up to 1", "why_tests_cant": "A bound over all histories.", "anchors": ["soapy/simulation.py:Sim.loopFrame", "soapy/reconstruction.py:Reconstructor.apply_gain"]}
{"id": "C105", "title": "Separate DMs", "statement": "With MVM_SeparateDMs each mirror is driven only by its own WFS: its commands are its gain law applied to the inverse of its own interaction block times its own WFS's measurements, for every configuration of mirrors.", "quantifier": "every set of mirrors and sensors, assignment, interaction matrix and measurement history", "why_tests_cant": "All configurations and histories, including dropped actuators.", "anchors": ["soapy/reconstruction.py:MVM_SeparateDMs.calcCMat", "soapy/reconstruction.py:Reconstructor.get_dm_imat", "soapy/DM.py:DM.__init__"]}
{"id": "C106", "title": "Gain law under LearnAndApply", "statement": "LearnAndApply obeys the gain and loop mode of every mirror, applied to the command for the tomographic estimate of the on-axis slopes.", "quantifier": "every set of mirrors and sensors, calibration and measurement history", "why_tests_cant": "All histories, gains and mirror types.", "anchors": ["soapy/reconstruction.py:LearnAndApply.reconstruct", "soapy/reconstruction.py:Reconstructor.apply_gain"]}
{"id": "C107", "title": "Learnt records", "statement": "Each record learnt by LearnAndApply holds the measurements of all WFSs of a frame, in order and complete.", "quantifier": "every set of WFSs, number of frames and measurements", "why_tests_cant": "All sizes of sensors.", "anchors": ["soapy/reconstruction.py:LearnAndApply.learn"]}
{"id": "C108", "title": "Tomographic estimate is optimal", "statement": "The estimate LearnAndApply makes of each on-axis measurement has the smallest sum of squared errors over the learnt records of all linear estimates from the off-axis measurements, and is exact where some linear estimate is exact.", "quantifier": "every set of learnt records, every linear estimate", "why_tests_cant": "Optimality among infinitely many estimates.", "anchors": ["soapy/reconstruction.py:LearnAndApply.calcCMat"]}
{"id": "C109", "title": "Every reconstructor can be used", "statement": "Each reconstructor class offered can be calibrated and then reconstructs every frame.", "quantifier": "every set of mirrors and sensors, calibration data and measurement history", "why_tests_cant": "Failure for all configurations cannot be shown by trying some.", "anchors": ["soapy/reconstruction.py:MVM", "soapy/reconstruction.py:LearnAndApply", "soapy/reconstruction.py:LearnAndApplyLTAO", "soapy/reconstruction.py:GLAO_4LGS", "soapy/reconstruction.py:WooferTweeter", "soapy/reconstruction.py:LgsTT", "soapy/reconstruction.py:ANN"]}
{"id": "C110", "title": "LearnAndApply calibration can be reloaded", "statement": "A calibration saved by LearnAndApply is accepted when loaded into the same system.", "quantifier": "every system with more than one WFS and every directory", "why_tests_cant": "All systems.", "anchors": ["soapy/reconstruction.py:LearnAndApply.makeIMat", "soapy/reconstruction.py:Reconstructor.load_interaction_matrix", "soapy/reconstruction.py:Reconstructor.loadCMat"]}
{"id": "C111", "title": "FastPiezo agrees with Piezo", "statement": "A FastPiezo mirror shows the same surface as a Piezo mirror with the same configuration and commands, up to piston, and exactly when the mirror fits inside the screen.", "quantifier": "every interpolation linear in its data, number of actuators, choice of active ones, size, and command history", "why_tests_cant": "Two implementations must agree for all commands and sizes.", "anchors": ["soapy/DM.py:Piezo.makeIMatShapes", "soapy/DM.py:FastPiezo.makeDMFrame", "soapy/DM.py:DM.dmFrame"]}
{"id": "C112", "title": "Tip-tilt commands are in arcsec", "statement": "A tip-tilt mirror commanded c arcsec on one axis tilts the surface by c arcsec along that axis and not along the other.", "quantifier": "every size, telescope, command history and pair of neighbouring elements", "why_tests_cant": "All sizes and commands.", "anchors": ["soapy/DM.py:TT.makeIMatShapes", "soapy/DM.py:DM.dmFrame"]}
{"id": "C113", "title": "Actuators are placed symmetrically", "statement": "Mirroring the commands of a stack-array mirror left-right or up-down mirrors its surface.", "quantifier": "every interpolation that treats both ends alike, number of actuators, size and command history", "why_tests_cant": "All commands and sizes.", "anchors": ["soapy/DM.py:Piezo.makeIMatShapes", "soapy/DM.py:FastPiezo.makeDMFrame", "soapy/DM.py:GaussStack.makeIMatShapes"]}
{"id": "C114", "title": "Every mirror can be built", "statement": "A mirror of each class can be built for any number of actuators and size, and has the configured number of actuators.", "quantifier": "every class, number of actuators, screen size and interpolation order", "why_tests_cant": "All combinations.", "anchors": ["soapy/DM.py:CustomShapes", "soapy/DM.py:KarhunenLoeve", "soapy/DM.py:Zernike", "soapy/DM.py:Piezo", "soapy/DM.py:GaussStack", "soapy/DM.py:TT", "soapy/DM.py:FastPiezo"]}
{"id": "C115", "title": "Guide stars, atmosphere and cameras are complete after construction", "statement": "Using a laser guide star, the atmosphere, an elongated light path or a science camera after building it never ends in an AttributeError on the object itself or in a NameError, whatever was called before and whatever was raised on the way.", "quantifier": "every configuration switch, every outcome of the tests inside the methods, every history of public calls", "why_tests_cant": "All histories, all branches, all exceptions in between.", "anchors": ["soapy/LGS.py", "soapy/atmosphere.py:atmos", "soapy/lineofsight.py", "soapy/scienceinstrument.py"]}
{"id": "C116", "title": "Mirrors are complete after construction", "statement": "Using a mirror after building it never ends in a missing attribute, whatever was called before.", "quantifier": "every mirror class, branch and history of public calls", "why_tests_cant": "All histories.", "anchors": ["soapy/DM.py:DM.reset", "soapy/DM.py:Piezo.makeIMatShapes", "soapy/DM.py:KarhunenLoeve.makeIMatShapes"]}
{"id": "C117", "title": "Light paths are complete after construction", "statement": "Using a line of sight after building it never ends in a missing attribute, whatever was called before.", "quantifier": "every branch and history of public calls", "why_tests_cant": "All histories.", "anchors": ["soapy/lineofsight.py:LineOfSight"]}
{"id": "C118", "title": "Shack-Hartmann and pyramid sensors are complete after construction", "statement": "Using a Shack-Hartmann or pyramid sensor after building it never ends in a missing attribute, with or without a laser guide star, uplink or elongation; only the steps of the laser path need a laser.", "quantifier": "every combination of the laser switches, every branch and history of public calls", "why_tests_cant": "All switches and histories.", "anchors": ["soapy/wfs/wfs.py:WFS", "soapy/wfs/shackhartmann.py:ShackHartmann", "soapy/wfs/pyramid.py:Pyramid"]}
{"id": "C119", "title": "Gradient sensors are complete after construction", "statement": "Using a gradient sensor after building it never ends in a missing attribute, and it has the measurement count a simulation asks its sensors for.", "quantifier": "every combination of the laser switches, every branch and history of public calls", "why_tests_cant": "All switches and histories.", "anchors": ["soapy/wfs/gradient.py:Gradient", "soapy/wfs/wfs.py:WFS.frame", "soapy/simulation.py:Sim.aoinit"]}
{"id": "C120", "title": "Which sensor classes cannot be built", "statement": "Building a Zernike sensor or an extended-source sensor raises, for every configuration.", "quantifier": "every configuration switch and outcome of the tests in the constructor", "why_tests_cant": "All configurations.", "anchors": ["soapy/wfs/zernike.py:Zernike", "soapy/wfs/extendedshackhartmann.py:ExtendedSH"]}
{"id": "C121", "title": "Reconstructors are complete after calibration", "statement": "Using a reconstructor never ends in a missing attribute; what needs the interaction matrix works once makeCMat has returned, whether it was computed or loaded.", "quantifier": "every reconstructor class, branch and history of public calls", "why_tests_cant": "All classes and histories.", "anchors": ["soapy/reconstruction.py:Reconstructor", "soapy/reconstruction.py:MVM", "soapy/reconstruction.py:LearnAndApply", "soapy/reconstruction.py:GLAO_4LGS", "soapy/reconstruction.py:ANN"]}
{"id": "C122", "title": "A simulation is complete after aoinit", "statement": "After construction and aoinit, calibrating, running, pausing, resetting and saving never end in a missing attribute of the simulation, for every combination of what is saved.", "quantifier": "every combination of the saving switches, with or without science cameras, every branch and history of public calls", "why_tests_cant": "All switches and histories.", "anchors": ["soapy/simulation.py:Sim"]}
{"id": "C123", "title": "Parts have what the simulation takes from them", "statement": "However they were used, sensors, mirrors, cameras, reconstructors and the atmosphere have every attribute the simulation and the calibration read from them.", "quantifier": "every class of part the simulation can use, every configuration switch, every history of calls on the part", "why_tests_cant": "All classes and histories.", "anchors": ["soapy/simulation.py:Sim.loopFrame", "soapy/simulation.py:Sim.storeData", "soapy/reconstruction.py:Reconstructor"]}
{"id": "C124", "title": "Nothing is taken from a part that it never has", "statement": "Everything the saving code and the tomographic reconstructors read from a camera or sensor exists there.", "quantifier": "every configuration switch, every history of calls on the part", "why_tests_cant": "All histories.", "anchors": ["soapy/simulation.py:Sim.storeData", "soapy/reconstruction.py:LearnAndApplyLTAO", "soapy/reconstruction.py:LgsTT", "soapy/reconstruction.py:ANN"]}
{"id": "C125", "title": "The two file formats say the same", "statement": "A YAML configuration file and a python configuration file with the same contents load to the same configuration, or neither loads.", "quantifier": "every pair of files with the same contents, every number of sensors, guide stars, mirrors and cameras", "why_tests_cant": "All files.", "anchors": ["soapy/confParse.py:PY_Configurator.loadSimParams", "soapy/confParse.py:YAML_Configurator.loadSimParams"]}
{"id": "C126", "title": "Groups a configuration file needs", "statement": "A file with the documented groups loads; leaving out a group the system does not use changes nothing.", "quantifier": "every file that loads and every group", "why_tests_cant": "All files and groups.", "anchors": ["soapy/confParse.py:PY_Configurator", "soapy/confParse.py:YAML_Configurator"]}
{"id": "C127", "title": "As many components as the file says", "statement": "There are nGS sensors, nDM mirrors and nSci cameras after loading; values beyond these are ignored and a file with too few does not load.", "quantifier": "every file that loads, in either format", "why_tests_cant": "All files.", "anchors": ["soapy/confParse.py:PY_Configurator.loadSimParams", "soapy/confParse.py:YAML_Configurator.loadSimParams"]}
{"id": "C128", "title": "What is loaded depends on the file only", "statement": "Loading a python configuration file gives the same whatever files were loaded before in the session.", "quantifier": "every history of files and every file", "why_tests_cant": "All histories.", "anchors": ["soapy/confParse.py:PY_Configurator.readfile"]}
{"id": "C129", "title": "The loader fits the file", "statement": "loadSoapyConfig reads YAML files as YAML and others as python; the copy of its configuration that a run keeps loads like the original.", "quantifier": "every file name, directory and content", "why_tests_cant": "All names and contents.", "anchors": ["soapy/confParse.py:loadSoapyConfig", "soapy/simulation.py:Sim.initSaveData"]}
{"id": "C130", "title": "A configurator can be loaded again", "statement": "Calling loadSimParams again, on the same or another file, gives the configuration of that file.", "quantifier": "every pair of files", "why_tests_cant": "All pairs of files.", "anchors": ["soapy/confParse.py:PY_Configurator.loadSimParams", "soapy/confParse.py:YAML_Configurator.loadSimParams"]}
{"id": "C131", "title": "A configuration is its dictionary", "statement": "Loading dict(config) gives the configuration again, with every value and every derived value.", "quantifier": "every configuration either loader can give", "why_tests_cant": "All configurations.", "anchors": ["soapy/confParse.py:PY_Configurator.__iter__", "soapy/confParse.py:ConfigObj.__iter__", "soapy/confParse.py:YAML_Configurator.loadSimParams"]}
{"id": "C132", "title": "Numbers written as text are numbers", "statement": "A parameter written 600e-9, which PyYAML reads as a text, has the same effect as the number.", "quantifier": "every class of component, parameter, and text float() accepts", "why_tests_cant": "All parameters and texts.", "anchors": ["soapy/confParse.py:ConfigObj.loadParams", "soapy/confParse.py:WfsConfig.calcParams", "soapy/confParse.py:DmConfig.calcParams", "soapy/confParse.py:LgsConfig.calcParams", "soapy/confParse.py:SciConfig.calcParams"]}
{"id": "C133", "title": "An FFT object returns the transform of the data it is given", "statement": "Whatever an FFT object was used for before, fft(data) returns the transform, in the object's direction, of the values data has at that moment, and changes no array but the object's own; fft() transforms what inputData holds, also when the caller set obj.inputData = data as documented.", "quantifier": "every library, direction, history of calls, assignments into inputData and writes by the caller, and data", "why_tests_cant": "All histories of use, and all data; only one library is installed where the tests run.", "anchors": ["soapy/AOFFT.py:FFT.__init__", "soapy/AOFFT.py:FFT.fft"]}
{"id": "C134", "title": "A transform result keeps its values", "statement": "The array fft(data) returned still holds that transform after any later use of the object, unless the caller writes into it.", "quantifier": "every library, history before and after, and data", "why_tests_cant": "All later histories.", "anchors": ["soapy/AOFFT.py:FFT.fft"]}
{"id": "C135", "title": "An FFT object leaves the caller's arrays alone", "statement": "An array passed to fft keeps its values under any later use of the object, unless the caller writes into it.", "quantifier": "every library, history and array", "why_tests_cant": "All later histories.", "anchors": ["soapy/AOFFT.py:FFT.fft"]}
{"id": "C136", "title": "An FFT object falls back on the libraries there are", "statement": "For a documented mode, the library asked for is used if it works, otherwise the next of reikna, pyfftw, fftpack that does; if any is installed the object can be made.", "quantifier": "every combination of installed libraries, every mode", "why_tests_cant": "All combinations of installed libraries.", "anchors": ["soapy/AOFFT.py:FFT.__init__"]}
{"id": "C137", "title": "Arrays smaller than the FFT object are padded with zeros", "statement": "An FFT object of a given inputSize transforms any smaller array as if it were padded with zeros to inputSize.", "quantifier": "every library, inputSize, shape of the array and values", "why_tests_cant": "All shapes.", "anchors": ["soapy/AOFFT.py:FFT"]}
{"id": "C138", "title": "convolve computes the convolution", "statement": "convolve(a, b) of two images of one shape is their circular convolution about the middle element: a star of unit light in the middle gives the image back, total light multiplies, order does not matter; other shapes are refused.", "quantifier": "every pair of shapes and images", "why_tests_cant": "All shapes and images.", "anchors": ["soapy/AOFFT.py:convolve"]}
{"id": "C139", "title": "A Convolve object computes the convolution", "statement": "Calling a Convolve object on an image and an object gives the image of that object, upright; incompatible shapes are refused.", "quantifier": "every pair of shapes and images", "why_tests_cant": "All shapes and images.", "anchors": ["soapy/AOFFT.py:Convolve", "soapy/AOFFT.py:ftShift2d"]}
{"id": "C140", "title": "Correlation images belong to their sub-aperture and peak at its displacement", "statement": "The k-th correlation image of an extended-source sensor is the cross correlation of the k-th sub-aperture image with its reference: an image that is its reference displaced by some amount is brightest that far from the middle.", "quantifier": "every number of sub-apertures, size, image and reference", "why_tests_cant": "All images and references.", "anchors": ["soapy/wfs/extendedshackhartmann.py:ExtendedSH.makeCorrelationImgs"]}
{"id": "C141", "title": "A reference image is used or refused", "statement": "Assigning a reference image sets every sub-aperture's reference from it, whether it is given for each sub-aperture, for all, or as a detector frame; any other shape is refused.", "quantifier": "every shape and image assigned", "why_tests_cant": "All shapes.", "anchors": ["soapy/wfs/extendedshackhartmann.py:ExtendedSH.referenceImage"]}
{"id": "C142", "title": "Phase screens of every origin have the strength asked for", "statement": "Screens written by makePhaseScreens for any r0 and read by a simulation are those the simulation would have made itself from the same random numbers; the screens drawn anew on every frame (randomScrns) have the strength, and the inner and outer scale, of the moving ones.", "quantifier": "every number of screens, r0, pixel scale, size, and screen generator with Kolmogorov scaling", "why_tests_cant": "All r0 and pixel scales; strength is a power law.", "anchors": ["soapy/atmosphere.py:atmos.__init__", "soapy/atmosphere.py:atmos.randomScrns", "soapy/atmosphere.py:makePhaseScreens"]}
{"id": "C143", "title": "Screen files that fit are loaded and others are refused with an explanation", "statement": "A simulation with screens from files starts exactly when each configured file is there and all are square, of one size and at least as large as the simulation's screens; otherwise the user is told what is wrong.", "quantifier": "every list of files, image shapes and configured size", "why_tests_cant": "All shapes of files.", "anchors": ["soapy/atmosphere.py:atmos.__init__"]}
{"id": "C144", "title": "Saved screens load back", "statement": "The screens of a running atmosphere saved by saveScrns and loaded by another simulation with the same pixel scale are the same; saving either writes all the screens or none.", "quantifier": "every set of screens and state of the directory", "why_tests_cant": "All screens, directories and pixel scales.", "anchors": ["soapy/atmosphere.py:atmos.saveScrns", "soapy/atmosphere.py:atmos.__init__"]}
{"id": "C145", "title": "Zooming an array with missing data leaves the missing elements out", "statement": "zoomWithMissingData interpolates from the elements that are not equal to the marker: the marker's value does not matter, the other elements keep their values at unchanged size, missing ones are filled in, and the result has the shape asked for.", "quantifier": "every array, marker, size and interpolator that gives back its samples", "why_tests_cant": "All arrays and markers, NaN included.", "anchors": ["soapy/interp.py:zoomWithMissingData"]}
{"id": "C146", "title": "Custom mirror shapes are those of the file", "statement": "A mirror with shapes from a file uses those of the right size as they are (missing elements zero) and interpolates others, so that values stay within those of the file and a plane stays a plane; too few shapes are refused.", "quantifier": "every file shape and contents, number of actuators and mirror size", "why_tests_cant": "All files.", "anchors": ["soapy/DM.py:CustomShapes.makeIMatShapes", "soapy/interp.py:zoomWithMissingData"]}
{"id": "C147", "title": "Parallel interpolation and zoom do not depend on the schedule", "statement": "The compiled bilinear interpolation, zoom and zoom-to-field, whose rows run in parallel, always end, with every output element the interpolation of the data at its coordinates and nothing else changed, however the accesses of the rows interleave and to the last bit of the arithmetic - as long as the output array is none of the inputs.", "quantifier": "every interleaving of the reads and writes of the parallel iterations, every array, size, coordinate and arithmetic", "why_tests_cant": "The schedule is chosen by the thread pool; a race would show only sometimes.", "anchors": ["soapy/numbalib/numbalib.py:bilinear_interp_numba", "soapy/numbalib/numbalib.py:zoom", "soapy/numbalib/wfslib.py:zoomtoefield", "soapy/lineofsight.py:LineOfSight.calcInitParams", "soapy/scienceinstrument.py:PSFCamera"]}
{"id": "C148", "title": "Parallel binning does not depend on the schedule", "statement": "Binning one image or a stack in parallel always ends with every output pixel the sum of its block added up in a fixed order, as the variants without parallel loops do, however the iterations interleave.", "quantifier": "every interleaving, image, stack, factor and arithmetic", "why_tests_cant": "Each pixel is accumulated in place by many reads and writes while other threads do the same.", "anchors": ["soapy/numbalib/numbalib.py:bin_img", "soapy/numbalib/wfslib.py:bin_imgs", "soapy/numbalib/numbalib.py:bin_img_slow", "soapy/numbalib/wfslib.py:bin_imgs_slow"]}
{"id": "C149", "title": "Cutting out sub-apertures in parallel does not depend on the schedule", "statement": "However the iterations interleave, each sub-aperture array ends up with its own window of the phase (times the mask), and nothing else changes.", "quantifier": "every interleaving, field, mask, set of sub-aperture positions (overlapping or not) and size", "why_tests_cant": "Windows may overlap and are read by several threads.", "anchors": ["soapy/numbalib/wfslib.py:chop_subaps", "soapy/numbalib/wfslib.py:chop_subaps_mask"]}
{"id": "C150", "title": "The parallel shift in place does not depend on the schedule", "statement": "However the single reads and writes of the rows interleave, the in-place shift ends with the array the rows give one after the other (numpy's fftshift for even sizes), and changes nothing else.", "quantifier": "every interleaving of element accesses, every array and size", "why_tests_cant": "Swaps in place by several threads on one array.", "anchors": ["soapy/numbalib/numbalib.py:fftshift_2d_inplace"]}
{"id": "C151", "title": "Passing plots to the GUI never overflows, blocks or breaks the lock", "statement": "Whatever the schedule of the GUI thread and the threads running frames (up to five), the queue between them is never found full, the lock is held by exactly the thread inside its critical section and never released by another, and an update of the GUI can always finish.", "quantifier": "every interleaving of the GUI thread and n <= 5 simulation threads, every number of frames and updates", "why_tests_cant": "Depends on the interleaving of flag, lock and queue accesses; tests run one schedule.", "anchors": ["soapy/gui/gui.py:GUI.update", "soapy/simulation.py:Sim.addToGuiQueue", "soapy/gui/gui.py:GUI.initPlots"]}
{"id": "C152", "title": "Plots are drawn in the order of the frames", "statement": "Each plot the GUI draws is of a later frame than the one drawn before.", "quantifier": "every interleaving and number of frames", "why_tests_cant": "Out of order plots need a particular schedule.", "anchors": ["soapy/gui/gui.py:GUI.update", "soapy/simulation.py:Sim.addToGuiQueue", "soapy/gui/gui.py:GUI.frame"]}
{"id": "C153", "title": "A request for a plot is answered", "statement": "When the GUI asks for a plot, the next frame of the running loop, or a later one, is passed to it.", "quantifier": "every interleaving of requests and frames", "why_tests_cant": "The flag is written by both threads without the lock.", "anchors": ["soapy/gui/gui.py:GUI.update", "soapy/simulation.py:Sim.addToGuiQueue"]}
{"id": "C154", "title": "The stop button stops the loop", "statement": "After stop is pressed, no loop begins another frame until run is pressed again.", "quantifier": "every moment of pressing stop, every number of loop threads and frames", "why_tests_cant": "Depends on when the button is pressed relative to the loop thread.", "anchors": ["soapy/gui/gui.py:GUI.stop", "soapy/gui/gui.py:LoopThread.run", "soapy/simulation.py:Sim.aoloop"]}
{"id": "C155", "title": "Only one activity at a time uses the simulation", "statement": "Two loops never run frames at the same time, and the simulation is never rebuilt during a frame.", "quantifier": "every sequence of button presses and every interleaving of the threads they start", "why_tests_cant": "A race between threads started by the user.", "anchors": ["soapy/gui/gui.py:GUI.run", "soapy/gui/gui.py:GUI.init", "soapy/gui/gui.py:InitThread.run", "soapy/gui/gui.py:LoopThread.run"]}
{"id": "C156", "title": "Interpolation and zoom kernels read only elements that exist", "statement": "The interpolation and zoom kernels read, for every output element, two neighbouring elements of the input array, and both exist, although the coordinates are computed in floats and rounded.", "quantifier": "every input size from 2 to 2^24 + 1 per axis, every output size up to 2^24, every output element, every finite coordinate (not negative, where the kernel itself checks the bounds)", "why_tests_cant": "numba does not check bounds: a read past the end returns whatever is there. Whether rounding can reach the last element depends on the sizes.", "anchors": ["soapy/numbalib/numbalib.py:bilinear_interp", "soapy/numbalib/numbalib.py:zoom", "soapy/numbalib/wfslib.py:zoomtoefield", "soapy/lineofsight.py:LineOfSight.calcInitParams", "soapy/scienceinstrument.py:PSFCamera"]}
{"id": "C157", "title": "The pyramid sensor has no preferred direction", "statement": "Turning the wavefront upside down turns the detector image upside down and exchanging its rows and columns exchanges those of the image; the slopes follow, so opposite tilts and tilts along the other axis give corresponding measurements.", "quantifier": "every wavefront, every even padded size, every symmetric pupil mask and set of sub-apertures, every number of modulation points that the symmetry maps to itself", "why_tests_cant": "Holds for each of the infinitely many wavefronts; a wrong sign on one facet shows only with light on that facet.", "anchors": ["soapy/wfs/pyramid.py:Pyramid.calcFocalPlane", "soapy/wfs/pyramid.py:Pyramid.calcPyramidMask", "soapy/wfs/pyramid.py:Pyramid.calcTipTiltModulationsPoints", "soapy/wfs/pyramid.py:Pyramid.calculateSlopes"]}
{"id": "C158", "title": "The loop runs no more frames than configured", "statement": "However often run, stop and init are pressed, the number of frames run since the simulation was built is at most nIters, so that the record of every frame is kept.", "quantifier": "every sequence of button presses and every interleaving of the threads they start", "why_tests_cant": "Needs two loop threads at the same test.", "anchors": ["soapy/gui/gui.py:GUI.run", "soapy/gui/gui.py:LoopThread.run", "soapy/simulation.py:Sim.aoloop"]}
{"id": "C159", "title": "The verbosity asked for on the command line is used", "statement": "The verbosity asked for on the command line (-V n, or -d for all messages), otherwise that of the configuration file, decides which messages are shown during the whole run.", "quantifier": "every combination of options, every verbosity, every message level, every stage of the run", "why_tests_cant": "Every option, stage and level would have to be tried together, and later stages overwrite the setting.", "anchors": ["bin/soapy", "soapy/logger.py:setLoggingLevel", "soapy/logger.py:_printMessage", "soapy/simulation.py:Sim.aoinit", "soapy/gui/gui.py:GUI"]}
{"id": "C160", "title": "Progress counts to the total", "statement": "A progress display counts 1 to the total, ends its line once, after the total, and shows nothing at verbosity 0.", "quantifier": "every total, every verbosity, each of the calls that display progress", "why_tests_cant": "Holds for each total; the display is only looked at by people.", "anchors": ["soapy/logger.py:statusMessage", "soapy/reconstruction.py:Reconstructor.makeIMat", "soapy/reconstruction.py:LearnAndApply.learn", "soapy/simulation.py:Sim.printOutput"]}
{"id": "C161", "title": "Spots move by one pixel per pixel scale of tilt", "statement": "Tilting the wavefront by a whole number of pixel scales (subapFOV / pxlsPerSubap) along either axis moves every Shack-Hartmann spot by that number of detector pixels, whatever else is in the wavefront.", "quantifier": "every wavefront, mask, sub-aperture, tilt, and sensor configuration", "why_tests_cant": "Ranges over all wavefronts and configurations; a test compares one spot with a tolerance.", "anchors": ["soapy/wfs/shackhartmann.py:ShackHartmann.calcInitParams", "soapy/wfs/shackhartmann.py:ShackHartmann.calcFocalPlane", "soapy/AOFFT.py:ftShift2d", "soapy/numbalib/wfslib.py:bin_imgs"]}
{"id": "C162", "title": "Flat wavefronts give spots in the middle of their windows", "statement": "The image of a flat wavefront is centred on its sub-aperture's window.", "quantifier": "every sensor configuration, every mask", "why_tests_cant": "Depends on the parity of the pixels and the size of the transform, in ways a few configurations do not show.", "anchors": ["soapy/wfs/shackhartmann.py:ShackHartmann.calcTiltCorrect", "soapy/wfs/shackhartmann.py:ShackHartmann.calcFocalPlane", "soapy/AOFFT.py:ftShift2d"]}
{"id": "C163", "title": "A spot is made by its own piece of wavefront and keeps its light", "statement": "The light in a Shack-Hartmann spot does not depend on the wavefront, and its image does not change with piston or with the wavefront outside the lit part of the sub-aperture.", "quantifier": "every pair of wavefronts, every mask, every configuration", "why_tests_cant": "Ranges over all wavefronts.", "anchors": ["soapy/wfs/shackhartmann.py:ShackHartmann.calcFocalPlane", "soapy/numbalib/wfslib.py:chop_subaps_mask", "soapy/numbalib/wfslib.py:bin_imgs"]}
{"id": "C164", "title": "The two axes of a Shack-Hartmann are alike", "statement": "Exchanging rows and columns of the wavefront and the mask exchanges rows and columns of the spots.", "quantifier": "every wavefront, mask, sub-aperture and configuration", "why_tests_cant": "Ranges over all wavefronts.", "anchors": ["soapy/wfs/shackhartmann.py:ShackHartmann.calcFocalPlane", "soapy/wfs/shackhartmann.py:ShackHartmann.calcTiltCorrect"]}
{"id": "C165", "title": "The legacy Shack-Hartmann cuts the pupil into its sub-apertures", "statement": "Every sub-aperture of a ShackHartmannLegacy sensor is given its own square of the field over the pupil.", "quantifier": "every number of sub-apertures, sampling, pupil size and padding, every field", "why_tests_cant": "Depends on a margin that rounds to zero for some combinations of four sizes.", "anchors": ["soapy/wfs/shackhartmann_legacy.py:ShackHartmannLegacy.calcInitParams", "soapy/wfs/shackhartmann_legacy.py:ShackHartmannLegacy.calcFocalPlane"]}
{"id": "C166", "title": "Images of the legacy Shack-Hartmann land on their own windows", "statement": "A ShackHartmannLegacy sensor adds the image of every sub-aperture to the detector, centred on the pixels its centroid is computed from; only what lies beyond the detector is lost.", "quantifier": "every number of sub-apertures and pixels, with or without a field stop, every set of sub-apertures and images", "why_tests_cant": "Depends on how half pixels are rounded, for all sizes.", "anchors": ["soapy/wfs/shackhartmann_legacy.py:ShackHartmannLegacy.integrateDetectorPlane", "soapy/wfs/shackhartmann_legacy.py:ShackHartmannLegacy.calculateSlopes", "soapy/interp.py:binImgs"]}
{"id": "C167", "title": "The tip and tilt common to several sensors is removed", "statement": "LgsTT.removeCommonTT subtracts from the slopes of the listed sensors their mean x slope and their mean y slope over all of them: none is left, a tip or tilt added to all sensors makes no difference, and removing twice is removing once.", "quantifier": "every list of sensors, every number of sub-apertures, all slopes", "why_tests_cant": "Ranges over all numbers and sizes of sensors and all slopes.", "anchors": ["soapy/reconstruction.py:LgsTT.removeCommonTT", "soapy/reconstruction.py:GLAO_4LGS.removeCommonTT"]}
{"id": "C168", "title": "A sub-aperture without light measures no slope", "statement": "When no light falls on the window of a sub-aperture of a Shack-Hartmann in a frame (a faint guide star with photon noise), its measured slopes are zero.", "quantifier": "every window size, every sub-aperture, every place of the spots of a flat wavefront", "why_tests_cant": "Occurs only for chance arrivals of photons.", "anchors": ["soapy/wfs/shackhartmann.py:ShackHartmann.calculateSlopes", "soapy/wfs/shackhartmann.py:ShackHartmann.getStatic", "soapy/wfs/shackhartmann.py:ShackHartmann.addPhotonNoise"]}
{"id": "C169", "title": "Measurements and commands are numbers", "statement": "Whatever light falls on a Shack-Hartmann, a frame returns numbers and the commands computed from them, in this frame and later ones, are numbers.", "quantifier": "every history of frames, all centroids including missing ones, every reconstruction matrix, gain and loop mode", "why_tests_cant": "Ranges over all histories; occurs only for chance arrivals of photons.", "anchors": ["soapy/wfs/wfs.py:WFS.frame", "soapy/wfs/shackhartmann.py:ShackHartmann.calculateSlopes", "soapy/wfs/shackhartmann_legacy.py:ShackHartmannLegacy.calculateSlopes", "soapy/reconstruction.py:Reconstructor.apply_gain", "soapy/reconstruction.py:Reconstructor.reconstruct", "soapy/reconstruction.py:Reconstructor.reset"]}
{"id": "C170", "title": "The gain boxes of the GUI set the gains of the loop", "statement": "Changing the box of a mirror in the GUI sets the gain the running loop uses for that mirror and no other.", "quantifier": "every history of loading, reloading, initialising and changing boxes, every set of gains", "why_tests_cant": "Ranges over all histories of user actions; which configuration object the mirrors hold is not visible.", "anchors": ["soapy/gui/gui.py:GUI.gainChanged", "soapy/gui/gui.py:GUI.initPlots", "soapy/gui/gui.py:GUI.readParamFile", "soapy/gui/gui.py:GUI.init", "soapy/reconstruction.py:Reconstructor.apply_gain"]}
{"id": "C171", "title": "The gain boxes of the GUI show the gains of the loop", "statement": "After an initialisation the boxes show the gains the loop uses.", "quantifier": "every history before the initialisation, every set of gains, every way of rounding to two decimals", "why_tests_cant": "Ranges over all gains and histories.", "anchors": ["soapy/gui/gui.py:GUI.initPlots", "soapy/gui/gui.py:GUI.init"]}
{"id": "C172", "title": "The science image moves by one pixel per pixel scale of tilt", "statement": "Tilting the wavefront in front of a science camera by a whole number of pixel scales (field of view over number of pixels) along an axis displaces the image by that number of pixels and changes nothing else.", "quantifier": "every camera that can be built, every wavefront, every tilt by whole pixels along both axes", "why_tests_cant": "Ranges over all wavefronts and geometries; tests look at flat wavefronts.", "anchors": ["soapy/scienceinstrument.py:PSFCamera.calcFocalPlane", "soapy/scienceinstrument.py:PSFCamera.setMask", "soapy/numbalib/numbalib.py:bilinear_interp"]}
{"id": "C173", "title": "The two axes of a science camera are alike", "statement": "A wavefront transposed, behind an aperture transposed, gives the transposed image.", "quantifier": "every camera, aperture and wavefront", "why_tests_cant": "Ranges over all wavefronts; a swapped index is invisible with the symmetric ones of tests.", "anchors": ["soapy/scienceinstrument.py:PSFCamera.calcFocalPlane", "soapy/numbalib/numbalib.py:bilinear_interp"]}
{"id": "C174", "title": "Shack-Hartmann spots move with the tilt of the wavefront along the line of sight", "statement": "Tilting the wavefront along the line of sight by a whole number of pixel scales (field of view of a sub-aperture over its pixels) displaces the spots by that number of pixels, round the field of the sub-aperture.", "quantifier": "every sensor that can be built, every wavefront, sub-aperture and tilt by whole pixels", "why_tests_cant": "Ranges over all wavefronts and geometries.", "anchors": ["soapy/numbalib/wfslib.py:zoomtoefield", "soapy/wfs/shackhartmann.py:ShackHartmann.calcFocalPlane", "soapy/wfs/shackhartmann.py:ShackHartmann.calcInitParams"]}
{"id": "C175", "title": "Tip and tilt go to the tip-tilt mirror under LearnAndApply", "statement": "When the first mirror is a tip-tilt mirror, a tip and tilt common to all the estimated on-axis slopes changes the commands of that mirror only, by what the tip and tilt alone asks for.", "quantifier": "every set of sensors and mirrors with a tip-tilt mirror first, every calibration and pair of measurements", "why_tests_cant": "Ranges over all calibrations and measurements.", "anchors": ["soapy/reconstruction.py:LearnAndApply.reconstruct"]}
{"id": "C176", "title": "The version names the code", "statement": "Two checkouts for which the package reports the same version (also written to the headers of saved files) hold the same code: the same tag, number of commits after it, commit and changed flag.", "quantifier": "every tag, number of commits, hash and changed flag", "why_tests_cant": "Ranges over all tags and states of the repository.", "anchors": ["soapy/_version.py:get_versions", "soapy/_version.py:git_pieces_from_vcs", "soapy/_version.py:render_pep440", "soapy/simulation.py:Sim.makeSaveHeader"]}
{"id": "C177", "title": "An archive reports its latest release", "statement": "The version reported by an archive made by git is that of the latest version tag of its commit, and unknown if it has none.", "quantifier": "every set of tags and branches, in every order", "why_tests_cant": "Ranges over all sets of names.", "anchors": ["soapy/_version.py:git_versions_from_keywords", "soapy/_version.py:get_versions"]}
{"id": "C178", "title": "The closed loop tolerates sensors that are not linear or calibrated exactly", "statement": "With closed-loop mirrors of gains between g and 1, no delay, and sensors that within a range report what is left to correct to within a fraction delta < 1 and noise eta, turbulence whose wanted commands change by at most v per frame is corrected down to (eta + v) / (g (1 - delta)), and the first error fades like (1 - g (1 - delta))^n, if that stays within the range. In particular sensors reporting a times what they were calibrated with, 0 < a < 2, correct static turbulence.", "quantifier": "every set of mirrors and control matrix, every sensor (any function of the corrections) that is so accurate, turbulence and number of frames", "why_tests_cant": "Ranges over all sensor functions and runs.", "anchors": ["soapy/simulation.py:Sim.aoloop", "soapy/simulation.py:Sim.runDM", "soapy/reconstruction.py:Reconstructor.reconstruct"]}
{"id": "C179", "title": "The parts of the simulation make up a system that obeys the loop law", "statement": "A simulation of mirrors given by their influence functions (of any sizes, cropped or padded to the screens), lines of sight through the layers and past the mirrors, sensors making slopes linear in the phase, and a control matrix that inverts the interaction matrix of its own calibration, runs for any turbulence and loop delay without failing; every actuator integrates (closed loop) or filters (open loop) what the control matrix makes of the slopes of the turbulence alone, delayed by the loop delay; and the cameras see the surfaces of all mirrors for the applied commands.", "quantifier": "every screen size, set of mirrors, lines of sight and linear sensors, control matrix, delay and sequence of turbulent screens", "why_tests_cant": "Ranges over all systems and turbulence.", "anchors": ["soapy/simulation.py:Sim.aoloop", "soapy/DM.py:DM.dmFrame", "soapy/lineofsight.py:LineOfSight.frame", "soapy/reconstruction.py:Reconstructor.makeIMat"]}
{"id": "C180", "title": "Turbulence the mirrors can make is removed from every line of sight", "statement": "If some commands would leave no phase on any sensor, static turbulence is removed from every line of sight on which the same commands leave no phase, wherever it points and however it samples: with equal gains g and no delay, what is left after n frames is exactly (1-g)^n times the uncorrected phase; with a delay and gains for which each mirror settles, it becomes and stays as small as one likes.", "quantifier": "every calibrated system as in C179, static turbulence, line of sight and number of frames", "why_tests_cant": "Ranges over all systems, turbulence, directions and times.", "anchors": ["soapy/simulation.py:Sim.aoloop", "soapy/lineofsight.py:LineOfSight.performCorrection", "soapy/DM.py:DM.dmFrame"]}
{"id": "C181", "title": "The closed loop tolerates inexact sensors and a delay together", "statement": "With commands applied loop_delay frames late and gains between g and G, sensors that report what is left to correct to within a fraction delta and noise eta keep the loop stable whenever loop_delay*G^2*(1+delta) < g*(1-delta): the initial error falls by at least that difference every 2*loop_delay+1 frames, down to a level proportional to the noise and to the change of the turbulence per frame.", "quantifier": "every system of mirrors, control matrix, sensor function of that accuracy, gains, delay, turbulence history and number of frames", "why_tests_cant": "Ranges over all sensors, delays and histories.", "anchors": ["soapy/simulation.py:Sim.aoloop", "soapy/reconstruction.py:Reconstructor.reconstruct", "soapy/simulation.py:DelayBuffer.delay"]}
{"id": "C182", "title": "A legacy line of sight reads its screens only where they have data", "statement": "Every output element of a layer is the bilinear mean of the screen at a point inside it, on a grid spaced equally over the beam (narrowing towards the source), or the frame is refused with ValueError if the beam exceeds the screen.", "quantifier": "every direction, source height, layer, screen size and contents and output element, for beams at least a pixel wide", "why_tests_cant": "Ranges over all geometries and screens.", "anchors": ["soapy/lineofsight_legacy.py:LineOfSight.getMetaPupilPhase", "soapy/lineofsight_legacy.py:LineOfSight.makePhaseGeometric", "soapy/lineofsight_legacy.py:LineOfSight.calcMetaPupilSize"]}
{"id": "C183", "title": "A legacy line of sight sees the turbulence less the corrections", "statement": "A geometric frame returns the sum of the layers along the line of sight less the corrections, in one unit whether corrections are given or not; corrections equal to the turbulence leave nothing, looking up or down; layers above the source add nothing.", "quantifier": "every geometry, set of screens and corrections and output element", "why_tests_cant": "Ranges over all geometries, screens and corrections.", "anchors": ["soapy/lineofsight_legacy.py:LineOfSight.frame", "soapy/lineofsight_legacy.py:LineOfSight.makePhaseGeometric", "soapy/lineofsight_legacy.py:LineOfSight.performCorrection"]}
{"id": "C184", "title": "The legacy and the current line of sight see the same", "statement": "For the same configuration, screens and corrections the two lines of sight give the same phase, field and residual.", "quantifier": "every geometry in which both see whole beams, every set of screens and corrections and output element", "why_tests_cant": "Ranges over all geometries and screens.", "anchors": ["soapy/lineofsight_legacy.py:LineOfSight.frame", "soapy/lineofsight.py:LineOfSight.frame"]}
{"id": "C185", "title": "Legacy physical propagation meets the layers at their altitudes", "statement": "Light propagated by the legacy line of sight meets each layer at its altitude, in the order of the direction, never goes backwards, and ends at the ground (down) or at the source (up).", "quantifier": "every set of increasing altitudes and source height", "why_tests_cant": "Ranges over all altitudes.", "anchors": ["soapy/lineofsight_legacy.py:LineOfSight.makePhasePhys"]}
{"id": "C186", "title": "What inexact sensors leave on any line of sight", "statement": "In a closed loop whose sensors miss what is left of the wanted commands by at most a fraction delta < 1 of the largest error (plus noise eta), with gains at least g, every camera and sensor, wherever it looks, sees in frame n the phase that the wanted commands leave, up to the bound of the commands' error ((1-g(1-delta))^n first + (eta+v)/(g(1-delta)) without delay) times the sum of what the actuators, poked one by one, do to the pixel.", "quantifier": "every mirror set, sensor (linear or not), control matrix, turbulence history, line of sight, pixel and frame", "why_tests_cant": "Ranges over all histories, systems and frames; a test sees one run.", "anchors": ["soapy/simulation.py:Sim.loopFrame", "soapy/DM.py:DM.dmFrame", "soapy/lineofsight.py:LineOfSight.frame"]}
{"id": "C187", "title": "Strehl ratio bounded below by the wavefront's variance", "statement": "With no oversampling (even transform, non-negative aperture) no wavefront has a Strehl ratio below 1 minus its variance over the aperture times the share of a flat wavefront's light that the detector catches (1 if the focal plane is not cropped), and two wavefronts within B radians of each other have Strehl ratios whose square roots differ by at most B.", "quantifier": "every wavefront, aperture and camera without oversampling", "why_tests_cant": "Ranges over all wavefronts, that is over all real arrays.", "anchors": ["soapy/scienceinstrument.py:PSFCamera.calcInstStrehl", "soapy/scienceinstrument.py:PSFCamera.frame"]}
{"id": "C188", "title": "From the turbulence to the Strehl ratio", "statement": "Turbulence that the mirrors can make ends in a Strehl ratio as close to the share of a flat wavefront's light as one likes, whatever the loop delay for which each mirror settles; and with inexact sensors and changing turbulence the Strehl ratio of every frame is bounded below by the bound on the commands' errors.", "quantifier": "every calibrated simulation, turbulence within reach of the mirrors, line of sight, camera without oversampling, loop delay and frame", "why_tests_cant": "Joins loop, mirrors, lines of sight and cameras over unbounded histories.", "anchors": ["soapy/simulation.py:Sim.loopFrame", "soapy/scienceinstrument.py:PSFCamera.calcFocalPlane", "soapy/scienceinstrument.py:PSFCamera.calcInstStrehl"]}
{"id": "C189", "title": "A loop with a pseudo-inverse never builds up what the sensors cannot see", "statement": "With a pseudo-inverse of the interaction matrix as control matrix (cut off or not, some combinations of actuators may be invisible), and all mirrors in closed loop with one gain, the commands on the mirrors are in every frame ones that the control matrix can make, so nothing builds up among the invisible combinations, whatever the turbulence and the delay. For a turbulence that stays, commands and measurements settle if the gain times the delay is below 1; what is left of the measurements reconstructs to nothing and has the least sum of squares that any commands could leave; and without delay the sum of squares never grows from frame to frame.", "quantifier": "every set of mirrors and linear sensors, interaction matrix of any rank, pseudo-inverse, turbulence history, loop delay, gain and frame", "why_tests_cant": "Ranges over unbounded histories and all interaction matrices; a slow build-up of invisible modes does not show in the measurements a test looks at.", "anchors": ["soapy/reconstruction.py:MVM.calcCMat", "soapy/reconstruction.py:Reconstructor.reconstruct", "soapy/simulation.py:Sim.loopFrame"]}
{"id": "C190", "title": "Rounding errors of the loop do not accumulate", "statement": "The commands are kept and updated in IEEE binary64. For mirrors in closed or open loop with gains from g to 1 and no loop delay, any turbulence that moves the wanted commands by at most v per frame, and sensors that miss by at most a fraction delta and eta (their own rounding included), no command ever becomes infinite or NaN, and the commands are within (1-k)^n first + (eta + v + u(11 W + 3 eta) + 4s)/k of those wanted in every frame n, where k = g(1-delta) - 11u, W bounds the wanted commands, u = 2^-53 and s = 2^-1074: a bound that does not grow with the number of frames. With a loop delay (closed loop) rounding likewise acts only as noise of (u(W + 7 range + 3 eta) + 3s)/g in the bound of C181.", "quantifier": "every set of mirrors, gain in binary64, function from commands to reconstructed commands of that accuracy, turbulence history and number of frames", "why_tests_cant": "Ranges over unbounded numbers of frames; a test runs a few hundred frames, where an accumulating error does not show.", "anchors": ["soapy/reconstruction.py:Reconstructor.apply_gain", "soapy/reconstruction.py:Reconstructor.reconstruct", "soapy/simulation.py:Sim.loopFrame"]}
{"id": "C191", "title": "The order of summation in the reconstructor hardly matters", "statement": "The commands reconstructed from n measurements in IEEE binary64 are numbers and miss the exact product of control matrix and measurements by at most 2nu times the sum of the absolute values of its terms (plus 4n of the smallest floats), in whatever order, grouping, lanes or fused multiply-adds the linear-algebra library adds the terms up; two such results (another machine, another number of threads) differ by at most twice that; and the loop with this product, added up differently in every frame, keeps the bound of C190 with the noise larger by that much.", "quantifier": "every control matrix, measurements, order of summation, chosen anew in every frame, mirror set, turbulence history and number of frames", "why_tests_cant": "Ranges over all orders of summation, which the library chooses by machine, size and threads, and over unbounded histories.", "anchors": ["soapy/reconstruction.py:Reconstructor.reconstruct", "soapy/reconstruction.py:Reconstructor.apply_gain", "soapy/simulation.py:Sim.loopFrame"]}
{"id": "C192", "title": "Rounding hardly changes interpolated values", "statement": "For every array of up to 2^20 x 2^20 numbers of size at most A, the value that interpolation returns in IEEE binary64 is a number within 20 unit roundoffs of A of straight-line interpolation of the data at coordinates inside the array, within 1e-8 A at coordinates beyond the last element (and, for a line of sight, negative ones) of the value at the nearest coordinate inside; zooming is accurate to 4e-8 A times the ratios of the spacings, with the outer elements on the outer elements; and no value leaves the range of the data by more than 20 unit roundoffs of A.", "quantifier": "every array of numbers, size, pair of coordinates, zoomed size and element", "why_tests_cant": "Ranges over all arrays and all float coordinates, where rounding and truncation of coordinates can go either way.", "anchors": ["soapy/numbalib/numbalib.py:bilinear_interp_numba", "soapy/numbalib/numbalib.py:bilinear_interp_numba_inbounds", "soapy/numbalib/numbalib.py:zoom", "soapy/lineofsight.py:LineOfSight.calcInitParams"]}
{"id": "C193", "title": "Rounding does not carry the turbulence away", "statement": "With infinite phase screens and a wind that is not negative, every frame of move_screen, computed in double precision, shows the turbulence where the wind has taken it: pixel (i, j) of frame n is, but for the last two columns, the interpolation n v - (i + 2) rows along the sequence of all rows ever made, to within n + i + 1 roundings of the difference of neighbouring rows and 20 of the largest phase; so after 10^9 frames it has strayed by less than a millionth of a pixel.", "quantifier": "every first screen and sequence of new rows, every wind speed up to 2^52 pixels per frame, every number of frames, every pixel", "why_tests_cant": "rounding errors of the sub-pixel offset add up over frames, and a test runs few of them", "anchors": ["soapy/atmosphere.py: InfinitePhaseScreen.__init__, move_screen", "soapy/numbalib/numbalib.py: bilinear_interp"]}
{"id": "C194", "title": "Rounding hardly changes what a line of sight sees", "statement": "On every frame of a run the residual returned by a line of sight (geometric, propagating down, with corrections) is, in every pixel, the sum of the phase screens less the sum of the corrections where the line of sight crosses them, up to a ten-millionth of the sum of their largest values.", "quantifier": "every number and content of the screens and corrections, every footprint, every wavelength, every frame", "why_tests_cant": "errors of interpolation, summation, conversion to radians and back, and storage in single precision combine; a test compares a few pixels with a tolerance found by trial", "anchors": ["soapy/lineofsight.py: LineOfSight.frame, makePhase, makePhaseGeometric, performCorrection, allocDataArrays"]}
{"id": "C195", "title": "A line of sight returns the same for the same screens", "statement": "The residual returned by a line of sight depends only on the screens and corrections given, not on the frames before.", "quantifier": "every two histories of frames, every screens and corrections", "why_tests_cant": "it is a relation between any two histories; the precision of an array that changes on the first call is not visible in values that happen to be exact", "anchors": ["soapy/lineofsight.py: LineOfSight.frame, performCorrection, allocDataArrays, zeroData"]}
{"id": "C196", "title": "Rounding does not move footprints", "statement": "The coordinates at which a line of sight crosses a layer or mirror are those of the configured direction, altitude, source height and pixel scales up to a few dozen roundings of the extent of the footprints, and hence every frame's residual is the exact sum over screens less corrections at the exact crossings, up to a ten-millionth of the largest values.", "quantifier": "every direction, source altitude, layer and mirror altitude, pixel scale, pupil and screen size within moderate limits, every pixel, every run of frames", "why_tests_cant": "rounding errors of a chain of some ten operations depend on every configured number; tests compare a few configurations with a tolerance", "anchors": ["soapy/lineofsight.py: LineOfSight.calcInitParams, calculate_altitude_coords, frame"]}
{"id": "C197", "title": "The GUI draws what the simulation has, wavefronts on one scale", "statement": "Whenever the simulation passes a plot to the GUI, every image its parts have is drawn in its own plot, and all wavefronts are drawn on one colour scale that runs from the least to the greatest of their values.", "quantifier": "every set of sensors, mirrors and cameras with whatever images they have at the time, every image, every choice of exposure shown", "why_tests_cant": "it ranges over which parts have which data at the time a plot is made and over all values in them; GUI code is not exercised by tests at all", "anchors": ["soapy/simulation.py: Sim.addToGuiQueue", "soapy/gui/gui.py: GUI.update, getPlotScaling, initPlots"]}
{"id": "C198", "title": "The GUI shows the speed of the loop", "statement": "While a loop runs, the GUI shows the frames per second since it was started and the time the remaining frames will take at that speed.", "quantifier": "every number of frames before and since the start, every total, every time", "why_tests_cant": "it depends on the history of stopping and starting the loop, and on real time", "anchors": ["soapy/gui/gui.py: StatsThread.run, GUI.run", "soapy/simulation.py: Sim.aoloop"]}
{"id": "C199", "title": "Rounding loses the turbulence nowhere between an infinite screen and the residual", "statement": "A run with infinite screens: on every frame each pixel of the residual that a geometric line of sight returns is the sum over the layers of the turbulence that the wind has brought, in as many steps as there were frames, to where exact arithmetic puts the crossing of the line of sight with the layer, in nanometres, less the sum of the corrections there. Floating-point rounding in the movement of the screens, their interpolation, their conversion to nanometres, the coordinates of the crossings, their clipping, the interpolation and the sums, adds no more than a part in 10^7 of the largest phases, and a drift of 80 * 2^-53 of the difference of neighbouring rows per frame.", "quantifier": "Every number of frames, number of layers, sequence of rows, wind speed that is not negative, wind direction, altitude, direction of the target, altitude of the source, pixel, size of screen and correction on each frame (crossings at least two pixels inside the screen).", "why_tests_cant": "The errors of some thirty operations per pixel combine with those of all previous frames; no comparison with a run in higher precision covers all runs.", "anchors": ["soapy/atmosphere.py:moveScrns", "soapy/atmosphere.py:InfinitePhaseScreen.move_screen", "soapy/atmosphere.py:InfinitePhaseScreen.rotate_screen", "soapy/lineofsight.py:LineOfSight.frame", "soapy/simulation.py:Sim.loopFrame"]}
{"id": "C200", "title": "The coupling a single mode fibre reports", "statement": "After each frame a single mode fibre instrument reports the share of the light that couples into the fibre: between nothing and the coupling it announced for a flat wavefront, which is positive and at most one, and just that if and only if the residual over the aperture is flat up to whole waves. A residual within B radians of flat costs at most a factor cos^2 B (B up to a quarter of a wave). Piston changes nothing. It does so for either kind of propagation, and also reports the long exposure.", "quantifier": "every aperture (grey ones too), size of the simulation, size of the mode, history of frames and resets, atmospheric and correcting phase", "why_tests_cant": "It ranges over all wavefronts and apertures and over histories; the equality is an equality case of the triangle inequality, the bound by one the Cauchy-Schwarz inequality.", "anchors": ["soapy/scienceinstrument.py: singleModeFibre", "soapy/lineofsight.py: LineOfSight.makePhaseGeometric, performCorrection"]}
{"id": "C201", "title": "Rounding hardly moves the window on a finite screen", "statement": "With finite screens, on every frame each pixel is read within a distance that does not depend on the number of frames (2^-49 of the size of the screen squared, over the wind speed in pixels per frame) of where exact arithmetic puts it, and no further outside the screen. From frame to frame the window moves over the turbulence by the wind within 2^-50 of the size of the screen, except at the ends of the screen, where rolling is exact to a pixel. Without wind nothing moves.", "quantifier": "every number of frames, size of screen and window (up to 2^40), wind between 2^-49 of the screen and a screen per frame in either direction, and none", "why_tests_cant": "Every coordinate accumulates its own rounding errors, over any number of frames; the position that decides about rolling accumulates others.", "anchors": ["soapy/atmosphere.py: moveScrns"]}
{"id": "C202", "title": "The GUI shows how much of a job is done", "statement": "While an interaction matrix is made, a Learn is run or the loop runs, the GUI shows the number of steps done, of how many, and the share to the nearest percent; it never goes back, and when the job is done it shows all steps and 100%.", "quantifier": "every number of steps, every step, whatever was shown before, messages in between", "why_tests_cant": "It ranges over the numbers of steps; GUI code is not exercised by tests.", "anchors": ["soapy/gui/gui.py: GUI.progressUpdate, IMatThread.progressUpdate, LoopThread.progressUpdate", "soapy/logger.py: statusMessage", "soapy/reconstruction.py: Reconstructor.make_dm_iMat, LearnAndApply.learn, LearnAndApply.calcCMat", "soapy/simulation.py: Sim.printOutput"]}
{"id": "C203", "title": "Separations of an infinite screen's points are distances", "statement": "The matrix of separations an infinite phase screen builds its covariances from has a row and a column for each point of the stencil, in order, and then for each point of the new row. In double precision every element is a number within 8 units of rounding (relative) of the Euclidean distance of its two points, never negative, exactly equal to the element with the points exchanged, and zero exactly where the points coincide.", "quantifier": "All lists of stencil points and new points with finite coordinates of at most 2^400, any two of which are equal or at least 2^-400 apart.", "why_tests_cant": "Stencils differ with the screen size and the kind of screen; a relative error of a square root of a sum of squares must be bounded for all coordinates.", "anchors": ["soapy/atmosphere.py: InfinitePhaseScreen.calc_seperations, calculate_seperations"]}
{"id": "C204", "title": "Rounding does not move the laser's way up", "statement": "For a laser guide star propagated up through the atmosphere, the coordinates at which each pixel of the beam crosses a layer are, in double precision, within 150 * 2^-53 of the extent of the footprints (in pixels) of those on the straight way from the launch position (given in telescope radii) to the guide star; so on every frame the phase of the laser's field is the sum of the screens less the sum of the precorrections on this way, up to a fraction 1e-7 + 600 * 2^-53 * extent of the largest values. Launched from the centre, the way up is the way down.", "quantifier": "All geometries without extreme numbers, all guide star positions, launch positions, telescope diameters and layer altitudes up to the guide star, all screens, all frames of all runs.", "why_tests_cant": "Floating-point arithmetic over all geometries; the launch position enters with a cancellation at the guide star.", "anchors": ["soapy/lineofsight.py: LineOfSight.calculate_altitude_coords, LineOfSight.calcInitParams, LineOfSight.frame", "soapy/LGS.py: LGS.initLos, LGS.getLgsPsf"]}
{"id": "C205", "title": "Rounding hardly changes the slopes of the gradient sensor", "statement": "Whatever the order in which the arithmetic of its sums is done, both slopes of a sub-aperture of a Gradient sensor are numbers, and differ from the tilts (in arcsec) of the plane that fits the sub-aperture's phase best by no more than 2e-5 times the largest phase over the phase of a tilt of one arcsec across the sub-aperture, although the phase is kept in single precision. The piston of the phase does not enter.", "quantifier": "All pupil sizes up to 2^20, all sub-apertures from 2 to 256 pixels, all amplitudes of the reference tilt and all phases without extreme numbers, all orders of summation.", "why_tests_cant": "Floating-point arithmetic over all phases and all orders of summation.", "anchors": ["soapy/wfs/gradient.py: Gradient.calcInitParams, Gradient.calcFocalPlane, Gradient.calculateSlopes"]}
{"id": "C206", "title": "The Strehl plot shows the frames that have been run", "statement": "While a loop runs, the GUI's plot shows for each science camera one curve of the instantaneous and one of the long exposure Strehl ratios, in one colour, with one point for each frame run since the last reset; old curves are removed, cameras can be told apart, and the labels show the last frame's values in percent.", "quantifier": "Every number of cameras and of recorded frames, every sequence of initialisations, runs, resets, frames, thread starts and ends and plot updates.", "why_tests_cant": "The curves depend on the whole history of runs, resets and updates.", "anchors": ["soapy/gui/gui.py: GUI.initStrehlPlot, GUI.updateStrehls, GUI.update, GUI.run, LoopThread.run", "soapy/simulation.py: Sim.storeData, Sim.reset_loop, Sim.initSaveData"]}
{"id": "C207", "title": "From the turbulence to the gradient sensor's slopes in floating-point arithmetic", "statement": "On every frame of a run both slopes of each sub-aperture of a Gradient sensor are numbers, and differ from the tilts (in arcsec) of the plane that fits best what exact arithmetic sees, through the sub-aperture and from the telescope to the guide star, of the screens less the mirrors, by no more than 5e-5 + 3200 * 2^-53 * G of the sum of the largest values of screens and mirrors (G: extent of the footprints in pixels) over the phase of a tilt of one arcsec across the sub-aperture; the error does not grow with the number of frames.", "quantifier": "All geometries, guide star positions, sub-apertures and masks of zeros and ones without extreme numbers, all screens and mirrors, all numbers of frames, all orders of summation.", "why_tests_cant": "Floating-point arithmetic from the coordinates of the footprints through interpolation, summation and single precision to the slopes, over all inputs and runs.", "anchors": ["soapy/wfs/gradient.py: Gradient.calcInitParams, Gradient.calcFocalPlane, Gradient.calculateSlopes", "soapy/wfs/wfs.py: WFS.frame", "soapy/lineofsight.py: LineOfSight.frame, LineOfSight.makePhaseGeometric, LineOfSight.performCorrection"]}
{"id": "C208", "title": "A guide star can be moved", "statement": "The position and the height of a light path can be set, and read back as set. From then on frames see the screens and the mirrors towards the new position and with the cone of the new height, as a light path built with them would.", "quantifier": "Every configuration of a sensor or a science camera, every sequence of assignments to the light path and to the configuration and of recalculations, all altitudes.", "why_tests_cant": "It depends on which values are kept from before, after any history of changes.", "anchors": ["soapy/lineofsight.py: LineOfSight.position, LineOfSight.height, LineOfSight.calcInitParams, LineOfSight.frame", "soapy/lineofsight_legacy.py: LineOfSight.position, LineOfSight.height, LineOfSight.frame", "soapy/confParse.py: WfsConfig.calcParams"]}
{"id": "C209", "title": "Rounding hardly changes the surface of a mirror", "statement": "The surface that a mirror shows for a set of commands is the sum of its influence functions times the commands, less its mean, and this is put in the middle of its screen with zeros around it. Rounding, and the order in which the library adds up, change every pixel by no more than a few units of 2^-53 per actuator and per pixel of the largest sum of commands times influence functions without their signs.", "quantifier": "All numbers of actuators and pixels up to 2^47, all influence functions and commands that are numbers, all orders of summation, all paddings.", "why_tests_cant": "Floating-point arithmetic over all commands, influence functions and orders of summation.", "anchors": ["soapy/DM.py: DM.dmFrame, DM.makeDMFrame"]}
{"id": "C210", "title": "From commands to slopes in floating-point arithmetic", "statement": "Frame by frame, the slopes of a gradient sensor that sees the atmosphere through mirrors follow the commands on the mirrors as exact arithmetic has it: they are the tilts of the plane that fits best the phase of the screens less that of the surfaces made by the commands, each seen along the line of sight. Everything that rounding does on the way (surfaces and their means, footprints, interpolation, sums, single precision) adds up to no more than a stated fraction of the largest values.", "quantifier": "All geometries, guide star positions, sub-apertures and masks of zeros and ones without extreme numbers, all screens, mirrors, influence functions and commands, all numbers of frames, all orders of summation.", "why_tests_cant": "Floating-point arithmetic through the whole path from commands to slopes, over all inputs and runs.", "anchors": ["soapy/simulation.py: Sim.runDM, Sim.loopFrame", "soapy/DM.py: DM.dmFrame, DM.makeDMFrame", "soapy/lineofsight.py: LineOfSight.frame", "soapy/wfs/gradient.py: Gradient.calculateSlopes"]}
{"id": "C211", "title": "If the loop works in exact arithmetic, it works in floating-point arithmetic", "statement": "Take mirrors, gradient sensors and a control matrix for which, in exact arithmetic, the control matrix times the slopes misses what is left of the wanted commands by no more than a fraction of the largest error and a constant. Then the program's loop, with every step from the commands through surfaces, lines of sight, interpolation, single precision, slopes, control matrix and integrator rounded, and everything added up in whatever order, never fails, has commands that are numbers, and brings them to those wanted at the rate of the gain (with a loop delay, at the slower rate that is left by it), up to a distance that is stated from the constant, the drift and the rounding errors.", "quantifier": "All mirrors, sensors, control matrices, gains, loop delays and screens without extreme numbers, all numbers of frames, all orders of summation in every sum of every frame.", "why_tests_cant": "It is about the limit of arbitrarily long runs with rounding in every operation.", "anchors": ["soapy/simulation.py: Sim.loopFrame, Sim.runDM, Sim.runWfs_noMP", "soapy/reconstruction.py: Reconstructor.reconstruct, Reconstructor.apply_gain", "soapy/DM.py: DM.dmFrame", "soapy/lineofsight.py: LineOfSight.frame", "soapy/wfs/gradient.py: Gradient.calculateSlopes"]}
{"id": "C212", "title": "A control matrix that inverts the interaction matrix closes the loop", "statement": "In exact arithmetic, the slopes of gradient sensors are those without commands plus, for every actuator, its command times the slopes of a command of one without turbulence: the interaction matrix. So if the control matrix inverts the interaction matrix (which holds the slopes times -1) up to a fraction below one in every row, the program's loop brings the commands, in floating-point arithmetic, to those that leave the control matrix nothing to correct, at the rate of the gain (with a loop delay, at the slower rate left by it) and up to a stated distance. It is enough that it inverts the interaction matrix the program measures in floating-point arithmetic: rounding of the measurement adds no more to the fraction than the number of actuators times the weight of a row times the rounding error of a slope.", "quantifier": "All mirrors, sensors, control matrices, gains, loop delays and screens without extreme numbers, all commands, all numbers of actuators, measurements and frames, all orders of summation.", "why_tests_cant": "It is about all commands and arbitrarily long runs with rounding in every operation, of the measurement of the interaction matrix as well as of the loop.", "anchors": ["soapy/reconstruction.py: Reconstructor.makeIMat, Reconstructor.make_dm_iMat, Reconstructor.reconstruct", "soapy/simulation.py: Sim.loopFrame, Sim.runDM", "soapy/lineofsight.py: LineOfSight.frame", "soapy/wfs/gradient.py: Gradient.calculateSlopes"]}
{"id": "C213", "title": "Actuators are dropped exactly if they have no effect, in spite of rounding", "statement": "When the interaction matrix of a mirror is made, the actuators that move some slope by more than 0.1 % of its largest element are kept, in their order, and the others dropped, where rounding moves the boundary by no more than a part in 2^50; at least one is kept. With gradient sensors, a dropped actuator moves no slope of exact arithmetic by more than that and the rounding error of a slope, and one that is kept moves some slope by at least that less the rounding error.", "quantifier": "All interaction matrices of numbers without extreme values, of all sizes; all mirrors, sensors and influence functions without extreme numbers.", "why_tests_cant": "Floating-point arithmetic over all interaction matrices, with a comparison at a rounded boundary.", "anchors": ["soapy/reconstruction.py: Reconstructor.make_dm_iMat"]}

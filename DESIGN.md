# Formal model of AOtools/soapy in Rocq (Coq 8.16.1)

## 1. Layout

    rocq/theories/Base/    Python/numpy semantics used by every model (exceptions as values, int(), round(),
                           slices, functional arrays, finite sums) and lemmas about them
    rocq/theories/Model/   the model of the code, function by function, every definition citing file:lines
    rocq/theories/Spec/    small independent specifications (no model helper is used in them)
    rocq/theories/Proofs/  lemmas
    rocq/theories/Props/   the property theorems only: statement, `exact lemma`, non-vacuity Example,
                           `Print Assumptions`

Naming: `Cnn_...` are property theorems of property Cnn in `properties.jsonl`. `_partial` marks a theorem that proves
only part of the English property (what is missing is said beside it). `_refuted` marks a proof, with a concrete
witness computed by the kernel, that the property is FALSE of the faithful model: a finding about the code.

## 2. Modelling choices

* **Numbers.** Integers are `Z`. Floating point numbers (float32/float64) are exact rationals `Qc` (canonical
  rationals with Leibniz equality, no axiom) or, where nothing but ring laws is needed, `Z`-indexed functions into
  `Qc`. Rounding error, overflow, NaN and infinity are NOT modelled, except where a property is about them and the
  model says so. Where square roots, powers or trigonometric functions matter (turbulence scaling, Fourier transforms
  of the pyramid, science camera and laser beacon) the model is over Coq's real and complex numbers; elsewhere they
  are Section variables or avoided by comparing squares.
* **Python operators.** `int(x)` truncates toward zero; `round(x)` is round-half-to-even; `//` and `%` are floored
  (`Z.div`, `Z.modulo`); slices follow the Python clamping rules including negative endpoints and `[0:-0]` (empty).
* **Arrays.** A 2-d numpy array is a record (rows, columns, index function). Theorems about arrays state equality at
  every valid index and equality of the shapes. 1-d vectors (slopes, commands) are lists.
* **Exceptions** are values: `result A = Ok a | Err e` with `e` naming the Python exception class. Where code mutates
  state and then raises, the model returns the mutated state with the exception.
* **Object identity.** Where numpy aliasing matters (the delay buffer) arrays live in an explicit heap and the code
  handles references.
* **External calls** (FFT, pinv, WFS physics, influence functions, random numbers, file system) are Section variables
  or arguments; what is assumed about each is a visible hypothesis of the theorem.
* **Threads** are modelled as a labelled transition system whose steps are the atomic accesses to the shared flag;
  theorems quantify over all interleavings.
* **Files** are modelled as a finite map from file name to content; saving is a list of atomic file writes, a crash is
  any prefix of it.

## 3. Plan per property

| id | model | proof shape |
|----|-------|-------------|
| C01-C02 | `DelayBuffer.delay` as a state machine on a list | closed form of the state by induction over calls; comparison with history indexing |
| C03 | heap model of loopFrame's command handling (references, in-place store) | invariant "current array is not in the buffer" + refinement to the pure model |
| C04 | `reset_loop` on the loop state with buffer | refutation witness; partial theorem for delay 0 and when the buffer is empty |
| C05-C07 | read decision of `runWfs_noMP` and `runWfs_MP` on rationals | invariant frameNo = floor(n*lt/et); refutations for reset and MP |
| C08-C09 | WFS accumulators (`frame`, `zeroData`, `calcFocalPlane`, `integrateDetectorPlane`) | invariant over read/no-read histories; refutation of "old slopes" |
| C10, C12 | offsets computed in `aoinit`, `makeIMat`, slices in `runDM`, `apply_gain` | prefix-sum lemmas, partition theorem |
| C11, C22 | `apply_gain`, `reconstruct`, `reset` | induction over frames; linearity |
| C13-C17 | `make_dm_iMat`, `makeIMat`, `valid_actuators`, `get_dm_imat` | list filtering lemmas, per-row correspondence; refutations for repetition and sub-matrix |
| C18-C21 | file map, save/load functions with partial effects | round trip; crash prefix enumeration; refutations |
| C23-C25 | `dmFrame` size arithmetic and array model; `runDM` | case analysis on parity; sums; refutations for odd differences and toggled flags |
| C26-C29 | `moveScrns`, `InfinitePhaseScreen`, strength normalisation | invariants over frames; cyclic-shift refinement for integer positions; refutation for fractional positions |
| C30-C34 | `LineOfSight` geometry, superposition, frame, physical propagation distances | linearity, history independence, bounds by nonlinear arithmetic, telescoping; unit refutation |
| C35-C40 | numbalib/AOFFT/interp functions loop by loop | index arithmetic, convexity, permutation lemmas; refutations for odd sizes and `ftShift2d` |
| C41-C45 | `findActiveSubaps`, `place_subaps_on_detector`, `readDetectorPlane`, `calculateSlopes`, padding loops | index arithmetic; loop termination; refutation for odd windows |
| C46-C49 | Gradient and Pyramid WFS | linear algebra over finite sums; abstract linear propagation; refutations for sizes and uninitialised memory |
| C50-C54 | `ConfigObj.loadParams`, `__setattr__`, `calcParams` | dictionary semantics; arithmetic bounds; refutations |
| C55-C59 | `aoloop`, `storeData`, threads, `reset_loop`, `make_mask` | induction over frames; ring buffer refinement; transition system invariants |
| C60-C62 | `PSFCamera` | sums over frames; parity arithmetic; algebra |
| C63-C65 | LGS geometry, elongation, logger | algebra; refutations |
| C66-C68 | noise settings, reloading, control matrix provenance (Persist) | state threading; refutations |
| C69 | `DM.dmFrame` with rotation | exception model |
| C70-C73 | infinite screen columns, wind directions, oblique screens, r0 and tau0 scaling | index arithmetic; real analysis for powers |
| C74-C75 | corrections in the line of sight, physical mode output | algebra over every history |
| C76-C81 | Shack-Hartmann cutting, activity, throughput, reference, fill factor, physical mode | index arithmetic; linear algebra; refutations |
| C82-C84 | sensor classes against simulation, elongation and exposures | case analysis per class; history refutation |
| C85-C87 | pyramid counts, sizes, light | counting; Parseval |
| C88-C91 | loop report, restart, user classes, second run | induction over frames; transition system; refutations |
| C92-C94 | Strehl bound, focal plane order, sampling | discrete Fourier analysis (triangle inequality, Parseval, polynomial roots); float32 witness |
| C125-C132 | whole configuration files: formats, groups, counts, histories, names, dict(config), text for numbers | both loaders over dictionaries of values; relational proof (objects equal attribute by attribute) through every step of loading; invariants of loaded objects for the round trip; programs as sequences of bindings of global names |
| C115-C124 | attributes of every class: which exist when | method bodies extracted to a small language of attribute effects with an inductive semantics; verified abstract interpreter, enumeration of the configuration switches; oracle interpreter for the witnesses |
| C111-C114 | influence functions: Piezo, FastPiezo, TT, GaussStack, construction | RectBivariateSpline a parameter, linear in its data and (C113) even; linearity over a NoDup list of pokes; cropping and padding; algebra |
| C105-C110 | other reconstructors: SeparateDMs, LearnAndApply, LTAO, GLAO, WooferTweeter, LgsTT, ANN | pinv a parameter constrained only in shape (and by the generalised-inverse equation for C108); block storage with numpy broadcasting; normal equations and completion of squares for optimality; length arguments for the classes that can never run |
| C101-C104 | closed loop: law, convergence, delay, tracking | composition of the calibration, reconstruction, delay and correction models; induction over frames; contraction over 2D+1 frames for delay D; quadratic invariant for D=1; Bernoulli for the limits |
| C95-C100 | LGS uplink, scales, sizes, sodium profile, precompensation, warning | circular convolution theorem; algebra; refutations |
| C133-C137 | the FFT object: libraries, shared arrays, shapes (FftObject) | invariants over histories of a memory of arrays; refutations |
| C138-C141 | convolve, Convolve, correlation images (Convolve) | discrete Fourier transform on P x Q arrays, exact; circular sums; refutations |
| C142-C144 | strength of screens, screen files (ScreenFiles) | real powers; directory as a function, induction over the files; refutations |
| C145-C146 | zoomWithMissingData and CustomShapes (ZoomMissing) | coordinates over Q, any interpolator that gives back its samples, or whose values are weighted means of samples around the point (ZoomSpec, with bilinear interpolation as a witness); refutations |
| C147-C150 | the parallel numba loops (Parallel) | small-step interleaving of programs on a shared memory; non-interference invariant, termination by accessibility; Hoare rules for the loops |
| C157 | symmetries of the pyramid sensor (Pyramid) | reindexing of the double sums by the mirror; modulation points permuted |
| C156, C26, C28, C76, C77 | index computations in IEEE binary64 (Rounding64) | error bounds on each rounded operation; the distance between window and coordinates is an invariant that grows by one rounding per frame |
| C159-C160 | command line, logger, progress (Cli) | case analysis over options and stages; induction over the total; refutations |
| C161-C164 | optics of a Shack-Hartmann sub-aperture (ShOptics) | discrete Fourier shift and Parseval theorems over the reals; refutations with explicit fields |
| C165-C166 | the legacy Shack-Hartmann sensor: cutting the field, placing the images (LegacySh) | rounding of halves to even on both ends of every slice; refutations for all sizes of the failing kind |
| C167 | removing the tip and tilt common to several sensors (Control remove_common_tt) | loop invariants over the sensors already treated; refutations for two sensors of any different sizes |
| C168-C169 | numbers that may be NaN, through slopes, gain law and histories of the reconstructor (NoLight) | NaN as a value with IEEE propagation; agreement with Sh and Recon on numbers; invariant over histories |
| C170-C171 | the configuration objects of simulation, mirrors and GUI and the gain boxes (GuiGain) | heap of configurations; invariant over histories of user actions; rounding as any monotone projection onto hundredths |
| C172-C174 | bilinear sampling of the phase along the line of sight in front of the transforms of science cameras and Shack-Hartmann sensors (Sampling) | bilinear interpolation keeps tilts; shift theorem of the Fourier transform; transposition of the transforms |
| C175 | one frame of LearnAndApply (Control) | means of shifted slopes; linearity |
| C176-C177 | parsing of git describe, PEP 440 rendering, choice of the tag in archives (Version) | spans from the end of strings; unique decomposition at separators; insertion sort by a total order |
| C178 | the closed loop with any sensors (Loop) | induction over frames on a bound of the error; contraction by 1 - g (1 - delta) |
| C179-C180 | mirrors, lines of sight, sensors, calibration and loop put together (Chain, from Dm, Los, Recon, Loop) | the mirror placing and the seen phase are linear, so the parts satisfy the assumptions of C101-C103; the wanted commands are recovered from the slopes; residual phase as a linear map of the command error |
| C181 | as C178, with the delay buffer | strong induction over frames: the error is bounded by a contraction of its largest value over the last 2 loop_delay + 1 frames |
| C182-C183 | the legacy line of sight at one output element: footprint, cone, interp2d on the screen, sum of layers, corrections | coordinates bounded by the beam, induction over layers and corrections |
| C184 | legacy and current line of sight side by side | equality of footprints and sums over layers |
| C185 | the operations of makePhasePhys as a list, light followed along it | induction over the layers |
| C186 | Model/Chain.v; reach of the actuators from their poked phases | linearity of the phase in the commands, then C178/C181 |
| C187 | Model/Science.v | cos x >= 1 - x^2/2 and the triangle inequality on the amplitude; Parseval for the cropped plane |
| C188 | Model/Chain.v with Model/Science.v and the interpolation of Model/Sampling.v | C180, C186 and C187 joined through the bilinear interpolation |
| C189 | Model/Loop.v, Model/Recon.v | induction over the frames: the commands stay in the range of the control matrix; linearity of calibration; scalar delay line of C103; Pythagoras for the squares |
| C190 | Model/FloatLoop.v | error of one rounded update from Flocq's relative error bound; induction over the frames with the geometric bound as invariant |
| C191 | Model/FloatDot.v, Model/FloatLoop.v | inductive relation of all summation trees with fused multiply-adds; induction over it with the bound ((1+u)^n-1) sum + (2n-1)(1+u)^n s; composition with C190 |
| C192 | Model/FloatInterp.v, Model/Rounding64.v | error analysis of one rounded line, the fraction being exact; Lipschitz continuity of straight-line interpolation across cells; error of clamped, clipped and zoomed coordinates |
| C193 | Model/FloatFlow.v, Model/FloatInterp.v | rows and offset follow C28_rounded; the stored rows reflect a piecewise-linear function of position, which is Lipschitz; kernel error of C192 |
| C194 | Model/FloatLos.v | error analysis: interpolation (C192), sum of screens by induction, conversion to radians and back, storage in single precision |
| C195 | Model/FloatLos.v | the dtype of the phase array as state; computation for the refutation |
| C196 | Model/FloatFootprint.v | errors in units of 2^-53 of a bound of each intermediate result, through the operations one by one; then C194 with the Lipschitz constant of bilinear interpolation |
| C197 | Model/GuiDraw.v | membership in the lists of images collected, scaled and drawn; the list of drawing steps up to the first exception |
| C198 | Model/GuiDraw.v | the arithmetic of the statistics thread; the start counted from is not that of the loop |
| C199 | Model/FloatChain.v | moveScrns of infinite screens composed with line-of-sight frames in binary64; error bounds added up over layers and frames |
| C200 | Model/Fibre.v | the overlap integral as a finite sum of complex numbers; projection on its direction, Cauchy-Schwarz; invariant over histories for the attributes |
| C201 | Model/FloatScreens.v | position and coordinates of a window in binary64; invariant relative to the last restart, the number of frames since bounded by the way the window has |
| C202 | Model/GuiProgress.v | the strings emitted as values, the slot as a function, jobs as lists of emissions; induction over them |
| C203 | Model/Separations.v | one element in binary64, sqrt included; relative errors through square, sum and root; rounding is odd, hence symmetry |
| C204 | Model/FloatLaunch.v | the footprints of C196 with a launch position; error bounds composed along the expression; the exact way is a straight line in the specification |
| C205 | Model/FloatGrad.v | sums as relations over all orders; error bounds of the mean, the reference tilt, its norm, and the products; since the weights add up to zero, an error of the mean does no harm. The specification is a least squares fit |
| C206 | Model/StrehlPlot.v | records, artists with identities and the colour counter as one state, the user and the threads as actions; invariants by induction over all sequences of actions; refutations for all runs |
| C207 | Model/FloatGradChain.v | the frames of C196 and the slopes of C205 joined pixel by pixel; the best plane is a Lipschitz function of the phase; induction over frames |
| C208 | Model/MovedStar.v | configurations as optional attributes, light paths with what they keep from when they were built, moves as actions; induction over all sequences of moves; refutations for all of them |
| C209 | Model/FloatMirror.v | sums in any order of C191 for the pixels and for the mean; every rounding bounded relative to the largest sum without signs; zero padding by cases |
| C210 | Model/FloatDriven.v | the surfaces of C209 put into the frames of C207; bilinear interpolation does not enlarge errors; the best plane is a Lipschitz function of the phase; an instance whose tilt is computed exactly |
| C211 | Model/FloatWhole.v | C210 for every slope gives the accuracy that C191 asks of the slopes, with the errors of exact arithmetic and of rounding added up; an instance with a tilting mirror whose command approaches the tilt of the screen |
| C212 | Model/FloatInteraction.v | surfaces, their means, interpolation, residual phase and best planes are linear in real commands, so slopes are affine in the commands; with that a control matrix that inverts the interaction matrix gives what C211 asks; C210 for every poke bounds what rounding does to the measured interaction matrix |
| C213 | Model/FloatEffect.v | the computed maximum is the largest element, the product with the literal 0.001 is off by a relative error of 2^-50 at most, comparison is exact; with the measured rows of C212 the same for slopes of exact arithmetic |
| C151-C155, C158 | the GUI thread, the plot queue, the buttons (Gui) | transition systems over the shared flag, lock and queue; counting invariant per thread; refutations by explicit schedules run by computation |

Nothing in the list is judged inexpressible; what the model abstracts from (floating point, FFT, optics) is listed
in section 5.

## 4. Trusted base

* Coq 8.16.1's kernel (and its VM for `vm_compute`).
* Axioms: see section 6 (`Print Assumptions` under every theorem).
* The faithfulness of the model to the Python text: every definition cites the lines it models; the code was read,
  not run.

## 5. What is modelled and what is not

Modelled (one file in `Model/` each, with its own simplifications in the comments):

| model | code | left out |
|-------|------|----------|
| Parallel | the prange loops of numbalib.py and wfslib.py, element access by element access | reads outside an array; memory is sequentially consistent; chunking of iterations (any interleaving is allowed) |
| Cli | bin/soapy options, logger levels, `statusMessage` and its callers | Python 2, IPython, log files, what the GUI shows |
| ShOptics | shackhartmann.py 49-98, 162-170, 261-284, 318-351, 370-378 for one sub-aperture: FFT size, tilt correction, focal plane, shift, binning, fill factor | single precision, LGS uplink, several exposures (Wfs), the zoom of the phase (Numerics), placing on the detector (Sh) |
| LegacySh | shackhartmann_legacy.py 56-66, 99-101, 287-299, 333-396, 436-442: crop and cut of the field, binning, fill factor, placing, centroid windows | the Fourier optics (same formulas as ShOptics), LGS uplink, read-out and noise, float rounding of the sizes |
| NoLight | shackhartmann.py 438-460, shackhartmann_legacy.py 446-472, wfs.py 457-466, reconstruction.py 409-446 with NaN | infinities, rounding, angleEquivNoise |
| FloatLoop | reconstruction.py 409-442, simulation.py 532-571, 1245-1252 in IEEE binary64 | everything between mirrors and control product (an arbitrary function of stated accuracy) |
| FloatDot | reconstruction.py 437 in IEEE binary64, any order of summation | wider registers, Strassen-like products |
| FloatInterp | numbalib.py 38-114, 184-214, lineofsight.py 181, 189, 273, 335 in IEEE binary64 | storing in single precision |
| FloatFlow | atmosphere.py 471-522 (move_screen) in IEEE binary64 | rotation of oblique screens; statistics of new rows (aotools) |
| FloatLos | lineofsight.py 247-348, 353-398 in IEEE binary64 and binary32 storage, geometric, downwards | EField, upward propagation |
| FloatFootprint | lineofsight.py 150-189, 202-231 in IEEE binary64, with numpy.linspace | launch positions (upwards), the zoomed mask |
| GuiDraw | simulation.py 1099-1149; gui.py 288-331, 338-363, 612-621 | shapes of images and view boxes, Strehl curves, the progress bar |
| FloatChain | atmosphere.py 302-309, 476-481, 503-552 with numbalib.py 118-146 and lineofsight.py 353-398 | the errors of the floats 500/(2 pi), cos and sin |
| Fibre | scienceinstrument.py 330-353 with lineofsight.py 257, 304, 343 | rounding; scipy's minimiser (the size of the mode is any nonzero number) |
| FloatScreens | atmosphere.py 243-264, 316-368 in binary64 | the spline; the scaling of 371-378 |
| GuiProgress | gui.py 579-591, 643-645, 669-673, 701-703, logger.py 68-74, 100-101, reconstruction.py 317-318, 571-585, 606 | Qt's signals (delivered in order) and bar; rounding of the division |
| Separations | atmosphere.py 556-587 in binary64 | the positions (aotools); pow as a product |
| FloatLaunch | lineofsight.py 85, 177-188, 211-230 propagating up, in binary64; LGS.py 80-95, 115-119 | getLgsPsf beyond the line of sight |
| FloatGrad | wfs/gradient.py 60-70, 126, 145-152 in float32 and binary64 | removeTT and noise |
| StrehlPlot | gui.py 164, 332-333, 432-476, 522-535, 690-696; simulation.py 303, 650-675, 734-738, 832-835 | matplotlib itself, formatting of the labels |
| FloatGradChain | gradient.py with lineofsight.py (float) | one sub-aperture of a sensor behind its line of sight, frame after frame; no noise, no frame delay |
| MovedStar | lineofsight.py, lineofsight_legacy.py, confParse.py | which pieces of screens and mirrors a frame reads after changes of position and height; downwards, without clipping and without the check of the screen's size |
| FloatMirror | DM.py 164-166, 182-202 | rotation (which raises); mirrors wider than the screen; FastPiezo (a makeDMFrame of its own) |
| FloatDriven | simulation.py 484-509, 555-560 | one sub-aperture of one sensor; mirrors in open loop, of which it sees zeros |
| FloatWhole | simulation.py 379-408, 502-506, 555-560 | all sensors read out in every frame; mirrors in open loop |
| FloatInteraction | reconstruction.py 248-307 (makeIMat, make_dm_iMat), lineofsight.py 380-382, in binary64 for gradient sensors: pokes of one, screens of zeros, slopes times -1 | dropping of actuators without effect (see FloatEffect), noise, other sensors, callbacks |
| FloatEffect | reconstruction.py 324-343 in binary64 | interaction matrices without elements, for which numpy raises |
| GuiGain | gui.py 169-175, 192-203, 253-267, 486-498, 568-569, 636-641; simulation.py 128-141 | other widgets, Qt |
| Sampling | numbalib.py 98-115; scienceinstrument.py 152-154, 222-227, 311-330; wfslib.py 11-42 | float rounding of coordinates |
| Version | _version.py 206-249, 300, 336-387, 390-419, 604-617, 669-671 | running git, dates, branches, other styles |
| Chain | the parts of `Sim.loopFrame` put together: `DM.dmFrame`, `LineOfSight.frame` (geometric), sensors, `makeIMat`, `reconstruct` | detectors and centroiding (slopes are any function of the phase), rotation of mirrors |
| LegacyLos | `lineofsight_legacy.py`: `calcMetaPupilSize`, `getMetaPupilPhase`, `makePhaseGeometric`, `performCorrection`, `frame`, schedule of `makePhasePhys` | angularSpectrum and the field in physical mode, masks, `apos`, float32 |
| Gui | `GUI.update`, `initPlots`, `Sim.addToGuiQueue` (flag, lock, queue); `run`, `stop`, `init`, `LoopThread`, `InitThread`, `aoloop` | drawing, Qt signals, the content of the plots, IMatThread, the console |
| ScreenFiles | atmosphere.py 151-220, 258-287, 371-406, 416-470: screens from files, saving, strength | the FITS format; aotools' generators are arbitrary functions with Kolmogorov scaling; random states |
| ZoomMissing | interp.py 146-203, DM.py 253-277: zoomWithMissingData, CustomShapes | scipy's griddata is an arbitrary function that gives back its samples; reading of the file |
| FftObject | AOFFT.py 27-268: choice of library, `FFT.fft`, which arrays are shared | threads, plan flags, dtype; the libraries' transforms are arbitrary functions |
| Convolve | AOFFT.py 325-408, extendedshackhartmann.py 138-140, 197-230 | single precision; padding of 127-137; FITS reading |
| Delay | `DelayBuffer`, command handling of `loopFrame`, `reset_loop` | - |
| Rounding64 | the coordinates and indices of interpolation, zoom, sub-aperture edges and the moving window in binary64 (and float32 where the code converts) | int32 overflow |
| Readout64, Base/Float64 | the read schedule of one sensor in IEEE binary64 (Flocq's verified operations, round to nearest even) | multi-process mode |
| Wfs | read schedule, exposures, accumulators, `runWfs_noMP`/`runWfs_MP`, measurement layout | physics of a frame (arbitrary functions) |
| Control | reconstruction.py 467-1032: `MVM_SeparateDMs`, `LearnAndApply`, `LearnAndApplyLTAO`, `GLAO_4LGS`, `WooferTweeter`, `LgsTT`, `ANN` | `initControlMatrix` (never called), loading of learnt slopes from files, the pybrain network (a parameter) |
| Loop | `loopFrame`, `runDM`, composition of Recon, Delay and Dm | sensors are linear functions of the correction plus arbitrary turbulence slopes |
| Recon | `Reconstructor.apply_gain`, `reset`, `MVM.reconstruct`, interaction matrix building and filtering, `get_dm_imat` | `pinv` (an arbitrary function) |
| Persist | save/load of iMat, cMat, active actuators; headers; crash points | FITS encoding |
| Dm | `DM.__init__` sizes, `dmFrame`, influence-function sum, `runDM`, rotation | influence shapes (arbitrary stacks; see DmShapes) |
| Attrs, AttrsCode | every method of 32 classes (DM, LGS, atmosphere, lineofsight, reconstruction, scienceinstrument, simulation.Sim, wfs/*): reads, writes and calls on `self`, control flow, `super`, properties, exceptions | everything else is a free choice; attributes of other objects, module functions, `GUI`; generated by `tools/extract_attrs.py`, which is trusted: its header gives the translation, and a test is tied to a switch only for the configuration tests listed in it |
| DmShapes | `Piezo`, `FastPiezo`, `TT` shapes, `GaussStack` centres, construction of every class | spline and Gaussian values (parameters), Zernike and Karhunen-Loeve mode shapes, float32 storage |
| Numerics | numbalib loops, `interp.zoom`, `binImgs`, `AOFFT.FFT` shifts and worker processes | FFT libraries, spline interpolation |
| Atmos, AtmosReal | `moveScrns`, infinite screens, strengths, r0/tau0 | statistics of the screens (aotools) |
| Los | `LineOfSight` geometry, interpolation, superposition, correction, physical path | angular-spectrum kernel (opaque) |
| Sh, ShReal | Shack-Hartmann geometry, padding, placing, flux, read-out, tip-tilt removal | centroiders (aotools), noise distributions |
| Grad | gradient sensor, sensor class interfaces | Zernike arrays of aotools (tip and tilt as linear ramps) |
| Pyramid | pyramid sensor: modulation, mask, transforms as exact DFTs, slopes | single precision |
| ConfigFile | `PY_Configurator`, `YAML_Configurator`, `ConfigObj.loadParams`, calcParams of every class and of the configurator (but its sizes), `__iter__`, `loadSoapyConfig`, the copy kept by `initSaveData` | the texts themselves (PyYAML, the python parser, float() on texts are parameters); programs are bindings and copies of names; lists of guide-star names, warnings |
| Config | `ConfigObj`, per-class tables, derived parameters, screen size | YAML parsing |
| Sim | `aoloop`, records, background thread, `reset_loop`, mask, user modules | GUI, plotting, FITS encoding |
| Science | `PSFCamera` sizes, fields, DFT, images, Strehl, wavefront error | single precision except where stated (C94) |
| Lgs, LgsReal | launch geometry, elongation, beacon images, uplink, precompensation, logger | zoom of the beacon field (C36), focus of the physical beacon |

Not modelled: the rest of `gui/`, `bin/soapy`, `_version.py`, `shackhartmann_legacy.py`, `lineofsight_legacy.py` (not reachable from the
configured classes), plotting and header text in `simulation.py`, the numerical content of aotools routines, random number
distributions, rounding of floating point arithmetic (except C94), memory layout and performance.

## 6. Print Assumptions

`Print Assumptions` stands under every property theorem. Result, over the theorems named in MANIFEST.json:

* **Closed under the global context** (no axiom): 441 theorems, all those not listed below.
* **`ClassicalDedekindReals.sig_forall_dec`, `ClassicalDedekindReals.sig_not_dec`, `Classical_Prop.classic`, `FunctionalExtensionality.functional_extensionality_dep`**: C05_rounding_refuted, C05_two_periods_refuted, C05_rounded_count_partial, C05_rounded_default_partial, C05_rounded_short_partial, C05_rounded_exact_partial, C26_rounded_partial, C26_rounding_refuted, C28_rounded_partial, C28_rounding_refuted, C29_integrated_r0, C29_screen_variance, C43_magnitudes, C73_requested_tau0, C76_rounded_partial, C76_rounding_refuted, C77_rounded_edges, C77_rounded_cells, C92_refuted, C142_files, C142_random_partial, C142_inner_scale_refuted, C143_files_partial, C143_too_small_refuted, C143_mixed_refuted, C144_round_trip_partial, C156_interpolation_inside, C156_clipped_inside, C156_zoom_inside, C156_sizes_needed, C187_marechal, C187_cropped, C187_close, C188_image, C188_settles, C188_robust, C188_robust_delay, C190_delay, C190_float, C191_product, C191_orders, C191_loop, C192_kernel, C192_interp, C192_los, C192_zoom, C192_range, C193_flow, C194_residual, C195_later_partial, C195_first_refuted, C195_close_partial, C196_footprints, C196_residual, C199_chain, C201_window, C201_still, C203_separations, C204_footprints, C204_residual, C205_slopes, C207_slopes, C209_surface, C209_screen, C210_slopes, C211_loop, C211_delay, C212_interaction, C212_loop, C212_delay, C212_measured, C213_kept, C213_effect.
* **`ClassicalDedekindReals.sig_forall_dec`, `ClassicalDedekindReals.sig_not_dec`, `FunctionalExtensionality.functional_extensionality_dep`**: C48_flat_refuted, C48_flat_partial, C48_piston_partial, C49_partial, C49_refuted, C60_never_dark, C60_flat_centre_partial, C60_flat_centre_refuted, C62_partial, C62_physical_refuted, C64_phase_partial, C64_tilt_partial, C64_tilt_refuted, C64_phase_refuted, C87_light_partial, C87_refuted, C92_partial, C92_one_pixel_refuted, C93_partial, C93_odd_refuted, C95_convolution_partial, C95_refuted, C138_convolve_partial, C138_symmetric, C138_shapes, C138_unit_refuted, C139_object_partial, C139_shapes, C139_unit_refuted, C140_correlation_partial, C140_order_refuted, C140_convolution_refuted, C141_reference_refuted, C157_image, C157_upside_down, C157_exchanged, C157_opposite_tilts, C161_moves, C161_moves_partial, C161_centre, C161_refuted, C162_position, C162_flat, C162_centred_partial, C162_even_refuted, C162_odd_refuted, C163_light, C163_own_wavefront, C164_exchanged, C172_moves_partial, C172_overshoot_refuted, C172_refuted, C173_exchanged, C174_moves_partial, C200_coupling, C200_long_refuted, C200_physical_refuted.
* **`ClassicalDedekindReals.sig_forall_dec`, `FunctionalExtensionality.functional_extensionality_dep`**: C48_flux_scale, C48_bounded, C60_images, C85_count, C144_again_refuted, C144_infinite_refuted, C161_scale_partial, C162_offset, C172_scale_partial, C174_refuted, C205_best.
* **`ClassicalDedekindReals.sig_forall_dec`**: C137_padding_partial, C137_padding_refuted, C141_reference_partial.

These four are axioms of Coq's standard library (the construction of the real numbers and its classical facts). Coquelicot's
`Complex` is used for the type `C = R * R`, `Cmod` and its ring structure; it adds no axiom. No other axiom occurs, and none is declared here.

## 7. Findings

Properties that are false of the code as modelled (theorems `_refuted`), with the reason:

* **C04** reset_loop forgets the previous run. REFUTED for every delay >= 1: reset_loop does not clear the delay buffer, so the first d commands after a reset are the last d of the previous run. Proved for loopDelay 0.
* **C05** WFS read-out schedule. REFUTED in floats: with loopTime 0.0025 (most shipped configurations) and the default exposure the sensor is not read on the 29th frame, because int(0.0025*29/0.0025) is 28; with an exposure of two such periods the 29th exposure lasts three frames and the 30th one. Proved in exact rational arithmetic (any number of WFSs and frames), and in binary64: the number of reads is never more than one off, the default exposure loses at most one frame, shorter exposures lose none, and loop periods of few bits (1/512 s) are read exactly every p-th frame.
* **C06** Read-out schedule restarts with reset_loop. REFUTED: wfsFrameNo survives reset_loop; a WFS with exposure longer than a loop period that has been read once is read on every frame after a reset. Proved for resets before the first read and for the default exposure (unless exactly one frame was run). Exact arithmetic for the times.
* **C07** Multi-process and single-process WFS reads agree. REFUTED: decisions differ on frame 0, and multi-process mode blocks for ever because multiWfs uses the attribute LGS that no WFS has. Proved: decisions agree on all later frames.
* **C08** Detector integrates exactly one exposure. Proved for every schedule without LGS uplink. REFUTED with uplink: the convolution is re-applied to the accumulated light on every frame.
* **C09** Slopes on frames without a read. REFUTED: zeros are returned on frames without a read. Proved: the sensor object keeps its slopes.
* **C15** Recalibrating the same simulation. REFUTED: once an actuator has been rejected and two or more kept, calibrating again raises. Proved when none was rejected.
* **C16** Per-DM sub-matrix extraction. REFUTED when an actuator of an earlier DM (or this one) was rejected: offsets use the unfiltered actuator counts. Proved when none was rejected.
* **C17** Calibration leaves the noise settings unchanged. REFUTED for a frame that raises: settings stay off. Proved for calibrations that succeed.
* **C19** A rejected load leaves the simulation usable. REFUTED when a later active_acts file is unreadable after an earlier DM was filtered: the fall-back calibration raises. Proved when the iMat file is unreadable or its header differs.
* **C20** Saving calibration is crash safe. REFUTED over the files of an older calibration with the same number of kept actuators: crash after iMat.fits gives new matrix with old flags. Proved for every crash point when the directory has no readable file of another calibration.
* **C21** Control matrix load checks. REFUTED: the conditioning actually used (reconstructor svdConditioning) is not in the header, and a file without header keys is not checked. Proved: shape and recorded per-DM conditioning are checked, otherwise pinv of the current iMat; with rejected actuators the stored file is never reused.
* **C23** DM frame size. REFUTED for an odd number of phase elements (e.g. odd pupilSize: the screen size is always even): every frame raises ValueError, or a Piezo stack stays flat; a Piezo stack that fills the screen exactly cannot be built. Proved for even sizes, all classes, every history.
* **C25** Open and closed DMs are applied exactly once. REFUTED when a DM is switched from closed to open during a run: its old surface stays in the closed buffer. Proved for fixed settings, all histories.
* **C26** Phase-screen window stays inside the screen. REFUTED in the floats the code uses: coordinates and position are accumulated separately, and rounding carries the last coordinate past the last pixel (C26_rounding_refuted: 0.4 pixels per frame, frame 160). Proved: inside in exact arithmetic, any wind, any number of frames, both axes (C26_window_inside_partial); in binary64 it strays by at most n rounding errors at frame n (C26_rounded_partial).
* **C27** Frozen flow. REFUTED for fractional winds: at each wrap the sub-pixel part of the displacement is lost, and a screen as large as the window never moves under a wind below one pixel per frame. Proved: exact cyclic flow for whole-pixel winds for ever; exact flow between wraps for every wind; error below one pixel at every step.
* **C28** Infinite screens advance at the wind speed. REFUTED for negative wind speeds (no row is ever added). For speeds >= 0: floor(n v) rows, offset in [0,1), exact frozen flow of the output. The rows themselves (aotools) are an arbitrary sequence; the clamp epsilon is the code's, and excluded by the index ranges. In binary64 (C28_rounded_partial): rows + offset = n v up to n roundings, and REFUTED as an exact count: after ten frames at 0.1 no row has been added.
* **C32** Cone effect geometry. REFUTED for layers above the source: negative footprint size, samples run backwards. Size and centre proved for every altitude and source.
* **C33** Physical propagation distance. REFUTED for a source below the highest layer (negative last leg upwards; no effect of the source downwards). Otherwise every screen is met once at its altitude and the path is complete. The angular-spectrum step itself is an opaque operation.
* **C34** Residual phase units. REFUTED: looking down, radians without a correction, nanometres with one.
* **C35** Bilinear interpolation is exact and bounded. REFUTED at the last row/column: the bounds-checked variant moves coordinates at or beyond the last element 1e-9 before it, so the last row is returned with an error of 1e-9 of the last step (C35_last_row_error); the unchecked variant reads outside the array there. Everywhere else proved: exact at grid points, exact on bilinear functions, bounded by the data, no read outside the array.
* **C36** Zoom is consistent. REFUTED: the fast zoom divides by (m - 0.99999999), so zooming to the same size changes the array (proved within 2e-8 of the largest neighbour step); the spline zoom swaps its axes for non-square arrays; interp.zoom returns None for complex data; zoom_rbs cannot take an int. Boundedness (hence constants) proved for every size; square spline zoom proved for any interpolator exact at grid points.
* **C38** In-place FFT shift. REFUTED for odd sizes: the last row (or column) is never moved. For even sizes equal to numpy.fft.fftshift for every execution order of the parallel rows; involution for every size.
* **C40** ftShift2d swaps quadrants. REFUTED: reverses each quadrant instead of swapping them; for even sizes the result is fftshift followed by a point reflection, so the zero frequency lands one element before the centre. Passing an output array raises ValueError.
* **C42** Placing sub-apertures on the detector conserves light. REFUTED for odd pxlsPerSubap with the doubled field: half-pixel windows are truncated differently for source and destination, so placing a first-row sub-aperture raises ValueError (C42_refuted). Proved with a field stop or an even number of pixels: every detector pixel receives exactly the light drawn on it, once (C42_placed_partial, C42_light_kept_partial).
* **C46** Gradient WFS measures tilt. REFUTED for partially lit sub-apertures: the phase is multiplied by the mask before projection, so piston shows up as a slope (C46_refuted). Proved: linear for every mask; exact tilt (sign reversed), no cross-talk and no piston for fully lit sub-apertures. The unit of tilt is the one of the code: amp from the first to the last pixel of the pupil.
* **C47** Gradient WFS accepts every sub-aperture count. REFUTED for every pupil size that is not a multiple of the number of sub-apertures (C47_refuted). Proved for multiples.
* **C48** Pyramid slopes. REFUTED for fewer than 32 modulation points, hence for the default of 4: for every geometry, reference and piston some contents of the planes never written give a flat wavefront non-zero slopes (proved by inverting the Fourier filter). Flux scale and bounds proved for every image; exactly zero for flat wavefronts and no effect of piston proved for at least 32 points and open/closed masks. Missing: masks with grey pixels. Real numbers; discrete Fourier transforms are modelled, not assumed.
* **C49** Pyramid frames are history independent. REFUTED for fewer than 32 modulation points, hence for the default of 4: planes that are never written are transformed and summed. Proved for 32 or more.
* **C50** Configuration parameters: required, optional, unknown. REFUTED for the documented defaults. Loading, the required check, given values, the tables' defaults and ignored keys are proved for every dictionary and all eight classes (plain and list-style files). Against the documentation: eight documented defaults are not what one gets (simOversize 1.2/1.02, removeTT, lgs, centThreshold 0.1/0, nb_of_photon, LGS fftwThreads, DM wfs and gauss_width) and four parameters documented as required are not (DM nxActuators, gain, svdConditioning; science FOV).
* **C53** Screens cover every line of sight. REFUTED for science targets with negative coordinates (they enter the maximum with their sign) and for elongated guide stars (their shift is added to signed coordinates). Proved for plain guide stars, for elongated ones with coordinates that are not negative, and for coordinates no larger than a science coordinate.
* **C54** Re-deriving the configuration. REFUTED: exposure time, mirror diameter and outer scale keep values derived before the edit, and an edited science FOV is undone. Proved: recomputing twice changes nothing; with all such parameters given, recomputing after any edit equals loading the edited values.
* **C55** Number of frames run. REFUTED: any exception other than KeyboardInterrupt skips saving and reporting, and an interrupt in the first frame makes saving the sensor frames fail. Proved: number of frames, one save and one report for complete runs, interrupts and stops at every frame.
* **C56** Per-frame records are a ring buffer. REFUTED for saveDmCommands after calibration dropped actuators, for saveWfsFrames with more frames than nIters and for saveInstScieField. Proved for the other options, any number of frames.
* **C57** Background loop start and stop. REFUTED for two threads calling start. Proved for one controlling thread, every interleaving with the loop thread, including that stop returns.
* **C58** What reset_loop clears. REFUTED: instantaneous Strehl and wavefront error records are kept, and reset raises before every mirror has made a shape. The rest is proved.
* **C60** Science image normalisation. Normalisation and accumulation proved for every sequence of images of positive flux, never-dark proved for even transforms, flat Strehl one by the brightest pixel proved. REFUTED in tip-tilt mode with oversampling: the central pixel need not be the brightest; proved there for oversampling one.
* **C61** Science focal-plane geometry. REFUTED for an odd focal plane with an even crop factor (ValueError each frame) and for a field under half a diffraction width (ZeroDivisionError). Everything else proved for all sizes.
* **C62** Wavefront error ignores piston. REFUTED in Physical mode, where the error reported is always zero. Proved for every phase and binary mask in Geometric mode.
* **C64** LGS elongation central layer. REFUTED for one layer (half the depth low), for every off-axis guide star (positions multiplied by 2*RAD2ASEC^2), and when lgs.height differs from GSHeight. Heights proved for n >= 2; directions for on-axis stars; phase additions when the heights agree.
* **C65** Logging verbosity is monotone. REFUTED for print_, which needs verbosity 3. Thresholds, monotonicity and sinks proved for every verbosity and call.
* **C66** Calibration noise setting. REFUTED: imat_noise has no effect, WFS.frame(iMatFrame=True) switches the noise off itself.
* **C67** Reloading a calibration in the same session. REFUTED when an actuator was rejected (two or more kept).
* **C68** The control matrix belongs to the interaction matrix. REFUTED with loadCMat: stale cMat.fits of the right shape is used after a new calibration. Proved without loadCMat.
* **C69** DM rotation. REFUTED: every frame of a DM with non-zero rotation raises (three float slices on a 2-d array).
* **C70** Infinite-screen columns show their own turbulence. REFUTED: column coordinates run 1..nx, so the last two columns are both read at the clamped coordinate. Columns 0..nx-3 depend on one stored column only.
* **C71** Wind direction means the same for all screens. REFUTED: finite and infinite screens flow in opposite directions for the same direction 0, and 90 degrees flows opposite to oblique directions near it.
* **C75** Physical lines of sight report their phase. REFUTED: physical mode only updates the field, the returned array is zero.
* **C76** Sub-apertures cut the field into tiles. REFUTED in general: pupil coordinates are truncated to whole pixels before scaling, so pieces overlap when the pupil is not a multiple of nxSubaps (C76_refuted). Proved: pieces always lie inside the interpolated field (C76_inside) and tile it exactly when the pupil size is a multiple and the number of elements even (C76_tiling_partial). In binary64 the truncated coordinate can be one pixel less even where x*P/N is whole (C76_rounding_refuted), and is otherwise the exact one (C76_rounded_partial).
* **C78** Throughput scales the detected flux. REFUTED: the throughput parameter is never used (C78_refuted, C78_any_throughput).
* **C80** Partially lit sub-apertures receive light in proportion to their lit area. REFUTED: the fill factor is applied to intensities that already scale with the lit area; light goes as its square (C80_refuted). Parseval is a hypothesis of the theorem; the fill factor routine is aotools.
* **C81** Physical Shack-Hartmann frames see the turbulence. REFUTED: interp.zoom of the complex field returns None, so the sub-aperture fields carry no information about the turbulence (C81_refuted).
* **C82** Every type of sensor can be used in a simulation. REFUTED: the gradient sensor never sets n_measurements, so aoinit raises AttributeError; the Zernike constructor raises NameError. Proved for Shack-Hartmann, legacy Shack-Hartmann and pyramid sensors.
* **C83** Elongated guide stars work with every sensor type. REFUTED for gradient, pyramid and legacy Shack-Hartmann sensors: TypeError, their calcFocalPlane takes no los argument; the legacy sensor, written for elongation, cannot even be built with it, because the elongated light path has no allocDataArrays.
* **C84** Long exposures of gradient and pyramid sensors integrate. REFUTED: the image is overwritten on every frame, only the last frame of the exposure counts.
* **C87** Pyramid detectors conserve light. REFUTED for fewer than 32 modulation points. Proved (Parseval) for 32 or more, every wavefront.
* **C89** The background loop can be restarted after a failed frame. REFUTED: the running flag stays set, so start does nothing until stop is called.
* **C90** User classes from a module. REFUTED for sensors (the module name is read from config.wfsss, which does not exist). Proved for the other components.
* **C91** Running again after reset. REFUTED with saveWfsFrames: the files of the first run exist and are not overwritten.
* **C92** Strehl ratio never exceeds one. REFUTED with oversampling (a small tilt gives 1.16) and for a one-pixel detector (always one). Proved without oversampling and crop, with the exact formula.
* **C93** Science focal plane is in frequency order. REFUTED for odd transforms. Proved for every even transform.
* **C94** Sampling of science phase and mask. REFUTED: the mask is sampled over pupil-1 elements and the phase over pupil, and in single precision the clipping bound rounds up to the array edge. Inside-array proved in exact arithmetic.
* **C95** LGS uplink blurs without displacing. REFUTED: a flat geometric beacon peaks one element off centre and moves every spot by one element. The convolution theorem is proved for every even transform size and all images.
* **C96** LGS beacon and spots share a pixel scale. REFUTED without subapFieldStop (factor 2). Proved with it.
* **C97** LGS beacon images have the requested size. REFUTED for small launch apertures and large fields (exceptions). Exact conditions proved.
* **C99** LGS precompensation. REFUTED without uplink (AttributeError), with elongation (ignored), and when the correction stops (kept).
* **C100** LGS off-axis warning. REFUTED for negative offsets. Exact characterisation proved.
* **C105** Separate DMs. REFUTED when a mirror names no WFS (the default) and when calibration dropped actuators (exceptions). Proved for attached mirrors with all actuators kept, all histories.
* **C106** Gain law under LearnAndApply. REFUTED when the first mirror is of type TT: no gain, no integration, no dependence on loop mode. Proved otherwise. With a single WFS all commands are zero.
* **C107** Learnt records. REFUTED for two WFSs of different sizes. Proved for any number of equal ones.
* **C108** Tomographic estimate is optimal. REFUTED when the singular value cut-off 1e-8 acts: an off-axis measurement 1e-5 of the others is discarded although one linear estimate is exact. Proved for WFSs of equal size and a pinv that is a generalised inverse of the off-axis covariance (no singular value cut off).
* **C109** Every reconstructor can be used. REFUTED: LearnAndApplyLTAO, GLAO_4LGS, LgsTT and ANN always raise, WooferTweeter raises with several mirrors and never moves a single one. Proved usable: MVM, LearnAndApply, MVM_SeparateDMs (C105).
* **C110** LearnAndApply calibration can be reloaded. REFUTED for every system with a second WFS.
* **C112** Tip-tilt commands are in arcsec. REFUTED: the tilt is the command times pupil/(nx-1), so always a little too large for a mirror of the size of the pupil, and about half for one twice as large. Proved: that exact law, along one axis only.
* **C113** Actuators are placed symmetrically. REFUTED for GaussStack (off by one element). Proved for Piezo and FastPiezo with all actuators active.
* **C114** Every mirror can be built. REFUTED: exact list of the combinations that raise (CustomShapes with too few shapes by design). getActiveActs and the shapes only as far as they decide which exception is raised.
* **C116** Mirrors are complete after construction. REFUTED: reset before the first frame always raises (so does reset_loop right after aoinit); Piezo as large as its screen and KarhunenLoeve over 1000 modes stop in the constructor (there the branch taken stands for the data). Proved: everything else; everything once a frame was made. The model is generated from the source text by tools/extract_attrs.py; tests on data are free choices, so positive results hold for every data and `never returns` results too.
* **C117** Light paths are complete after construction. REFUTED: makePhase before the first frame. Proved: everything else; everything once a frame was made. The model is generated from the source text by tools/extract_attrs.py; tests on data are free choices, so positive results hold for every data and `never returns` results too.
* **C119** Gradient sensors are complete after construction. REFUTED: Gradient (and the base sensor) never have n_measurements: integrating-only frames and aoinit with such a sensor always raise. Proved: all other uses of Gradient. The model is generated from the source text by tools/extract_attrs.py; tests on data are free choices, so positive results hold for every data and `never returns` results too.
* **C121** Reconstructors are complete after calibration. REFUTED: before calibration calcCMat raises; GLAO_4LGS.reconstruct always raises (super of an unrelated class); ANN.reconstruct raises unless the user sets `net`; the base class has no calcCMat; mirror shapes are never saved. Proved: the rest, and everything but apply_gain after makeCMat for the other classes. The model is generated from the source text by tools/extract_attrs.py; tests on data are free choices, so positive results hold for every data and `never returns` results too.
* **C122** A simulation is complete after aoinit. REFUTED: with a simName, no science camera and saveWfe or saveStrehl, aoloop always raises in the end. Proved for all other combinations; runWfs and runSciCams only after a first loopFrame; readParams (which replaces the configuration) excluded. The model is generated from the source text by tools/extract_attrs.py; tests on data are free choices, so positive results hold for every data and `never returns` results too.
* **C124** Nothing is taken from a part that it never has. REFUTED: cameras never have focalPlane_efield (saveInstScieField), Shack-Hartmann and pyramid never have activeSubaps (LTAO, GLAO, LgsTT, ANN). Proved: uncorrectedPhase is there from the first frame on. The model is generated from the source text by tools/extract_attrs.py; tests on data are free choices, so positive results hold for every data and `never returns` results too.
* **C125** The two file formats say the same. REFUTED in one respect: a python file must have a group LGS as soon as it has a sensor, also without laser guide stars (KeyError); a YAML file need not. Proved: files with the same contents (guide-star parameters for the other sensors loadable) give the same configuration, object by object, or both raise.
* **C126** Groups a configuration file needs. REFUTED: the documentation of python files lists the groups without Reconstructor, and no such file loads. A missing group is a KeyError, not a ConfigurationError. Proved: for files that load, exactly which groups can be left out, for both formats.
* **C128** What is loaded depends on the file only. REFUTED: files are run in the module's own globals, so a file that does not bind simConfiguration silently gets the previous configuration (NameError in a new session), and a file that binds e.g. DmConfig breaks every later load with a mirror. Proved: history independence for files that use only names they bind and leave the classes alone. Programs are modelled as sequences of bindings, copies of names and exceptions.
* **C129** The loader fits the file. REFUTED: .YAML, .YML are run as python (ConfigurationError). Proved: the choice by the text after the last dot, and that the saved copy loads like the original (the copy keeps the loader). PyYAML and the python parser are parameters of the model.
* **C130** A configurator can be loaded again. REFUTED: lists are appended to but loaded by index, so once there is a sensor (mirror, camera) every file that asks for one ends in AttributeError on the blank object left at the end. Proved: without components, the second load is as into a new configurator.
* **C132** Numbers written as text are numbers. REFUTED: only wavelengths, guide-star heights, iMatValue and svdConditioning are converted; every other parameter keeps the text (r0, telDiam, loopTime ...). A text float() refuses is a ValueError, not a ConfigurationError. Proved: equality for the converted ones.
* **C133** An FFT object returns the transform of the data it is given. REFUTED: with reikna FORWARD gives the inverse transform and BACKWARD the forward one (assuming reikna's third argument means inverse); with pyfftw, the default, the documented obj.inputData = data is ignored by fft(), and the next fft(y) overwrites data and does not transform y. Proved for pyfftw and fftpack and every history without such an assignment, with any behaviour of FFTW_DESTROY_INPUT.
* **C134** A transform result keeps its values. REFUTED: pyfftw, the default, returns the same array every time. Proved for fftpack and reikna.
* **C135** An FFT object leaves the caller's arrays alone. REFUTED: fftpack mode keeps the caller's array as inputData, so a later obj.inputData[:] = y overwrites it. Proved for the others, and for fftpack when inputData is not assigned into.
* **C136** An FFT object falls back on the libraries there are. REFUTED: mode 'scipy' without scipy does not fall back on pyfftw, and an unknown mode is not refused: both end in AttributeError. Proved: the library chosen is one that is there, in the order stated, and for 'pyfftw' and 'gpu' one is always found.
* **C137** Arrays smaller than the FFT object are padded with zeros. REFUTED: pyfftw refuses smaller arrays, and repeats an axis of length one instead of padding it. Proved for fftpack. Two dimensional objects transforming both axes.
* **C138** convolve computes the convolution. REFUTED: the result is divided by the number of pixels, and for odd sizes it is moved by one element. Proved: the exact value for every size, total light, symmetry, refusal of other shapes. Exact arithmetic, real images.
* **C139** A Convolve object computes the convolution. REFUTED: the result is upside down (turned half a turn) and divided by the number of pixels. Proved: it is the result of convolve turned half a turn, for sizes that are even or 3 modulo 4 (others: C40).
* **C140** Correlation images belong to their sub-aperture and peak at its displacement. REFUTED: fftshift without axes also shifts the sub-apertures, so image k is that of sub-aperture k - n//2; and there is no conjugate, so it is a convolution. Proved for one sub-aperture and a reference symmetric about its middle. (The class cannot be constructed at this commit: C120.)
* **C141** A reference image is used or refused. REFUTED: another shape is accepted and silently sets all references to zero, which makes every correlation image zero. Proved for the three shapes handled. Reading from a FITS file not modelled.
* **C142** Phase screens of every origin have the strength asked for. REFUTED for the inner scale: randomScrns draws its screens with l0 = 0.01 m, the moving screens have 0.001 m. Strength proved for files and random screens; the generator (aotools) is an arbitrary function with Kolmogorov scaling in r0.
* **C143** Screen files that fit are loaded and others are refused with an explanation. REFUTED: the explanatory exception is only reached when the last file is a single row; any other screen that is too small, or screens of different sizes, end in a ValueError of numpy or scipy. Which files are accepted is proved.
* **C144** Saved screens load back. REFUTED: an existing file stops saveScrns half way, leaving screens of two atmospheres in the directory; infinite screens cannot be saved (KeyError). The round trip is proved for finite screens in a directory without the files.
* **C145** Zooming an array with missing data leaves the missing elements out. REFUTED for the default marker NaN (nothing is left out: x == NaN is never true), for newSize not square (result transposed; ValueError for stacks) and for arrays not square (IndexError). Proved for square arrays with a number as marker.
* **C146** Custom mirror shapes are those of the file. REFUTED: a shape made larger has zeros all around its border, whatever the file holds (the border lies outside the points interpolated between). Proved: values within those of the file or zero; planes kept inside the points of the file, so everywhere when made smaller; values kept where the grids share a point; zeros in the file count as missing.
* **C152** Plots are drawn in the order of the frames. REFUTED with two threads running frames (frame button while the loop runs); proved for one.
* **C153** A request for a plot is answered. REFUTED: a request made while the loop is between releasing the lock and clearing the flag is lost (the next timer tick asks again). Proved when no delivery is under way at the request.
* **C154** The stop button stops the loop. REFUTED: stop pressed before the loop thread has executed `go = True` is lost. Proved once every loop thread has begun.
* **C155** Only one activity at a time uses the simulation. REFUTED: run does not check for a running loop, init does not wait for the loop to end. Proved for an operator who presses run and init only when everything has ended.
* **C158** The loop runs no more frames than configured. REFUTED: with run pressed twice, two loops can pass the test together and one frame more than nIters is run. Proved for an operator who presses run and init only when everything has ended.
* **C159** The verbosity asked for on the command line is used. REFUTED: -V gives the verbosity as text and the first message compares it with an integer (TypeError in Python 3); -d without the GUI is undone by aoinit; the verbosity of the file is overwritten by the command line default. Proved: no option at all, and -d with the GUI. Python 2 and IPython left out.
* **C160** Progress counts to the total. REFUTED: learning counts from 2 to n+1 of n, and progress is shown at verbosity 0. Proved: the interaction matrix and the loop count 1 to the total and end the line exactly once.
* **C161** Spots move by one pixel per pixel scale of tilt. REFUTED unless subapFOV is a whole number of wavelengths over the sub-aperture: the number is rounded, so the pixel scale differs from the configured one by up to one part in twice that number. Proved for the real pixel scale, and for the configured one when the number is whole. Exact arithmetic; light that leaves one side of the window enters on the other. Starts from the field in front of the lenslets; C174 adds its interpolation.
* **C162** Flat wavefronts give spots in the middle of their windows. REFUTED: with an even number of pixels the correcting tilt is too large by elements/(elements-1); with an odd number and a transform of 4k+1 elements the spot is one element off, of an even number half an element off. Proved: where the spot is, for every configuration, and that it is centred in the other cases. The static slopes that are subtracted hide this in the measurements.
* **C165** The legacy Shack-Hartmann cuts the pupil into its sub-apertures. REFUTED when the scaled padding rounds to under two elements (a slice [0:-0]): every frame raises ValueError. Positions of the sub-apertures are those of aotools.wfs.findActiveSubaps, taken as (x, y) * pupil / nxSubaps.
* **C166** Images of the legacy Shack-Hartmann land on their own windows. REFUTED with the doubled field on detectors with an odd number of pixels, or with one sub-aperture: ValueError. LGS uplink is not part of this model.
* **C167** The tip and tilt common to several sensors is removed. REFUTED for sensors with different numbers of sub-apertures: ValueError when a smaller one comes first; when a larger one comes first slopes of the second are left as they were or taken from the first.
* **C168** A sub-aperture without light measures no slope. REFUTED: the NaN centroid is replaced by 0 before half the window is subtracted, so the slope is minus the distance from the first pixel to the spot of a flat wavefront, about half a window, in x and y. Infinities and rounding are left out; the centroid is that of aotools, taken as the centre of gravity.
* **C169** Measurements and commands are numbers. REFUTED for the legacy sensor: nan_to_num at the end of WFS.frame returns a copy that is dropped; one NaN makes NaN of all commands of all mirrors until reset_loop. Proved for the ordinary Shack-Hartmann.
* **C170** The gain boxes of the GUI set the gains of the loop. REFUTED after "load parameters" without a new initialisation: the boxes change the configuration just loaded, which no mirror holds. Proved from an initialisation until the next load. The number of boxes is taken as the number of mirrors.
* **C171** The gain boxes of the GUI show the gains of the loop. REFUTED for gains that are not whole hundredths or lie outside 0 to 1 (a gain above 1 is shown as 1); exact for all others. QDoubleSpinBox is taken as: default range 0 to 99.99, two decimals, rounding any monotone function onto hundredths.
* **C172** The science image moves by one pixel per pixel scale of tilt. REFUTED: the phase is sampled at F points from edge to edge of the aperture (F - 1 spaces) but transformed as F, so an image moves by F / (F - 1) pixels per configured pixel scale when D * fov / lambda is whole, and by a further rounding factor otherwise (C172_scale_partial gives the angle exactly). Proved: the image moves rigidly by one pixel per that angle. The coordinates are exact (float32 rounding of them is not modelled here).
* **C174** Shack-Hartmann spots move with the tilt of the wavefront along the line of sight. REFUTED: zoomtoefield spreads n elements over N - 0.99999999 spaces, so the angle per pixel differs from the configured one by (1 - 0.99999999 / N) / (1 - 1 / n) even where nothing is rounded. Proved: the spots move rigidly by one pixel per the angle true_spot_scale. The coordinates are exact (C156 has them in binary64).
* **C176** The version names the code. REFUTED for tags with a plus sign (two different checkouts, one version); proved for all others, starting from what git describe prints. Git itself, failures to run it and hash collisions are left out.
* **C177** An archive reports its latest release. REFUTED: the alphabetically first tag is reported (1.0 of 1.0 and 2.0, 10 of 9 and 10), and without tags a branch named like a version is. Proved: it is a tag of the commit, never a pre-release of a version tagged as well, independent of order and branches; unknown without candidates.
* **C183** A legacy line of sight sees the turbulence less the corrections. REFUTED: radians without corrections, nanometres with them; looking up, corrections equal to the turbulence double it; a layer above the source makes the frame fail unless nx_out_pixels = sim_size. Proved: phase, field and residual in full for both directions.
* **C184** The legacy and the current line of sight see the same. REFUTED for the same position: the legacy one takes X along columns, the current one along rows. Proved: equal with the components of the position swapped, or on transposed screens, looking down, for beams an even number of screen pixels wide, tangents for angles.
* **C185** Legacy physical propagation meets the layers at their altitudes. REFUTED: downwards, light goes to the ground right after the highest layer and meets all others at or below it; upwards it ends beyond the source by the altitude of the lowest layer. Proved: order, altitudes upwards, exact way down for one layer.
* **C195** A line of sight returns the same for the same screens. REFUTED in the last bits: the phase array is of single precision until the first corrected frame replaces it by one of double precision, so the first frame differs from later ones given the same screens. Proved: all frames but the first agree exactly whatever came before, and any two agree to 2e-7 of the largest values.
* **C197** The GUI draws what the simulation has, wavefronts on one scale. REFUTED with numpy from 2.0, where numpy.any(None) is False instead of None: a sensor without a beacon raises KeyError before any mirror or camera is drawn, and a camera without a residual leaves nothing drawn (setup.py asks for numpy >= 1.7.0). REFUTED with older numpy for cameras with physical propagation alone: min of an empty list. Proved otherwise: every image is drawn in its own plot and nowhere else, and the common scale of the wavefronts is exactly the range of their values. The behaviour of numpy.any on objects and of pyqtgraph setImage(None) is taken from their documentation.
* **C198** The GUI shows the speed of the loop. REFUTED for a loop that is stopped and started again without reset: the frames from before are counted as done since the start, so the speed is too high and the time remaining too short. Proved for a loop started at the first frame.
* **C200** The coupling a single mode fibre reports. REFUTED in two respects: the long exposure Strehl of a fibre, which the simulation records, is zero for ever, and with physical propagation every frame raises ValueError because the field is always larger than the mode. The rest is proved for geometric propagation, in exact arithmetic. That the size of the mode is the best one rests on scipy and is not claimed.
* **C202** The GUI shows how much of a job is done. REFUTED: the step shown is the one before, so that a finished job of less than 200 steps shows less than 100% and any shows n - 1 of n; a Learn moves the bar forward and back on each frame, and its announcement of the covariance matrices passes its arguments in the wrong order, which raises ValueError in the GUI. Proved: apart from the Learn the bar shows the share of the steps before the last, never goes back, and messages leave it alone. The rounding of the division by floats is not modelled.
* **C206** The Strehl plot shows the frames that have been run. REFUTED: every curve always has nIters points, those of frames not yet run being at zero; after a reset the curve of instantaneous Strehl ratios still shows the frames of the run before, because reset_loop does not clear instStrehl; and cameras seven apart share a colour. Proved: updates never raise, leave exactly two curves per camera, whose points are those of the last frame with that index since the last reset; cameras less than seven apart and successive runs have different colours; the labels show the last frame. Formatting of the labels and matplotlib are not modelled.
* **C208** A guide star can be moved. REFUTED: both read back as set, but a current light path goes on reading what it read when it was built (calcInitParams brings in the position but never the height); a legacy one follows the position, but keeps the old cone through the screens while using the new one through the mirrors; and on a sensor a position set is undone by the next calcParams and never reaches GSPosition, which the laser and the sodium layers take.

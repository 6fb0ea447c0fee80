(** What the GUI draws, and the figures it shows while a loop runs. *)
From Verif.Base Require Import Vec.
From Coq Require Import List Arith Bool.
Import ListNotations.

(** The pixels of an image; its shape is left out. *)
Definition img := list Qc.
(** What the simulation takes from its parts; None: the part has no such attribute (yet). *)
Record sensor := mkSensor { se_detector : option img; se_phase : option img; se_psf : option img }.
Record camera := mkCamera { ca_long : option img; ca_inst : option img; ca_residual : option img }.
Record parts := mkParts { pa_sensors : list sensor; pa_mirrors : list (option img); pa_cameras : list camera }.
(** The dictionaries of a plot, by number of sensor, mirror or camera: wfsFocalPlane, wfsPhase, lgsPsf, dmShape, sciImg, instSciImg, residual *)
Record plot := mkPlot { pd_focal : list img; pd_phase : list (option img); pd_lgs : list (option img); pd_dm : list (option img);
                        pd_sci : list (option img); pd_inst : list (option img); pd_res : list (option img) }.
Fixpoint all_some {A} (l : list (option A)) : option (list A) :=
  match l with [] => Some [] | Some x :: r => option_map (cons x) (all_some r) | None :: _ => None end.
(** soapy/simulation.py:1099-1149  the plot that addToGuiQueue makes; None: a sensor has no wfsDetectorPlane, AttributeError (1104 is not in a try) *)
Definition collect (p : parts) : option plot :=
  match all_some (map se_detector (pa_sensors p)) with
  | Some f => Some (mkPlot f (map se_phase (pa_sensors p)) (map se_psf (pa_sensors p)) (pa_mirrors p)
                           (map ca_long (pa_cameras p)) (map ca_inst (pa_cameras p)) (map ca_residual (pa_cameras p)))
  | None => None
  end.

Inductive perr := KeyError | AttributeError | ValueError.
Inductive pkind := Detector | Phase | Beacon | Mirror | Science | Residual.
(** setImage of a plot, with the levels if given *)
Record call := mkCall { c_kind : pkind; c_num : nat; c_img : img; c_levels : option (Qc * Qc) }.
(** The radio buttons for the science images *)
Inductive exposure := Instant | Long | Neither.
(** The GUI: nGS, nDM and nSci of its config; which sensors have a plot for their beacon (soapy/gui/gui.py:228-230); the radio buttons; and whether numpy.any(None) is None (numpy up to 1.x: any of an
    array of objects is one of the objects) or False (numpy from 2.0). *)
Record gui := mkGui { gu_ngs : nat; gu_ndm : nat; gu_nsci : nat; gu_lgs : nat -> bool; gu_exp : exposure; gu_any_none : bool }.
(** numpy.any(x) != None *)
Definition present (g : gui) (o : option img) : bool := match o with Some _ => true | None => negb (gu_any_none g) end.
(** .min() and min(...), .max() and max(...); None: ValueError *)
Definition least (l : list Qc) : option Qc := match l with [] => None | x :: r => Some (fold_left qc_min r x) end.
Definition greatest (l : list Qc) : option Qc := match l with [] => None | x :: r => Some (fold_left qc_max r x) end.
(** x.min() and x.max() of an entry of a dictionary, appended to the lists if [test]: soapy/gui/gui.py:344-347, 349-352, 354-357 *)
Definition extremes (test : option img -> bool) (l : list (option img)) (i : nat) : perr + list (Qc * Qc) :=
  match nth_error l i with
  | None => inl KeyError
  | Some o => if test o then match o with
                             | None => inl AttributeError
                             | Some im => match least im, greatest im with Some a, Some b => inr [(a, b)] | _, _ => inl ValueError end
                             end
              else inr []
  end.
(** One after the other, up to the first exception *)
Fixpoint gather {A} (l : list (perr + list A)) : perr + list A :=
  match l with
  | [] => inr []
  | inl e :: _ => inl e
  | inr x :: r => match gather r with inl e => inl e | inr y => inr (x ++ y) end
  end.
(** soapy/gui/gui.py:338-363  getPlotScaling (344 tests the dictionary, not its entry: always true) *)
Definition scaling (g : gui) (d : plot) : perr + (Qc * Qc) :=
  match gather (map (extremes (fun _ => true) (pd_phase d)) (seq 0 (gu_ngs g)) ++ map (extremes (present g) (pd_dm d)) (seq 0 (gu_ndm g)) ++ map (extremes (present g) (pd_res d)) (seq 0 (gu_nsci g))) with
  | inl e => inl e
  | inr l => match least (map fst l), greatest (map snd l) with Some a, Some b => inr (a, b) | _, _ => inl ValueError end
  end.
(** plot.setImage(x, ...) of an entry; setImage(None) leaves the plot as it is (pyqtgraph) *)
Definition draw_entry (g : gui) (k : pkind) (lv : option (Qc * Qc)) (l : list (option img)) (i : nat) : perr + list call :=
  match nth_error l i with None => inl KeyError | Some None => inr [] | Some (Some im) => inr [mkCall k i im lv] end.
(** the same if numpy.any(...) != None of it *)
Definition draw_present (g : gui) (k : pkind) (lv : option (Qc * Qc)) (l : list (option img)) (i : nat) : perr + list call :=
  match nth_error l i with None => inl KeyError | Some o => if present g o then draw_entry g k lv l i else inr [] end.
(** soapy/gui/gui.py:293-311  a sensor *)
Definition draw_sensor (g : gui) (d : plot) (lv : Qc * Qc) (i : nat) : list (perr + list call) :=
  [draw_entry g Detector None (map Some (pd_focal d)) i;
   match nth_error (pd_phase d) i with Some None => if present g None then inl AttributeError else inr [] | _ => draw_present g Phase (Some lv) (pd_phase d) i end;
   match nth_error (pd_lgs d) i with Some o => if present g o then if gu_lgs g i then draw_entry g Beacon None (pd_lgs d) i else inl KeyError else inr [] | None => inl KeyError end].
(** soapy/gui/gui.py:319-331  a camera *)
Definition draw_camera (g : gui) (d : plot) (lv : Qc * Qc) (i : nat) : list (perr + list call) :=
  [match nth_error (pd_sci d) i with
   | None => inl KeyError
   | Some o => if present g o then match gu_exp g with Instant => draw_entry g Science None (pd_inst d) i | Long => draw_entry g Science None (pd_sci d) i | Neither => inr [] end else inr []
   end;
   draw_present g Residual (Some lv) (pd_res d) i].
(** What has been drawn when the first exception ends it, or at the end *)
Fixpoint drawn (l : list (perr + list call)) : list call * option perr :=
  match l with [] => ([], None) | inl e :: _ => ([], Some e) | inr c :: r => let (cs, e) := drawn r in (c ++ cs, e) end.
(** soapy/gui/gui.py:288-331  what update draws of a plot (the Strehl curves left out) *)
Definition draw (g : gui) (d : plot) : list call * option perr :=
  match scaling g d with
  | inl e => ([], Some e)
  | inr lv => drawn (flat_map (draw_sensor g d lv) (seq 0 (gu_ngs g)) ++ map (draw_present g Mirror (Some lv) (pd_dm d)) (seq 0 (gu_ndm g)) ++ flat_map (draw_camera g d lv) (seq 0 (gu_nsci g)))
  end.

(** soapy/gui/gui.py:612-621  StatsThread: iterations per second and time remaining, from sim.iters, nIters and the time since the thread was started *)
Local Open Scope Qc_scope.
Definition stats (iters niters : nat) (elapsed : Qc) : Qc * Qc :=
  let per_sec := let r := qz (Z.of_nat iters) / elapsed in if Qc_eq_dec r 0 then qfrac 1 100000 else r in
  (per_sec, qz (Z.of_nat niters - Z.of_nat iters) / per_sec).

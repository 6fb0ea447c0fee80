(** The closed loop with the parts of the simulation in place: mirrors as arrays, lines of sight through the screens, sensors that make slopes
    of the phase. *)
From Verif.Base Require Import Vec.
From Verif.Model Require Import Recon Numerics Dm Los Loop.

(** Arrays of n x n as vectors (Model/Recon.v and Model/Loop.v keep shapes and screens flat): element (i, j) is number i*n + j.
    Representation only: soapy/DM.py:199-202 and soapy/lineofsight.py:272-275 keep two-dimensional arrays. *)
Definition flat (n : Z) (a : arr Qc) : vec :=
  map (fun k => at2 a (Z.of_nat k / n) (Z.of_nat k mod n)) (seq 0 (Z.to_nat (n * n))).
Definition unflat (n : Z) (v : vec) : arr Qc := mkArr n n (fun i j => nth (Z.to_nat (i * n + j)) v 0%Qc).

(** A mirror as built: its size, its influence functions (iMatShapes, soapy/DM.py:111-133) and its configured state and gain. *)
Record mirror := mkMirror { m_size : Z; m_shapes : list (arr Qc); m_closed : bool; m_gain : Qc }.
(** Its influence functions as vectors of [npix] elements, the same number for all mirrors: what a smaller mirror does not have is zero and
    never read. *)
Definition padded (npix : nat) (n : Z) (a : arr Qc) : vec := flat n a ++ vzero (npix - Z.to_nat (n * n)).
Definition mirror_dm (npix : nat) (m : mirror) : dm := new_dm (map (padded npix (m_size m)) (m_shapes m)) (m_closed m) (m_gain m).
(** soapy/DM.py:166-197  from the surface of mirror [k] to the screen of size [scrn]: piston, crop or pad.  The elements of dm_screen outside a
    smaller mirror are those it was created with (line 108); rotation 0. *)
Definition mirror_fit (scrn : Z) (sizes : list Z) (k : nat) (v : vec) : vec :=
  match fit_screen scrn (arr_zero scrn) (remove_piston (unflat (nth k sizes scrn) v)) with
  | Ok a => flat scrn a
  | Err _ => []
  end.

(** soapy/lineofsight.py:351-392  the phase on all pixels of a geometric line of sight (row by row); a pixel that cannot be computed ends the
    frame.  [los_frame] gives the same from every earlier state (Props/LosProps.v C30), so the first is taken. *)
Definition view (g : geom) (scrns : option (list (arr Qc))) (corr : list (arr Qc)) : result vec :=
  mapM (fun k => let* s := los_frame g false (Z.of_nat k / g_nout g) (Z.of_nat k mod g_nout g) scrns (Some corr) (px_init g) in Ok (p_phase s))
       (seq 0 (Z.to_nat (g_nout g * g_nout g))).

(** A sensor: its line of sight, and the slopes it makes of a phase (soapy/wfs/wfs.py:395-466 after the line of sight, noise off). *)
Record sensor := mkSensor { s_geom : geom; s_slopes : vec -> vec }.
(** soapy/wfs/wfs.py:395-466  frame: [None] for calibration (soapy/reconstruction.py:294-307), the layers' screens in the loop
    (soapy/simulation.py:402-403).  A line of sight that fails gives no slopes here. *)
Definition sensor_frame (scrn : Z) (scrns : option (list (arr Qc))) (w : sensor) (stack : list vec) : vec :=
  match view (s_geom w) scrns (map (unflat scrn) stack) with Ok p => s_slopes w p | Err _ => [] end.
(** soapy/simulation.py:363-406  runWfs_noMP: all sensors, read in every frame *)
Definition read_sensors (scrn : Z) (ws : list sensor) (scrns : list (arr Qc)) (stack : list vec) : vec :=
  concat (map (fun w => sensor_frame scrn (Some scrns) w stack) ws).

(** soapy/simulation.py:317-360  makeIMat with these mirrors and sensors *)
Definition chain_imat (scrn : Z) (npix : nat) (ms : list mirror) (ws : list sensor) : list dm * result mat :=
  make_imat (mirror_fit scrn (map m_size ms)) (Z.to_nat (scrn * scrn)) (map (sensor_frame scrn None) ws) (map (mirror_dm npix) ms).
(** soapy/simulation.py:532-571, 596-604  the loop, the screens of each frame given *)
Definition chain_run (scrn : Z) (ms : list mirror) (ds : list dm) (ws : list sensor) (nmeas : nat) (ctrl : mat) (loop_delay : nat)
    (frames : list (list (arr Qc))) : result (list loop_out) :=
  let* r := loop_run (mirror_fit scrn (map m_size ms)) ds nmeas (total_acts (nvalids ds)) ctrl (Z.of_nat loop_delay)
              (loop_init (length ds) (Z.to_nat (scrn * scrn)) nmeas) (map (read_sensors scrn ws) frames) in
  Ok (snd r).

(** The Strehl plot of the GUI. *)
From Verif.Base Require Import Vec.
Local Open Scope nat_scope.

(** A curve of matplotlib *)
Record curve := mkCurve { dotted : bool; colour : nat; points : list Qc }.
(** The records of the simulation and the last values of its cameras (soapy/simulation.py:735-738, soapy/scienceinstrument.py:170-171), and the plot: the artists on the axes (none before
    the first run), those in strehlPlts, each with its identity; colorNo; the numbers in the two labels *)
Record plotter := mkPlotter {
  inst_rec : list (list Qc); long_rec : list (list Qc); iters : nat; cams : list (Qc * Qc);
  axes : option (list (nat * curve)); plts : list (nat * curve); fresh : nat; color_no : nat; labels : list Qc * list Qc;
  threads : nat; running : bool }.
(** len(colorList), soapy/gui/gui.py:164 *)
Definition n_colours : nat := 7.

(** a[i] = x *)
Fixpoint put (i : nat) (x : Qc) (l : list Qc) : list Qc := match l, i with [], _ => [] | _ :: r, O => x :: r | a :: r, S k => a :: put k x r end.
(** soapy/simulation.py:734-738 and 303: the records after aoinit; the cameras are new *)
Definition init_records (n_sci n_iters : nat) (s : plotter) : plotter :=
  let z := repeat (repeat 0%Qc n_iters) n_sci in
  mkPlotter z z 0 (repeat (0%Qc, 0%Qc) n_sci) (axes s) (plts s) (fresh s) (color_no s) (labels s) (threads s) (running s).
(** soapy/simulation.py:568-579, 832-835: a frame whose cameras end up with the Strehl ratios [v] (instantaneous, long exposure); n_iters > 0 *)
Definition frame (n_iters : nat) (v : list (Qc * Qc)) (s : plotter) : plotter :=
  let i := iters s mod n_iters in
  mkPlotter (map (fun p => put i (fst (fst p)) (snd p)) (combine v (inst_rec s))) (map (fun p => put i (snd (fst p)) (snd p)) (combine v (long_rec s))) (S (iters s)) v
    (axes s) (plts s) (fresh s) (color_no s) (labels s) (threads s) (running s).
(** soapy/simulation.py:650-675, soapy/scienceinstrument.py:177-179: instStrehl is not cleared *)
Definition reset (s : plotter) : plotter :=
  mkPlotter (inst_rec s) (map (map (fun _ => 0%Qc)) (long_rec s)) 0 (map (fun _ => (0%Qc, 0%Qc)) (cams s)) (axes s) (plts s) (fresh s) (color_no s) (labels s) (threads s) (running s).
(** soapy/gui/gui.py:432-449, 522-535: run *)
Definition press_run (s : plotter) : plotter :=
  let c := S (color_no s) in
  mkPlotter (inst_rec s) (long_rec s) (iters s) (cams s) (Some []) [] (fresh s) (if c =? n_colours then 0 else c) (labels s) (S (threads s)) (running s).
(** soapy/gui/gui.py:690, 692 and 696: a thread that was started begins, and one ends *)
Definition thread_begins (s : plotter) : plotter :=
  match threads s with
  | O => s
  | S k => mkPlotter (inst_rec s) (long_rec s) (iters s) (cams s) (axes s) (plts s) (fresh s) (color_no s) (labels s) k true
  end.
Definition thread_ends (s : plotter) : plotter :=
  mkPlotter (inst_rec s) (long_rec s) (iters s) (cams s) (axes s) (plts s) (fresh s) (color_no s) (labels s) (threads s) false.
(** line.remove(): ValueError if the line is not on the axes *)
Definition on_axes (k : nat) (l : list (nat * curve)) : bool := existsb (fun p => fst p =? k) l.
Fixpoint remove_all (gone l : list (nat * curve)) : result (list (nat * curve)) :=
  match gone with
  | [] => Ok l
  | (k, _) :: r => if on_axes k l then remove_all r (filter (fun p => negb (fst p =? k)) l) else Err ValueError
  end.
(** soapy/gui/gui.py:471-475: the curves of camera number sci *)
Definition pair_of (s : plotter) (sci : nat) : list curve :=
  let c := (color_no s + sci) mod n_colours in
  [mkCurve true c (nth sci (inst_rec s) []); mkCurve false c (nth sci (long_rec s) [])].
(** soapy/gui/gui.py:332-333, 451-476: the end of update() *)
Definition update (n_sci : nat) (s : plotter) : result plotter :=
  if running s then
    let lab := (map (fun c => (qz 100 * fst c)%Qc) (cams s), map (fun c => (qz 100 * snd c)%Qc) (cams s)) in
    match axes s with
    | None => Err AttributeError
    | Some l =>
      match remove_all (plts s) l with
      | Err e => Err e
      | Ok l' =>
        let cs := flat_map (pair_of s) (seq 0 n_sci) in
        let new := combine (seq (fresh s) (length cs)) cs in
        Ok (mkPlotter (inst_rec s) (long_rec s) (iters s) (cams s) (Some (l' ++ new)) new (fresh s + length cs) (color_no s) lab (threads s) (running s))
      end
    end
  else Ok s.

(** What can happen to the GUI and its simulation *)
Inductive action := DoInit | DoFrame (v : list (Qc * Qc)) | DoReset | DoRun | DoBegin | DoEnd | DoUpdate.
Definition act (n_sci n_iters : nat) (a : action) (s : plotter) : result plotter :=
  match a with
  | DoInit => Ok (init_records n_sci n_iters s)
  | DoFrame v => Ok (frame n_iters v s)
  | DoReset => Ok (reset s)
  | DoRun => Ok (press_run s)
  | DoBegin => Ok (thread_begins s)
  | DoEnd => Ok (thread_ends s)
  | DoUpdate => update n_sci s
  end.
Fixpoint acts (n_sci n_iters : nat) (l : list action) (s : plotter) : result plotter :=
  match l with [] => Ok s | a :: r => match act n_sci n_iters a s with Ok t => acts n_sci n_iters r t | Err e => Err e end end.
(** soapy/gui/gui.py:143-166 after aoinit *)
Definition opened (n_sci n_iters : nat) : plotter := init_records n_sci n_iters (mkPlotter [] [] 0 [] None [] 0 0 ([], []) 0 false).

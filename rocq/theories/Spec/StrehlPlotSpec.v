(** What the theorems on the Strehl plot talk about. *)
From Verif.Base Require Import Vec.
From Verif.Model Require Import StrehlPlot.
Local Open Scope nat_scope.

(** Frames bring a pair of Strehl ratios (instantaneous, long exposure) for every camera. *)
Definition sound (n_sci : nat) (a : action) : Prop := match a with DoFrame v => length v = n_sci | _ => True end.
(** The frames since the last initialisation or reset, [old] being those before the actions. *)
Fixpoint frames_since (l : list action) (old : list (list (Qc * Qc))) : list (list (Qc * Qc)) :=
  match l with
  | [] => old
  | DoInit :: r => frames_since r []
  | DoReset :: r => frames_since r []
  | DoFrame v :: r => frames_since r (old ++ [v])
  | _ :: r => frames_since r old
  end.
(** How often the run button was pressed *)
Definition runs (l : list action) : nat := length (filter (fun a => match a with DoRun => true | _ => false end) l).
(** The last of the frames 0 .. n - 1 that is k modulo p *)
Fixpoint latest (p n k : nat) : option nat := match n with O => None | S m => if m mod p =? k then Some m else latest p m k end.
(** The Strehl ratios of camera sci in frame f *)
Definition ratio (run : list (list (Qc * Qc))) (f sci : nat) : Qc * Qc := nth sci (nth f run []) (0%Qc, 0%Qc).
(** What is drawn: of each camera a dotted and a solid curve of the same colour *)
Definition drawn (s : plotter) (c : nat -> nat) (inst long : nat -> list Qc) (n_sci : nat) : Prop :=
  exists a, axes s = Some a /\ map snd a = flat_map (fun sci => [mkCurve true (c sci) (inst sci); mkCurve false (c sci) (long sci)]) (seq 0 n_sci).
(** Whether a loop has begun since the last one ended; [waiting]: threads started by the button that have not begun, [on]: before the actions *)
Fixpoint looping (l : list action) (waiting : nat) (on : bool) : bool :=
  match l with
  | [] => on
  | DoRun :: r => looping r (S waiting) on
  | DoBegin :: r => match waiting with O => looping r 0 on | S k => looping r k true end
  | DoEnd :: r => looping r waiting false
  | _ :: r => looping r waiting on
  end.

(** Vocabulary of the claims about the GUI. *)
From Coq Require Import List Arith Bool Relations.
Import ListNotations.
From Verif Require Import Model.Gui.

(** The states the GUI and n threads running frames can get to. *)
Definition gsteps : gst -> gst -> Prop := clos_refl_trans_1n gst gstep.
Definition gany (s s' : gst) : Prop := gstep s s' \/ gplots s s'.
Definition greach (n : nat) (s : gst) : Prop := clos_refl_trans_1n gst gany (g_init n) s.
(** Holding the lock, by the place in the program. *)
Definition inside (who : owner) (s : gst) : Prop :=
  match who with
  | ByGui => exists d, g_gui s = GTaking d \/ g_gui s = GTaken d
  | BySim i => (exists f, nth_error (g_sims s) i = Some (SLocked f)) \/ nth_error (g_sims s) i = Some SPut
  end.
(** A thread in the handler for a full queue. *)
Definition overflowed (s : gst) : Prop := In SFull1 (g_sims s) \/ In SFull2 (g_sims s).
Definition decreasing (l : list nat) : Prop := forall i j x y, i < j -> nth_error l i = Some x -> nth_error l j = Some y -> y < x.
(** Frame f is on its way to the screen or has been drawn. *)
Definition coming (f : nat) (s : gst) : Prop :=
  (exists i, nth_error (g_sims s) i = Some (SChecked f) \/ nth_error (g_sims s) i = Some (SLocked f)) \/ (exists i, In (i, f) (g_queue s))
  \/ g_gui s = GTaking (Some f) \/ g_gui s = GTaken (Some f) \/ g_gui s = GDraw (Some f) \/ In f (g_drawn s).

(** Histories of the buttons and of the threads they start. *)
Inductive bpath (nIters : nat) (ok : blabel -> bst -> Prop) : bst -> bst -> Prop :=
| bp_here s : bpath nIters ok s s
| bp_more s l s' s'' : bstep nIters l s s' -> ok l s -> bpath nIters ok s' s'' -> bpath nIters ok s s''.
Definition anything (l : blabel) (s : bst) : Prop := True.
Definition loops_ended (s : bst) : Prop := forall p, In p (b_loops s) -> p = LEnd.
Definition inits_ended (s : bst) : Prop := forall p, In p (b_inits s) -> p = IEnd.
(** Nothing but the loops themselves and the stop button. *)
Definition only_loops (l : blabel) (s : bst) : Prop := match l with BLoop _ | BStop => True | _ => False end.
(** An operator who starts something only when everything has ended. *)
Definition patient (l : blabel) (s : bst) : Prop := match l with BRun | BInit => loops_ended s /\ inits_ended s | _ => True end.
Definition in_frame (s : bst) : nat := length (filter (fun p => match p with LFrame => true | _ => false end) (b_loops s)).
Definition building (s : bst) : nat := length (filter (fun p => match p with IBuild => true | _ => false end) (b_inits s)).

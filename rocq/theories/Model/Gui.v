(** The GUI and the simulation: passing of plots through a queue, and the buttons.  Transition systems whose steps are the
    accesses to what the threads share. *)
From Coq Require Import List Arith Bool.
Import ListNotations.

(** ** Plots.
    Where a thread running frames is in addToGuiQueue (soapy/simulation.py:1085-1159): elsewhere; past the test of waitingPlot (1098) with the data of
    frame f collected; holding the lock (1151); after put_nowait (1153), the lock not yet released; released (1157), waitingPlot not yet cleared (1159);
    and, when the queue was full (1154-1157): the lock to be released by the handler, and then a second time. *)
Inductive simpc := SOut | SChecked (f : nat) | SLocked (f : nat) | SPut | SReleased | SFull1 | SFull2.
(** Where the GUI thread is in update (soapy/gui/gui.py:272-286): elsewhere; waitingPlot set; holding the lock, with the last
    item taken; the queue empty; released, about to draw. *)
Inductive guipc := GOut | GAsked | GTaking (d : option nat) | GTaken (d : option nat) | GDraw (d : option nat).
Inductive owner := ByGui | BySim (i : nat).
(** The shared things: waitingPlot, the queue (thread and frame of each item, oldest first), the mutex; then the threads, the number of frames so
    far, the frames drawn (latest first), and whether a mutex was unlocked by a thread that does not hold it. *)
Record gst := mkG { g_waiting : bool; g_queue : list (nat * nat); g_lock : option owner; g_sims : list simpc; g_gui : guipc;
                    g_frames : nat; g_drawn : list nat; g_bad : bool }.
Definition set_nth {A} (l : list A) (i : nat) (x : A) : list A := firstn i l ++ match skipn i l with [] => [] | _ :: r => x :: r end.
Definition with_sim (s : gst) (i : nat) (p : simpc) : list simpc := set_nth (g_sims s) i p.
Definition owner_eqb (a b : owner) : bool := match a, b with ByGui, ByGui => true | BySim i, BySim j => Nat.eqb i j | _, _ => false end.
(** Unlocking a mutex one does not hold (undefined, says Qt's documentation of QMutex::unlock) is recorded. *)
Definition foreign (s : gst) (who : owner) : bool := match g_lock s with Some o => negb (owner_eqb o who) | None => true end.
(** soapy/gui/gui.py:153  queue.Queue(10) *)
Definition capacity := 10.
Inductive gstep : gst -> gst -> Prop :=
(** a frame is over; soapy/simulation.py:1098 finds waitingPlot clear, or set *)
| sim_pass s i : nth_error (g_sims s) i = Some SOut -> g_waiting s = false ->
    gstep s (mkG (g_waiting s) (g_queue s) (g_lock s) (g_sims s) (g_gui s) (S (g_frames s)) (g_drawn s) (g_bad s))
| sim_check s i : nth_error (g_sims s) i = Some SOut -> g_waiting s = true ->
    gstep s (mkG (g_waiting s) (g_queue s) (g_lock s) (with_sim s i (SChecked (g_frames s))) (g_gui s) (S (g_frames s)) (g_drawn s) (g_bad s))
| sim_lock s i f : nth_error (g_sims s) i = Some (SChecked f) -> g_lock s = None ->
    gstep s (mkG (g_waiting s) (g_queue s) (Some (BySim i)) (with_sim s i (SLocked f)) (g_gui s) (g_frames s) (g_drawn s) (g_bad s))
| sim_put s i f : nth_error (g_sims s) i = Some (SLocked f) -> length (g_queue s) < capacity ->
    gstep s (mkG (g_waiting s) (g_queue s ++ [(i, f)]) (g_lock s) (with_sim s i SPut) (g_gui s) (g_frames s) (g_drawn s) (g_bad s))
| sim_full s i f : nth_error (g_sims s) i = Some (SLocked f) -> capacity <= length (g_queue s) ->
    gstep s (mkG (g_waiting s) (g_queue s) (g_lock s) (with_sim s i SFull1) (g_gui s) (g_frames s) (g_drawn s) (g_bad s))
| sim_full_release s i : nth_error (g_sims s) i = Some SFull1 ->
    gstep s (mkG (g_waiting s) (g_queue s) None (with_sim s i SFull2) (g_gui s) (g_frames s) (g_drawn s) (g_bad s || foreign s (BySim i)))
| sim_full_again s i : nth_error (g_sims s) i = Some SFull2 ->
    gstep s (mkG (g_waiting s) (g_queue s) None (with_sim s i SReleased) (g_gui s) (g_frames s) (g_drawn s) (g_bad s || foreign s (BySim i)))
| sim_release s i : nth_error (g_sims s) i = Some SPut ->
    gstep s (mkG (g_waiting s) (g_queue s) None (with_sim s i SReleased) (g_gui s) (g_frames s) (g_drawn s) (g_bad s || foreign s (BySim i)))
| sim_clear s i : nth_error (g_sims s) i = Some SReleased ->
    gstep s (mkG false (g_queue s) (g_lock s) (with_sim s i SOut) (g_gui s) (g_frames s) (g_drawn s) (g_bad s))
(** soapy/gui/gui.py:275, 278, 280-281, 280, 285, 287-326 *)
| gui_ask s : g_gui s = GOut -> gstep s (mkG true (g_queue s) (g_lock s) (g_sims s) GAsked (g_frames s) (g_drawn s) (g_bad s))
| gui_lock s : g_gui s = GAsked -> g_lock s = None ->
    gstep s (mkG (g_waiting s) (g_queue s) (Some ByGui) (g_sims s) (GTaking None) (g_frames s) (g_drawn s) (g_bad s))
| gui_take s d i f r : g_gui s = GTaking d -> g_queue s = (i, f) :: r ->
    gstep s (mkG (g_waiting s) r (g_lock s) (g_sims s) (GTaking (Some f)) (g_frames s) (g_drawn s) (g_bad s))
| gui_empty s d : g_gui s = GTaking d -> g_queue s = [] ->
    gstep s (mkG (g_waiting s) (g_queue s) (g_lock s) (g_sims s) (GTaken d) (g_frames s) (g_drawn s) (g_bad s))
| gui_release s d : g_gui s = GTaken d ->
    gstep s (mkG (g_waiting s) (g_queue s) None (g_sims s) (GDraw d) (g_frames s) (g_drawn s) (g_bad s || foreign s ByGui))
| gui_draw s d : g_gui s = GDraw d ->
    gstep s (mkG (g_waiting s) (g_queue s) (g_lock s) (g_sims s) GOut (g_frames s) (match d with Some f => f :: g_drawn s | None => g_drawn s end) (g_bad s)).
(** soapy/gui/gui.py:251  initPlots *)
Inductive gplots : gst -> gst -> Prop :=
| gui_plots s : g_gui s = GOut -> gplots s (mkG false (g_queue s) (g_lock s) (g_sims s) GOut (g_frames s) (g_drawn s) (g_bad s)).
(** n threads running frames (one for the running loop; one more for each frame asked for by hand, which really runs in the GUI thread). *)
Definition g_init (n : nat) : gst := mkG false [] None (repeat SOut n) GOut 0 [] false.

(** ** Buttons.
    A loop thread (soapy/gui/gui.py:676-698 and soapy/simulation.py:582-603): started; at the test of the while loop; in a frame; loop over, about
    to call stop of the GUI; ended.  The thread started by init (gui.py:628-642): started; rebuilding the simulation (aoinit); ended. *)
Inductive lpc := LNew | LTest | LFrame | LStop | LEnd.
Inductive ipc := INew | IBuild | IEnd.
Record bst := mkB { b_go : bool; b_iters : nat; b_loops : list lpc; b_inits : list ipc }.
Inductive blabel := BRun | BStop | BInit | BLoop (i : nat) | BInitT (i : nat).
Inductive bstep (nIters : nat) : blabel -> bst -> bst -> Prop :=
(** soapy/gui/gui.py:522-535: whatever is running already *)
| b_run s : bstep nIters BRun s (mkB (b_go s) (b_iters s) (b_loops s ++ [LNew]) (b_inits s))
(** soapy/gui/gui.py:541-558: go is cleared; quit() of the threads does nothing, as they have no event loop *)
| b_stop s : bstep nIters BStop s (mkB false (b_iters s) (b_loops s) (b_inits s))
(** soapy/gui/gui.py:489-498 *)
| b_init s : bstep nIters BInit s (mkB (b_go s) (b_iters s) (b_loops s) (b_inits s ++ [INew]))
(** soapy/simulation.py:589 *)
| l_go s i : nth_error (b_loops s) i = Some LNew -> bstep nIters (BLoop i) s (mkB true (b_iters s) (set_nth (b_loops s) i LTest) (b_inits s))
(** soapy/simulation.py:591-595 *)
| l_frame s i : nth_error (b_loops s) i = Some LTest -> b_iters s < nIters -> b_go s = true ->
    bstep nIters (BLoop i) s (mkB (b_go s) (b_iters s) (set_nth (b_loops s) i LFrame) (b_inits s))
| l_break s i : nth_error (b_loops s) i = Some LTest -> nIters <= b_iters s \/ b_go s = false ->
    bstep nIters (BLoop i) s (mkB (b_go s) (b_iters s) (set_nth (b_loops s) i LStop) (b_inits s))
(** soapy/simulation.py:579  the end of loopFrame *)
| l_framed s i : nth_error (b_loops s) i = Some LFrame -> bstep nIters (BLoop i) s (mkB (b_go s) (S (b_iters s)) (set_nth (b_loops s) i LTest) (b_inits s))
(** a frame that raises: soapy/gui/gui.py:694-697 *)
| l_raise s i : nth_error (b_loops s) i = Some LFrame -> bstep nIters (BLoop i) s (mkB false (b_iters s) (set_nth (b_loops s) i LStop) (b_inits s))
(** soapy/gui/gui.py:693, 697 *)
| l_stop s i : nth_error (b_loops s) i = Some LStop -> bstep nIters (BLoop i) s (mkB false (b_iters s) (set_nth (b_loops s) i LEnd) (b_inits s))
(** soapy/gui/gui.py:638-641: stop if go is set, then aoinit at once *)
| i_build s i : nth_error (b_inits s) i = Some INew -> bstep nIters (BInitT i) s (mkB false (b_iters s) (b_loops s) (set_nth (b_inits s) i IBuild))
| i_end s i : nth_error (b_inits s) i = Some IBuild -> bstep nIters (BInitT i) s (mkB (b_go s) 0 (b_loops s) (set_nth (b_inits s) i IEnd)).
Definition b_init0 : bst := mkB false 0 [] [].

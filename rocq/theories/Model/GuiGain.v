(** The gain boxes of the GUI (soapy/gui/gui.py) and the configuration objects behind them. *)
From Verif.Base Require Import Vec.

(** Configuration objects, in the order they were made; of each the gain of every mirror. *)
Definition configs := list (list Qc).

(** [w_sim]: sim.config; [w_dms]: the object the mirrors of the simulation hold (None before aoinit); [w_gui]: gui.config;
    [w_boxes]: the values the gain boxes show. *)
Record world := mkWorld { w_heap : configs; w_sim : nat; w_dms : option nat; w_gui : nat; w_boxes : list Qc }.

Section Boxes.
  (** QDoubleSpinBox: what a box with the default two decimals makes of a value. *)
  Variable two_decimals : Qc -> Qc.

  (** soapy/gui/gui.py:253-267  initPlots: setValue (in the default range 0 to 99.99) and then setMaximum(1.); the box is
      connected after that *)
  Definition qmin (a b : Qc) : Qc := if qc_leb a b then a else b.
  Definition qmax (a b : Qc) : Qc := if qc_leb a b then b else a.
  Definition box_of (g : Qc) : Qc := qmin (qmin (qmax (two_decimals g) 0) (qfrac 9999 100)) 1.
  Definition gains_of (w : world) (c : nat) : list Qc := nth c (w_heap w) [].
  Definition init_plots (w : world) : world :=
    mkWorld (w_heap w) (w_sim w) (w_dms w) (w_gui w) (map box_of (gains_of w (w_gui w))).

  Inductive gui_op :=
  | Reload (gs : list Qc)      (** "reload parameters": gui.py:486-487, simulation.py:128-141: sim.config is a new object *)
  | LoadFile (gs : list Qc)    (** "load parameters": gui.py:192-203 *)
  | PressInit                  (** gui.py:489-498: the thread is started, self.config = self.sim.config *)
  | AoInit                     (** the thread: gui.py:636-641; simulation.py:229-243: every mirror is made with the
                                   configuration as it is now (DM.py:84 keeps the object) *)
  | InitDone                   (** the thread's finished signal: initPlots *)
  | MoveBox (k : nat) (v : Qc). (** the user changes a box: gui.py:568-569 gainChanged *)

  Definition set_nth {A} (l : list A) (k : nat) (x : A) : list A := firstn k l ++ x :: skipn (S k) l.
  (** self.config.dms[dm].gain = value; IndexError (printed, nothing else) when there is no such mirror *)
  Definition set_gain (h : configs) (c k : nat) (v : Qc) : configs :=
    if (k <? length (nth c h []))%nat then set_nth h c (set_nth (nth c h []) k v) else h.

  Definition gui_step (w : world) (o : gui_op) : world :=
    match o with
    | Reload gs => mkWorld (w_heap w ++ [gs]) (length (w_heap w)) (w_dms w) (w_gui w) (w_boxes w)
    | LoadFile gs => init_plots (mkWorld (w_heap w ++ [gs]) (length (w_heap w)) (w_dms w) (length (w_heap w)) (w_boxes w))
    | PressInit => mkWorld (w_heap w) (w_sim w) (w_dms w) (w_sim w) (w_boxes w)
    | AoInit => mkWorld (w_heap w) (w_sim w) (Some (w_sim w)) (w_gui w) (w_boxes w)
    | InitDone => init_plots w
    | MoveBox k v =>
        if (k <? length (w_boxes w))%nat
        then mkWorld (set_gain (w_heap w) (w_gui w) k v) (w_sim w) (w_dms w) (w_gui w) (set_nth (w_boxes w) k v)
        else w
    end.
  Definition gui_run (w : world) (ops : list gui_op) : world := fold_left gui_step ops w.
  (** soapy/gui/gui.py:169-175  the GUI is opened on a simulation whose configuration has been read *)
  Definition gui_open (gs : list Qc) : world := init_plots (mkWorld [gs] 0 None 0 []).
End Boxes.
(** soapy/reconstruction.py:421-426  the gains the loop uses: dm.dmConfig.gain of every mirror *)
Definition used_gains (w : world) : list Qc := match w_dms w with Some c => gains_of w c | None => [] end.

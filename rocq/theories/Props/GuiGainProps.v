(** C170, C171: the gain boxes of the GUI. *)
From Verif.Base Require Import Vec.
From Verif.Model Require Import GuiGain.
From Verif.Spec Require Import GuiGainSpec.
From Verif.Proofs Require Import GuiGainProofs.

(** C170. After an initialisation, and until a configuration is loaded again, changing a box sets the gain the loop
    uses for that mirror, and no other mirror's. *)
Theorem C170_moves_partial (td : Qc -> Qc) (gs : list Qc) (pre ops : list gui_op) (k : nat) (v : Qc) :
  Forall no_load ops ->
  let w := gui_run td (gui_open td gs) (pre ++ initialise ++ ops) in
  (k < length (used_gains w))%nat ->
  with_nth (used_gains w) (used_gains (gui_step td w (MoveBox k v))) k v /\
  with_nth (w_boxes w) (w_boxes (gui_step td w (MoveBox k v))) k v.
Proof. exact (moves td gs pre ops k v). Qed.
Print Assumptions C170_moves_partial.

(** REFUTED as stated without restriction: once a parameter file has been loaded the boxes belong to the new
    configuration, and until the next initialisation no change of a box reaches the loop. *)
Theorem C170_refuted (td : Qc -> Qc) (gs0 : list Qc) (pre : list gui_op) (gs : list Qc) (ms : list gui_op) :
  Forall is_move ms -> let w := gui_run td (gui_open td gs0) pre in
  used_gains (gui_run td w (LoadFile gs :: ms)) = used_gains w.
Proof. exact (loaded td gs0 pre gs ms). Qed.
Print Assumptions C170_refuted.

(** The gains set this way survive another initialisation; reloading the parameters first brings the file's back. *)
Theorem C170_init_keeps_partial (td : Qc -> Qc) (gs : list Qc) (pre ops : list gui_op) :
  Forall no_load ops -> let w := gui_run td (gui_open td gs) (pre ++ initialise ++ ops) in
  used_gains (gui_run td w initialise) = used_gains w.
Proof. exact (reinited td gs pre ops). Qed.
Print Assumptions C170_init_keeps_partial.
Theorem C170_reload_partial (td : Qc -> Qc) (gs0 : list Qc) (pre : list gui_op) (gs : list Qc) :
  used_gains (gui_run td (gui_open td gs0) (pre ++ Reload gs :: initialise)) = gs.
Proof. exact (reloaded td gs0 pre gs). Qed.
Print Assumptions C170_reload_partial.

Example C170_instance :
  let g1 := qfrac 3 10 in let g2 := qfrac 1 2 in
  let w := gui_run half_up (gui_open half_up [g1; g2]) (initialise ++ [MoveBox 1 (qfrac 7 10)]) in
  used_gains w = [g1; qfrac 7 10] /\ w_boxes w = [g1; qfrac 7 10] /\
  used_gains (gui_run half_up w [LoadFile [g2; g2]; MoveBox 0 1%Qc]) = [g1; qfrac 7 10] /\
  w_boxes (gui_run half_up w [LoadFile [g2; g2]; MoveBox 0 1%Qc]) = [1%Qc; g2].
Proof. repeat split; qc_compute. Qed.

(** C171. After an initialisation every box shows the gain in use exactly when every gain is a number of hundredths
    between 0 and 1. *)
Theorem C171_shown_partial (td : Qc -> Qc) (gs : list Qc) (pre : list gui_op) :
  rounds td -> let w := gui_run td (gui_open td gs) (pre ++ initialise) in
  w_boxes w = used_gains w <-> Forall showable (used_gains w).
Proof. intros R. cbv zeta. rewrite displayed. exact (map_box td _ R). Qed.
Print Assumptions C171_shown_partial.

(** REFUTED: whatever the configuration, a mirror with a gain of more than 1 is shown with 1, and runs with its own. *)
Theorem C171_refuted (td : Qc -> Qc) (gs0 : list Qc) (pre : list gui_op) (gs : list Qc) (k : nat) (g : Qc) :
  rounds td -> nth_error gs k = Some g -> (1 < g)%Qc ->
  let w := gui_run td (gui_open td gs0) (pre ++ Reload gs :: initialise) in
  nth_error (used_gains w) k = Some g /\ nth_error (w_boxes w) k = Some 1%Qc.
Proof.
  intros R E H. cbv zeta.
  pose proof (reloaded td gs0 pre gs) as U. rewrite U. split; [exact E|].
  pose proof (displayed td gs0 (pre ++ [Reload gs])) as D. cbv zeta in D.
  rewrite <- app_assoc in D. cbn [app] in D. rewrite U in D. rewrite D.
  rewrite (map_nth_error _ _ _ E). now rewrite (box_over td g R H).
Qed.
Print Assumptions C171_refuted.

Example C171_instance : rounds half_up /\
  let w := gui_run half_up (gui_open half_up [qfrac 3 10; qfrac 5 4; qfrac 1 8]) initialise in
  used_gains w = [qfrac 3 10; qfrac 5 4; qfrac 1 8] /\ w_boxes w = [qfrac 3 10; 1%Qc; qfrac 13 100].
Proof. split; [exact half_up_rounds|]. repeat split; qc_compute. Qed.

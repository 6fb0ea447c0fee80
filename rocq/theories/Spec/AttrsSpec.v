(** Specification of "using an object never trips over an attribute it does not
    have": independent of how the methods are analysed. *)
From Coq Require Import List String Bool.
From Verif Require Import Model.Attrs.
Import ListNotations.
Open Scope string_scope.

(** The outcome is neither an AttributeError on the object itself nor a
    NameError. *)
Definition no_miss (o : outcome) : Prop :=
  match o with MissA _ | MissN _ => False | _ => True end.

(** The calls [l], made in order on an object with attributes [S], all return,
    leaving attributes [S']. *)
Inductive runs (rho : list string) (M : mro) : list stmt -> list string -> list string -> Prop :=
| R_nil S : runs rho M [] S S
| R_cons c l S S1 S2 : exec rho M c S S1 Norm -> runs rho M l S1 S2 ->
    runs rho M (c :: l) S S2.

(** An object that was set up by the calls [pre] (its constructor first) and then
    used: any number of the calls [ms], in any order, each of which may have
    returned or raised anything. *)
Inductive used (rho : list string) (M : mro) (pre ms : list stmt) : list string -> Prop :=
| U_new S : runs rho M pre [] S -> used rho M pre ms S
| U_call S c S' o : used rho M pre ms S -> In c ms -> exec rho M c S S' o ->
    used rho M pre ms S'.

(** Neither setting the object up nor using it can end in a missing attribute or
    an unbound name. *)
Definition clean (rho : list string) (M : mro) (pre ms : list stmt) : Prop :=
  (forall l1 c l2 S S' o, pre = (l1 ++ c :: l2)%list -> runs rho M l1 [] S ->
     exec rho M c S S' o -> no_miss o) /\
  (forall S c S' o, used rho M pre ms S -> In c ms -> exec rho M c S S' o -> no_miss o).

(** The object can be set up at all. *)
Definition startable (rho : list string) (M : mro) (pre : list stmt) : Prop :=
  exists S, runs rho M pre [] S.

(** However the object was used, [a] can be read from it. *)
Definition provides (rho : list string) (M : mro) (pre ms : list stmt) (a : string) : Prop :=
  forall S, used rho M pre ms S -> lookup M S a <> IsMissing.

(** However the object was used, reading [a] from it is an AttributeError. *)
Definition lacks (rho : list string) (M : mro) (pre ms : list stmt) (a : string) : Prop :=
  forall S, used rho M pre ms S -> lookup M S a = IsMissing.

(** The constructor alone. *)
Definition new : list stmt := [Inv "__init__"].

(** The calls of [l] other than those to the methods [names]. *)
Definition except (names : list string) (l : list stmt) : list stmt :=
  filter (fun s => match s with Inv m => negb (mem m names) | _ => true end) l.

(** Right after the calls [pre] the call [c] never returns: it raises, whatever
    the data. *)
Definition never_returns (rho : list string) (M : mro) (pre : list stmt) (c : stmt) : Prop :=
  forall S S', runs rho M pre [] S -> ~ exec rho M c S S' Norm.

(** Right after the calls [pre] the call [c] can end in [o]. *)
Definition can_end (rho : list string) (M : mro) (pre : list stmt) (c : stmt) (o : outcome) : Prop :=
  exists S S', runs rho M pre [] S /\ exec rho M c S S' o.

(* the switches the methods test *)
Definition sensor_switches : list string :=
  ["config.GSHeight != 0"; "config.lgs"; "config.lgs.elongationDepth != 0"; "config.lgs.uplink"].
Definition sim_switches : list string :=
  ["config.sim.nSci > 0"; "config.sim.saveInstPsf"; "config.sim.saveInstScieField";
   "config.sim.saveStrehl"; "config.sim.saveWfe"; "config.sim.simName != None"].

(* steps of the laser-guide-star path, which need a laser guide star *)
Definition lgs_steps : list string := ["calcElongPhaseAddition"; "calcElongPos"; "makeElongationFrame"; "applyLgsUplink"].

Definition calibrated_steps : list string := ["save_interaction_matrix"; "get_dm_imat"; "calcCMat"; "apply_gain"].

Definition sim_ready : list stmt := [Inv "__init__"; Inv "aoinit"].

Definition looped : list string := ["readParams"; "runWfs_noMP"; "runWfs_MP"; "runSciCams"].

(* saving does not trip over records only science cameras make *)
Definition records_exist (rho : list string) : bool :=
  mem "config.sim.nSci > 0" rho || negb (mem "config.sim.simName != None" rho)
  || (negb (mem "config.sim.saveWfe" rho) && negb (mem "config.sim.saveStrehl" rho)).

(* simulation.py:217,388-404,469; reconstruction.py:82,300-307 *)
Definition sensor_interface : list string :=
  ["n_measurements"; "frame"; "config"; "slopes"; "wfsDetectorPlane"; "iMat"].

(* simulation.py:246,503-506,674,1009; reconstruction.py:65-75,270-310 *)
Definition mirror_interface : list string :=
  ["n_acts"; "dmFrame"; "reset"; "dmConfig"; "n_dm"; "valid_actuators"].

(* simulation.py:525-526,668-672,834-874 *)
Definition camera_interface : list string :=
  ["frame"; "long_exp_image"; "fov"; "nx_pixels"; "calc_wavefronterror"; "instStrehl";
   "longExpStrehl"; "detector"; "reset"].

(* simulation.py:347,548,666,695 *)
Definition reconstructor_interface : list string :=
  ["makeCMat"; "reconstruct"; "reset"; "Trecon"; "control_matrix"].

(* simulation.py:539; reconstruction.py:87-91 *)
Definition atmosphere_interface : list string := ["moveScrns"; "randomScrns"; "scrns"].

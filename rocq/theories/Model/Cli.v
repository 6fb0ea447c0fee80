(** The command line (bin/soapy) and the progress lines of the logger. *)
From Coq Require Import ZArith List String Bool.
From Verif.Base Require Import Py.
From Verif.Model Require Import Lgs.
Import ListNotations.
Open Scope Z_scope.

(** A verbosity: an int, or the text that argparse passes on for an option without a type. *)
Inductive verb := VInt (z : Z) | VText (s : string).
(** The options that matter here.  bin/soapy:43-64 *)
Record options := mkOpts { o_verbosity : option string; o_debug : bool; o_gui : bool; o_interactive : bool }.
(** bin/soapy:55-57  args.verbosity: the default is the int 2, an argument stays text *)
Definition arg_verbosity (o : options) : verb := match o_verbosity o with Some s => VText s | None => VInt 2 end.
(** bin/soapy:80-85 *)
Definition first_level (o : options) : verb := if o_debug o then VInt 3 else arg_verbosity o.
(** The level that aoinit sets, config.sim.verbosity: as loaded from the file; bin/soapy:89 assigns it; so does the GUI (soapy/gui/gui.py:173-174);
    soapy/simulation.py:174 reads it *)
Definition second_level (o : options) (file : Z) : verb :=
  let config := VInt file in
  let config := arg_verbosity o in
  let config := if o_gui o then first_level o else config in
  config.

(** soapy/logger.py:81-103  in Python 3 comparing text with a number raises TypeError *)
Definition log_at (v : verb) (file status : bool) (c : call) : result (list sink) :=
  match v with VInt z => log z file status c | VText _ => Err TypeError end.
(** A sequence of messages: what each did, and the exception that ended it. *)
Fixpoint log_all (v : verb) (file status : bool) (cs : list call) : list (call * list sink) * option exn :=
  match cs with
  | [] => ([], None)
  | c :: r => match log_at v file status c with
              | Ok out => let (rest, e) := log_all v file status r in ((c, out) :: rest, e)
              | Err e => ([], Some e)
              end
  end.
Definition then_ (a : list (call * list sink) * option exn) (b : list (call * list sink) * option exn) :=
  match a with (xs, None) => let (ys, e) := b in (xs ++ ys, e) | _ => a end.
(** soapy/simulation.py:129-142  the messages while the file is loaded; [inner]: those of the loader (soapy/confParse.py) *)
Definition loading (inner : list call) : list call := CInfo :: inner ++ [CInfo].
(** bin/soapy:80-97, soapy/simulation.py:157-176: all messages of a run.  [calc]: those of config.calcParams, which the GUI calls first (gui.py:170);
    [rest]: those of aoinit after "Starting Sim", of makeIMat and of the loop.  [file]: the file's verbosity; [logfile]: it names a log file. *)
Definition run_messages (o : options) (file : Z) (logfile : bool) (inner calc rest : list call) : list (call * list sink) * option exn :=
  let first := log_all (first_level o) false false (loading inner) in
  if o_gui o then then_ (then_ first (log_all (first_level o) false false calc)) (log_all (second_level o file) logfile true (CInfo :: rest))
  else if o_interactive o then first
  else then_ first (log_all (second_level o file) logfile false (CInfo :: rest)).

(** ** Progress *)
Inductive progress := Line (i total : Z) | NewLine | Report (i total : Z).
(** soapy/logger.py:68-79  statusMessage; the verbosity plays no part ([_v]) *)
Definition status_message (_v : verb) (status : bool) (i total : Z) : list progress :=
  (if status then [Report i total] else [Line (i + 1) total]) ++ (if (i + 1 =? total) && negb status then [NewLine] else []).
(** soapy/reconstruction.py:284-318  poking the n actuators of a mirror *)
Definition imat_progress (v : verb) (status : bool) (n : nat) : list progress :=
  flat_map (fun i => status_message v status (Z.of_nat i) (Z.of_nat n)) (seq 0 n).
(** soapy/simulation.py:574-579, 589-595  the loop of n frames from frame 0 (printOutput: 1082) *)
Definition loop_progress (v : verb) (status : bool) (n : nat) : list progress :=
  flat_map (fun i => status_message v status (Z.of_nat i) (Z.of_nat n)) (seq 0 n).
(** soapy/reconstruction.py:565-581  the Learn of n records *)
Definition learn_progress (v : verb) (status : bool) (n : nat) : list progress :=
  flat_map (fun i => status_message v status (Z.of_nat i + 1) (Z.of_nat n)) (seq 0 n).

(** Vocabulary of the claims about the command line and the progress lines. *)
From Coq Require Import ZArith List Bool.
From Verif.Base Require Import Py.
From Verif.Model Require Import Lgs Cli.
Import ListNotations.
Open Scope Z_scope.

(** The messages of a run that went anywhere. *)
Definition shown (r : list (call * list sink) * option exn) : list call :=
  map fst (filter (fun p => match snd p with [] => false | _ => true end) (fst r)).
(** Those of a sequence that a verbosity lets through. *)
Definition let_through (v : Z) (cs : list call) : list call := filter (fun c => call_level c <=? v) cs.
(** A progress display that counts to n and then ends the line. *)
Definition counts_to (n : nat) : list progress := map (fun i => Line (Z.of_nat i) (Z.of_nat n)) (seq 1 n) ++ [NewLine].

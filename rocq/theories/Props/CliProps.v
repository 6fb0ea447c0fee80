(** Property theorems C159 and C160: the command line and the progress lines. *)
From Coq Require Import ZArith List Bool Lia String.
From Verif.Base Require Import Py.
From Verif.Model Require Import Lgs Cli.
From Verif.Spec Require Import CliSpec.
Import ListNotations.
Open Scope Z_scope.

Lemma log_int z file status c : exists out, log z file status c = Ok out /\ (match out with [] => false | _ => true end) = (call_level c <=? z).
Proof.
  unfold log, print_message. destruct (call_level c <=? z) eqn:E; [|eexists; split; reflexivity].
  destruct c, file, status; cbn; eexists; split; reflexivity.
Qed.
Lemma all_int z file status cs : snd (log_all (VInt z) file status cs) = None /\ shown (log_all (VInt z) file status cs) = let_through z cs.
Proof.
  induction cs as [|c r [E S]]; [split; reflexivity|]. cbn [log_all log_at]. destruct (log_int z file status c) as (out & -> & N).
  destruct (log_all (VInt z) file status r) as [rest e]. cbn [snd] in *. split; auto. unfold shown, let_through in *. cbn [fst filter snd map] in *. rewrite N. destruct (_ <=? _); cbn [map fst]; congruence.
Qed.
Lemma all_text s file status c r : log_all (VText s) file status (c :: r) = ([], Some TypeError).
Proof. reflexivity. Qed.
Lemma then_shown a b : snd a = None -> snd (then_ a b) = snd b /\ shown (then_ a b) = shown a ++ shown b.
Proof.
  destruct a as [xs e], b as [ys e']. cbn [snd]. intros ->. cbn [then_ snd]. split; auto. unfold shown. cbn [fst]. rewrite filter_app, map_app. reflexivity.
Qed.
Lemma through_app v a b : let_through v (a ++ b) = let_through v a ++ let_through v b.
Proof. apply filter_app. Qed.

(** C159: without options, every message of level 2 or below is shown in the whole run, and no other. *)
Theorem C159_no_option_partial :
  forall (o : options) (file : Z) (logfile : bool) (inner calc rest : list call), o_verbosity o = None -> o_debug o = false -> o_interactive o = false ->
  snd (run_messages o file logfile inner calc rest) = None /\
  shown (run_messages o file logfile inner calc rest) = let_through 2 (loading inner ++ (if o_gui o then calc else []) ++ CInfo :: rest).
Proof.
  intros [v d g i] file logfile inner calc rest V D I. cbn [o_verbosity o_debug o_gui o_interactive] in *. subst. unfold run_messages, second_level, first_level, arg_verbosity. cbn [o_gui o_debug o_verbosity o_interactive].
  destruct (all_int 2 false false (loading inner)) as [E1 S1]. destruct g.
  - destruct (all_int 2 false false calc) as [E2 S2]. destruct (all_int 2 logfile true (CInfo :: rest)) as [E3 S3].
    destruct (then_shown _ (log_all (VInt 2) false false calc) E1) as [E4 S4]. rewrite E2 in E4. destruct (then_shown _ (log_all (VInt 2) logfile true (CInfo :: rest)) E4) as [E5 S5].
    split; [rewrite E5; auto|]. rewrite S5, S4, S1, S2, S3, !through_app. rewrite app_assoc. reflexivity.
  - destruct (all_int 2 logfile false (CInfo :: rest)) as [E3 S3]. destruct (then_shown _ (log_all (VInt 2) logfile false (CInfo :: rest)) E1) as [E5 S5].
    split; [rewrite E5; auto|]. rewrite S5, S1, S3, through_app. reflexivity.
Qed.
Print Assumptions C159_no_option_partial.
(** C159: -d with the GUI shows every message of the whole run. *)
Theorem C159_debug_gui_partial :
  forall (o : options) (file : Z) (logfile : bool) (inner calc rest : list call), o_debug o = true -> o_gui o = true ->
  snd (run_messages o file logfile inner calc rest) = None /\ shown (run_messages o file logfile inner calc rest) = loading inner ++ calc ++ CInfo :: rest.
Proof.
  intros [v d g i] file logfile inner calc rest D G. cbn [o_debug o_gui] in *. subst. unfold run_messages, second_level, first_level. cbn [o_gui o_debug].
  assert (A : forall cs, let_through 3 cs = cs). { induction cs as [|c r IH]; auto. cbn. unfold let_through in IH. rewrite IH. destruct c; reflexivity. }
  destruct (all_int 3 false false (loading inner)) as [E1 S1]. destruct (all_int 3 false false calc) as [E2 S2]. destruct (all_int 3 logfile true (CInfo :: rest)) as [E3 S3].
  destruct (then_shown _ (log_all (VInt 3) false false calc) E1) as [E4 S4]. rewrite E2 in E4. destruct (then_shown _ (log_all (VInt 3) logfile true (CInfo :: rest)) E4) as [E5 S5].
  split; [rewrite E5; auto|]. rewrite S5, S4, S1, S2, S3, !A, app_assoc. reflexivity.
Qed.
Print Assumptions C159_debug_gui_partial.
(** C159 is false: with -V and any argument the run ends in TypeError.  Without -d nothing is ever shown; with it, and without the GUI, the run ends
    at the first message after the file is loaded. *)
Theorem C159_verbosity_refuted :
  forall (o : options) (s : string) (file : Z) (logfile : bool) (inner calc rest : list call), o_verbosity o = Some s ->
  (o_debug o = false -> run_messages o file logfile inner calc rest = ([], Some TypeError)) /\
  (o_debug o = true -> o_gui o = false -> o_interactive o = false ->
     snd (run_messages o file logfile inner calc rest) = Some TypeError /\ shown (run_messages o file logfile inner calc rest) = loading inner).
Proof.
  intros [v d g i] s file logfile inner calc rest V. cbn [o_verbosity o_debug o_gui o_interactive] in *. subst. unfold run_messages, second_level, first_level, arg_verbosity. cbn [o_gui o_debug o_verbosity o_interactive].
  split; [intros -> | intros -> -> ->].
  - unfold loading. rewrite !all_text. destruct g, i; reflexivity.
  - destruct (all_int 3 false false (loading inner)) as [E1 S1]. rewrite all_text. destruct (then_shown _ ([], Some TypeError) E1) as [E2 S2]. split; [exact E2|].
    rewrite S2, S1. unfold shown. cbn [fst filter map]. rewrite app_nil_r. clear. generalize (loading inner). induction l as [|c r IH]; auto. cbn. unfold let_through in IH. rewrite IH. destruct c; reflexivity.
Qed.
Print Assumptions C159_verbosity_refuted.
(** C159 is false: -d without the GUI shows the debug messages of the loading only; from then on the verbosity is 2. *)
Theorem C159_debug_refuted :
  forall (o : options) (file : Z) (logfile : bool) (inner calc rest : list call), o_verbosity o = None -> o_debug o = true -> o_gui o = false -> o_interactive o = false ->
  shown (run_messages o file logfile inner calc rest) = loading inner ++ CInfo :: let_through 2 rest.
Proof.
  intros [v d g i] file logfile inner calc rest V D G I. cbn [o_verbosity o_debug o_gui o_interactive] in *. subst. unfold run_messages, second_level, first_level, arg_verbosity. cbn [o_gui o_debug o_verbosity o_interactive].
  destruct (all_int 3 false false (loading inner)) as [E1 S1]. destruct (all_int 2 logfile false (CInfo :: rest)) as [E3 S3].
  destruct (then_shown _ (log_all (VInt 2) logfile false (CInfo :: rest)) E1) as [_ S5]. rewrite S5, S1, S3. f_equal.
  clear. generalize (loading inner). induction l as [|c r IH]; auto. cbn. unfold let_through in IH. rewrite IH. destruct c; reflexivity.
Qed.
Print Assumptions C159_debug_refuted.
(** C159 is false: the verbosity of the configuration file is never used. *)
Theorem C159_file_refuted :
  forall (o : options) (file file' : Z) (logfile : bool) (inner calc rest : list call),
  run_messages o file logfile inner calc rest = run_messages o file' logfile inner calc rest.
Proof. reflexivity. Qed.
Print Assumptions C159_file_refuted.
Example C159_instance :
  shown (run_messages (mkOpts None false false false) 0 true [CDebug] [] [CWarning; CDebug]) = [CInfo; CInfo; CInfo; CWarning] /\
  run_messages (mkOpts (Some "3"%string) true true false) 0 true [] [CDebug] [CDebug] =
    ([(CInfo, [SStdout]); (CInfo, [SStdout]); (CDebug, [SStdout]); (CInfo, [SFile; SStatus; SStdout]); (CDebug, [SFile; SStatus; SStdout])], None).
Proof. split; reflexivity. Qed.

Lemma count_up v n : forall k m, (k + m = n)%nat -> flat_map (fun i => status_message v false (Z.of_nat i) (Z.of_nat n)) (seq k m) =
  map (fun i => Line (Z.of_nat i) (Z.of_nat n)) (seq (S k) m) ++ (if (m =? 0)%nat then [] else [NewLine]).
Proof.
  intros k m; revert k. induction m as [|m IH]; intros k E; [reflexivity|]. cbn [seq flat_map]. rewrite IH by lia. unfold status_message. rewrite andb_true_r.
  replace (Z.of_nat k + 1) with (Z.of_nat (S k)) by lia. destruct m as [|m].
  - destruct (Z.eqb_spec (Z.of_nat (S k)) (Z.of_nat n)); [reflexivity|lia].
  - destruct (Z.eqb_spec (Z.of_nat (S k)) (Z.of_nat n)); [lia|]. reflexivity.
Qed.
(** C160: poking the actuators and running the loop count to the total and then end the line. *)
Theorem C160_counts_partial : forall (v : verb) (n : nat), (0 < n)%nat -> imat_progress v false n = counts_to n /\ loop_progress v false n = counts_to n.
Proof.
  intros v n P. assert (E : imat_progress v false n = counts_to n). { unfold imat_progress, counts_to. rewrite count_up by lia. destruct n; [lia|reflexivity]. }
  split; exact E.
Qed.
Print Assumptions C160_counts_partial.
(** C160 is false for the Learn: it counts from 2 to one more than the total, and ends the line before the last. *)
Theorem C160_learn_refuted :
  forall (v : verb) (n : nat), (2 <= n)%nat ->
  learn_progress v false n = map (fun i => Line (Z.of_nat i) (Z.of_nat n)) (seq 2 (n - 1)) ++ [NewLine; Line (Z.of_nat n + 1) (Z.of_nat n)].
Proof.
  intros v n P. unfold learn_progress. assert (E : seq 0 n = seq 0 (n - 1) ++ [(n - 1)%nat]). { replace n with (n - 1 + 1)%nat at 1 by lia. rewrite seq_app. reflexivity. }
  rewrite E, flat_map_app. cbn [flat_map].
  assert (G : forall k m, (k + m = n - 1)%nat -> flat_map (fun i => status_message v false (Z.of_nat i + 1) (Z.of_nat n)) (seq k m) =
    map (fun i => Line (Z.of_nat i) (Z.of_nat n)) (seq (S (S k)) m) ++ (if (m =? 0)%nat then [] else [NewLine])).
  { intros k m; revert k. induction m as [|m IH]; intros k E'; [reflexivity|]. cbn [seq flat_map]. rewrite IH by lia. unfold status_message. rewrite andb_true_r.
    replace (Z.of_nat k + 1 + 1) with (Z.of_nat (S (S k))) by lia. destruct m as [|m].
    - destruct (Z.eqb_spec (Z.of_nat (S (S k))) (Z.of_nat n)); [reflexivity|lia].
    - destruct (Z.eqb_spec (Z.of_nat (S (S k))) (Z.of_nat n)); [lia|]. reflexivity. }
  rewrite (G 0%nat (n - 1)%nat) by lia. destruct (Nat.eqb_spec (n - 1) 0); [lia|]. unfold status_message. rewrite andb_true_r.
  replace (Z.of_nat (n - 1) + 1) with (Z.of_nat n) by lia. destruct (Z.eqb_spec (Z.of_nat n + 1) (Z.of_nat n)); [lia|]. rewrite <- app_assoc. reflexivity.
Qed.
Print Assumptions C160_learn_refuted.
(** C160 is false of verbosity 0, at which nothing should be printed: the progress is. *)
Theorem C160_silence_refuted : forall (v v' : verb) (status : bool) (n : nat), (0 < n)%nat ->
  loop_progress v status n = loop_progress v' status n /\ loop_progress (VInt 0) status n <> [].
Proof. intros v v' status n P. split; [reflexivity|]. destruct n; [lia|]. unfold loop_progress. cbn [seq flat_map]. unfold status_message. destruct status; discriminate. Qed.
Print Assumptions C160_silence_refuted.
Example C160_instance : imat_progress (VInt 1) false 2 = [Line 1 2; Line 2 2; NewLine] /\ learn_progress (VInt 1) false 3 = [Line 2 3; Line 3 3; NewLine; Line 4 3].
Proof. split; reflexivity. Qed.

(** Property theorem C206: the Strehl plot of the GUI. *)
From Verif.Base Require Import Vec.
From Coq Require Import Lia.
From Verif.Model Require Import StrehlPlot.
From Verif.Spec Require Import StrehlPlotSpec.
From Verif.Proofs Require Import StrehlPlotProofs.
Local Open Scope nat_scope.

(** C206: whatever the user does and however frames, threads and updates follow one another, drawing never raises; an update while a loop runs leaves on the axes exactly two curves per
    camera, of one colour, a dotted one for the instantaneous and a solid one for the long exposure Strehl ratios; they have nIters points, and point k is the ratio of the last frame
    number k modulo nIters since the last reset, if there is one.  The labels show 100 times the ratios of the last frame. *)
Theorem C206_curves_partial :
  forall (n_sci n_iters : nat) (l : list action), 0 < n_iters -> Forall (sound n_sci) l ->
    exists s t, acts n_sci n_iters l (opened n_sci n_iters) = Ok s /\ update n_sci s = Ok t /\
      (running s = true ->
       let run := frames_since l [] in
       exists inst long, drawn t (fun sci => (runs l + sci) mod 7) inst long n_sci /\
         (forall sci, sci < n_sci -> length (inst sci) = n_iters /\ length (long sci) = n_iters /\
            (forall k f, k < n_iters -> latest n_iters (length run) k = Some f -> nth k (inst sci) 0%Qc = fst (ratio run f sci) /\ nth k (long sci) 0%Qc = snd (ratio run f sci)) /\
            (run <> [] -> nth sci (fst (labels t)) 0%Qc = (qz 100 * fst (ratio run (length run - 1) sci))%Qc /\ nth sci (snd (labels t)) 0%Qc = (qz 100 * snd (ratio run (length run - 1) sci))%Qc))).
Proof.
  intros n_sci n_iters l P F. destruct (opened_ok n_sci n_iters) as [C0 K0]. destruct (acts_ok n_sci n_iters l 0 [] _ P F C0 K0) as (s & ES & CS & KS). rewrite Nat.add_0_r in CS.
  destruct (update_ok _ n_sci s CS) as (t & ET & CT & A1 & A2 & A3 & A4 & D). exists s, t. split; [exact ES|]. split; [exact ET|]. intros R run. destruct (D R) as [DD LL].
  exists (fun sci => nth sci (inst_rec s) []), (fun sci => nth sci (long_rec s) []). split; [exact DD|]. destruct KS as (I & L1 & L2 & L3 & H). intros sci HS. destruct (H sci HS) as (B1 & B2 & B3 & B4).
  split; [exact B1|]. split; [exact B2|]. split.
  - intros k f HK HF. destruct (B4 k HK) as [G1 G2]. fold run in G1, G2. rewrite HF in G1. split; [apply G2; exact HF|exact G1].
  - intro NE. fold run in B3. rewrite LL. cbn [fst snd].
    assert (Q : forall g : Qc * Qc -> Qc, nth sci (map (fun c => (qz 100 * g c)%Qc) (cams s)) 0%Qc = (qz 100 * g (nth sci (cams s) (0%Qc, 0%Qc)))%Qc).
    { intro g. rewrite (nth_indep _ 0%Qc ((fun c => (qz 100 * g c)%Qc) (0%Qc, 0%Qc))) by (rewrite map_length, L3; exact HS). apply (map_nth (fun c => (qz 100 * g c)%Qc)). }
    rewrite !Q, B3. destruct run; [contradiction NE; reflexivity|split; reflexivity].
Qed.
Print Assumptions C206_curves_partial.

(** C206: an update before the first loop begins, or after the last one ended, changes nothing, however often the button was pressed; one while a loop runs draws. *)
Theorem C206_idle :
  forall (n_sci n_iters : nat) (l : list action) (s : plotter), acts n_sci n_iters l (opened n_sci n_iters) = Ok s ->
    (looping l 0 false = false -> update n_sci s = Ok s) /\
    (looping l 0 false = true -> forall t, update n_sci s = Ok t -> length (plts t) = 2 * n_sci).
Proof.
  intros n_sci n_iters l s E.
  assert (G : forall l s0 s, acts n_sci n_iters l s0 = Ok s -> running s = looping l (threads s0) (running s0)).
  { clear. induction l as [|a l IH]; intros s0 s E; cbn [acts] in E; [injection E as <-; reflexivity|]. destruct (act n_sci n_iters a s0) as [t|] eqn:T; [|discriminate E]. rewrite (IH t s E).
    destruct a; cbn [act] in T; try (injection T as <-; reflexivity).
    - injection T as <-. unfold thread_begins. cbn [looping]. destruct (threads s0) eqn:TH; cbn [threads running]; rewrite ?TH; reflexivity.
    - unfold update in T. cbn [looping]. destruct (running s0) eqn:R; [|injection T as <-; rewrite R; reflexivity]. destruct (axes s0); [|discriminate T]. destruct (remove_all (plts s0) l0); [|discriminate T].
      injection T as <-. reflexivity. }
  pose proof (G _ _ _ E) as R. change (threads (opened n_sci n_iters)) with 0 in R. change (running (opened n_sci n_iters)) with false in R. rewrite <- R. unfold update. split; intro W; rewrite W; [reflexivity|]. intro t. destruct (axes s); [|discriminate].
  destruct (remove_all (plts s) l0); [|discriminate]. intro Q. injection Q as <-. cbn [plts]. rewrite combine_length, seq_length, Nat.min_id.
  assert (H : forall m k, length (flat_map (pair_of s) (seq k m)) = 2 * m); [|apply H]. induction m as [|m IH]; intro k; [reflexivity|]. cbn [seq flat_map]. rewrite app_length, IH. cbn [pair_of length]. lia.
Qed.
Print Assumptions C206_idle.

(** C206: cameras less than seven apart have different colours, and so have two runs that follow one another; with eight cameras the first and the last look the same. *)
Theorem C206_colours :
  (forall r a b, a < b -> b < a + 7 -> (r + a) mod 7 <> (r + b) mod 7) /\ (forall r sci, (S r + sci) mod 7 <> (r + sci) mod 7) /\
  (forall r, (r + 0) mod 7 = (r + 7) mod 7).
Proof.
  assert (M : forall r a b, a < b -> b < a + 7 -> (r + a) mod 7 <> (r + b) mod 7).
  { intros r a b H1 H2 E. pose proof (Nat.div_mod (r + a) 7 ltac:(lia)). pose proof (Nat.div_mod (r + b) 7 ltac:(lia)). lia. }
  split; [exact M|]. split; [|intro r].
  - intros r sci E. apply (M 0 (r + sci) (S r + sci)); [lia|lia|]. symmetry. exact E.
  - rewrite Nat.add_0_r. replace (r + 7) with (r + 1 * 7) by lia. rewrite Nat.mod_add by lia. reflexivity.
Qed.
Print Assumptions C206_colours.

(** C206: the curves do not end with the last frame: while fewer than nIters frames have been run since aoinit, every later point of every curve is drawn, at zero. *)
Theorem C206_length_refuted :
  forall (n_sci n_iters : nat) (vs : list (list (Qc * Qc))), length vs < n_iters -> Forall (fun v => length v = n_sci) vs ->
    exists t, acts n_sci n_iters ([DoRun; DoBegin] ++ map DoFrame vs ++ [DoUpdate]) (opened n_sci n_iters) = Ok t /\
      exists inst long, drawn t (fun sci => (1 + sci) mod 7) inst long n_sci /\
        forall sci, sci < n_sci -> length (long sci) = n_iters /\ forall k, length vs <= k -> k < n_iters -> nth k (long sci) 1%Qc = 0%Qc.
Proof.
  intros n_sci n_iters vs L F. assert (P : 0 < n_iters) by lia. destruct (opened_ok n_sci n_iters) as [C0 K0].
  assert (SF : Forall (sound n_sci) ([DoRun; DoBegin] ++ map DoFrame vs)).
  { apply Forall_app. split; [repeat constructor|]. apply Forall_forall. intros a Ha. apply in_map_iff in Ha. destruct Ha as (v & <- & Hv). rewrite Forall_forall in F. exact (F v Hv). }
  destruct (acts_ok n_sci n_iters _ 0 [] _ P SF C0 K0) as (s & ES & CS & KS). rewrite Nat.add_0_r in CS. rewrite frames_app in KS. cbn [frames_since] in KS. rewrite frames_only in KS. cbn [app] in KS.
  assert (RU : runs ([DoRun; DoBegin] ++ map DoFrame vs) = 1). { unfold runs. cbn [app filter length]. f_equal. replace (filter _ (map DoFrame vs)) with (@nil action); [reflexivity|]. clear. induction vs; [reflexivity|exact IHvs]. }
  rewrite RU in CS. destruct (update_ok _ n_sci s CS) as (t & ET & CT & A1 & A2 & A3 & A4 & D).
  assert (RN : running s = true).
  { assert (G : forall ws a b, running a = true -> acts n_sci n_iters (map DoFrame ws) a = Ok b -> running b = true).
    { induction ws as [|w ws IH]; cbn [map acts act]; intros a b Ra Eb; [injection Eb as <-; exact Ra|]. apply (IH (frame n_iters w a) b); [exact Ra|exact Eb]. }
    exact (G vs (thread_begins (press_run (opened n_sci n_iters))) s eq_refl ES). }
  exists t. rewrite app_assoc, acts_app, ES. cbn [acts act]. rewrite ET. split; [reflexivity|]. destruct (D RN) as [DD _]. eexists _, _. split; [exact DD|]. destruct KS as (I & L1 & L2 & L3 & H).
  intros sci HS. destruct (H sci HS) as (B1 & B2 & _ & B4). split; [exact B2|]. intros k K1 K2. cbv beta. rewrite (nth_indep _ 1%Qc 0%Qc) by (rewrite B2; exact K2). destruct (B4 k K2) as [G _]. rewrite G, latest_first by lia.
  destruct (Nat.ltb_spec k (length vs)); [lia|reflexivity].
Qed.
Print Assumptions C206_length_refuted.

(** C206: and after a reset the dotted curves still show the frames of the run before, while the solid ones are at zero. *)
Theorem C206_reset_refuted :
  forall (n_sci n_iters : nat) (vs : list (list (Qc * Qc))), length vs <= n_iters -> 0 < n_iters -> Forall (fun v => length v = n_sci) vs ->
    exists t, acts n_sci n_iters (map DoFrame vs ++ [DoReset; DoRun; DoBegin; DoUpdate]) (opened n_sci n_iters) = Ok t /\
      exists inst long, drawn t (fun sci => (1 + sci) mod 7) inst long n_sci /\
        forall sci k, sci < n_sci -> k < length vs -> nth k (inst sci) 0%Qc = fst (ratio vs k sci) /\ nth k (long sci) 1%Qc = 0%Qc.
Proof.
  intros n_sci n_iters vs L P F. destruct (opened_ok n_sci n_iters) as [C0 K0].
  assert (SF : Forall (sound n_sci) (map DoFrame vs)).
  { apply Forall_forall. intros a Ha. apply in_map_iff in Ha. destruct Ha as (v & <- & Hv). rewrite Forall_forall in F. exact (F v Hv). }
  destruct (acts_ok n_sci n_iters _ 0 [] _ P SF C0 K0) as (s & ES & CS & KS). rewrite frames_only in KS. cbn [app] in KS. rewrite Nat.add_0_r in CS.
  assert (RU : runs (map DoFrame vs) = 0). { unfold runs. replace (filter _ (map DoFrame vs)) with (@nil action); [reflexivity|]. clear. induction vs; [reflexivity|exact IHvs]. }
  rewrite RU in CS. set (q := thread_begins (press_run (reset s))).
  assert (CQ : clean 1 q). { destruct CS as (N & X & Y & Z). unfold clean, q, press_run, reset, thread_begins. cbn. split; [constructor|]. split; [discriminate|]. split; [intros a Ha; injection Ha as <-; reflexivity|]. rewrite Z. reflexivity. }
  destruct (update_ok 1 n_sci q CQ) as (t & ET & _ & _ & _ & _ & _ & D). exists t. rewrite acts_app, ES. cbn [acts act]. fold q. rewrite ET. split; [reflexivity|].
  destruct (D eq_refl) as [DD _]. eexists _, _. split; [exact DD|]. destruct KS as (I & L1 & L2 & L3 & H). intros sci k HS HK. destruct (H sci HS) as (B1 & B2 & _ & B4). destruct (B4 k ltac:(lia)) as [_ G].
  cbv beta. split.
  - change (inst_rec q) with (inst_rec s). apply G. rewrite latest_first by lia. destruct (Nat.ltb_spec k (length vs)); [reflexivity|lia].
  - change (long_rec q) with (map (map (fun _ : Qc => 0%Qc)) (long_rec s)).
    replace (nth sci (map (map (fun _ : Qc => 0%Qc)) (long_rec s)) []) with (map (fun _ : Qc => 0%Qc) (nth sci (long_rec s) [])) by (symmetry; change (@nil Qc) with (map (fun _ : Qc => 0%Qc) []) at 1; apply map_nth).
    rewrite (nth_indep _ 1%Qc 0%Qc) by (rewrite map_length, B2; lia). exact (map_nth (fun _ : Qc => 0%Qc) _ 0%Qc k).
Qed.
Print Assumptions C206_reset_refuted.

(** Two cameras, three frames of four, and the curves drawn *)
Example C206_instance :
  match acts 2 4 ([DoRun; DoBegin] ++ map DoFrame [[(qfrac 1 2, qfrac 1 3); (qfrac 1 4, qfrac 1 5)]; [(qfrac 1 6, qfrac 1 7); (qfrac 1 8, qfrac 1 9)]] ++ [DoUpdate; DoFrame [(qz 1, qfrac 1 2); (qz 0, qfrac 1 3)]; DoUpdate]) (opened 2 4) with
  | Ok t => running t = true /\
      map (fun p => (fst p, dotted (snd p), colour (snd p), map (fun q => (Qnum (this q), Qden (this q))) (points (snd p)))) (match axes t with Some a => a | None => [] end) =
        [(4, true, 1, [(1%Z, 2%positive); (1%Z, 6%positive); (1%Z, 1%positive); (0%Z, 1%positive)]); (5, false, 1, [(1%Z, 3%positive); (1%Z, 7%positive); (1%Z, 2%positive); (0%Z, 1%positive)]);
         (6, true, 2, [(1%Z, 4%positive); (1%Z, 8%positive); (0%Z, 1%positive); (0%Z, 1%positive)]); (7, false, 2, [(1%Z, 5%positive); (1%Z, 9%positive); (1%Z, 3%positive); (0%Z, 1%positive)])]
  | Err _ => False
  end.
Proof. vm_compute. split; reflexivity. Qed.

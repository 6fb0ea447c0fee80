(** Lemmas for the Strehl plot. *)
From Verif.Base Require Import Vec.
From Coq Require Import Lia.
From Verif.Model Require Import StrehlPlot.
From Verif.Spec Require Import StrehlPlotSpec.
Local Open Scope nat_scope.

Lemma put_len i x l : length (put i x l) = length l.
Proof. revert i. induction l as [|a l IH]; intros [|i]; cbn; auto. Qed.
Lemma put_nth i x l k : nth k (put i x l) 0%Qc = if (k =? i) && (k <? length l) then x else nth k l 0%Qc.
Proof.
  revert i k. induction l as [|a l IH]; intros i k; [destruct i; cbn; rewrite ?andb_false_r; destruct k; reflexivity|].
  destruct i as [|i]; destruct k as [|k]; cbn [put nth]; auto. rewrite IH. reflexivity.
Qed.
Lemma remove_self l : NoDup (map fst l) -> remove_all l l = Ok [].
Proof.
  induction l as [|[k c] l IH]; intro N; [reflexivity|]. cbn [map fst] in N. inversion N as [|? ? NI ND]; subst. cbn [remove_all on_axes existsb fst filter]. rewrite Nat.eqb_refl. cbn [orb negb].
  replace (filter (fun p => negb (fst p =? k)) l) with l; [apply IH; exact ND|].
  clear IH N ND. induction l as [|[j d] l IH]; [reflexivity|]. cbn [filter fst]. cbn [map fst] in NI. destruct (Nat.eqb_spec j k) as [->|]; [contradiction NI; left; reflexivity|]. cbn [negb]. f_equal. apply IH. intro H. apply NI. right. exact H.
Qed.
Lemma map_fst_combine {A B} (l : list A) (m : list B) : length l = length m -> map fst (combine l m) = l.
Proof. revert m. induction l as [|a l IH]; intros [|b m] H; cbn in *; try discriminate; [reflexivity|]. f_equal. apply IH. lia. Qed.
Lemma map_snd_combine {A B} (l : list A) (m : list B) : length l = length m -> map snd (combine l m) = m.
Proof. revert m. induction l as [|a l IH]; intros [|b m] H; cbn in *; try discriminate; [reflexivity|]. f_equal. apply IH. lia. Qed.

(** what always holds of the plot *)
Definition clean (r : nat) (s : plotter) : Prop :=
  NoDup (map fst (plts s)) /\ (axes s = None -> running s = false /\ threads s = 0) /\ (forall a, axes s = Some a -> a = plts s) /\ color_no s = r mod n_colours.
(** what always holds of the records *)
Definition kept (n_sci n_iters : nat) (run : list (list (Qc * Qc))) (s : plotter) : Prop :=
  iters s = length run /\ length (inst_rec s) = n_sci /\ length (long_rec s) = n_sci /\ length (cams s) = n_sci /\
  (forall sci, sci < n_sci -> length (nth sci (inst_rec s) []) = n_iters /\ length (nth sci (long_rec s) []) = n_iters /\
     nth sci (cams s) (0%Qc, 0%Qc) = match run with [] => (0%Qc, 0%Qc) | _ => ratio run (length run - 1) sci end /\
     forall k, k < n_iters ->
       nth k (nth sci (long_rec s) []) 0%Qc = match latest n_iters (length run) k with Some f => snd (ratio run f sci) | None => 0%Qc end /\
       forall f, latest n_iters (length run) k = Some f -> nth k (nth sci (inst_rec s) []) 0%Qc = fst (ratio run f sci)).

Lemma kept_same n_sci n_iters run s t : kept n_sci n_iters run s -> inst_rec t = inst_rec s -> long_rec t = long_rec s -> iters t = iters s -> cams t = cams s -> kept n_sci n_iters run t.
Proof. unfold kept. intros H A B C D. rewrite A, B, C, D. exact H. Qed.
Lemma latest_lt p n k f : latest p n k = Some f -> f < n.
Proof. induction n as [|n IH]; cbn [latest]; [discriminate|]. destruct (n mod p =? k); intro H; [injection H as <-; lia|]. apply IH in H. lia. Qed.
Lemma ratio_old run v f sci : f < length run -> ratio (run ++ [v]) f sci = ratio run f sci.
Proof. intro H. unfold ratio. rewrite app_nth1 by exact H. reflexivity. Qed.
Lemma ratio_new run v sci : ratio (run ++ [v]) (length run) sci = nth sci v (0%Qc, 0%Qc).
Proof. unfold ratio. rewrite app_nth2, Nat.sub_diag by lia. reflexivity. Qed.
Lemma nth_repeat_lt {A} (a d : A) n k : k < n -> nth k (repeat a n) d = a.
Proof. revert k. induction n as [|n IH]; intros [|k] H; cbn; try lia; auto. apply IH. lia. Qed.
Lemma init_kept n_sci n_iters s : kept n_sci n_iters [] (init_records n_sci n_iters s).
Proof.
  unfold kept, init_records. cbn [inst_rec long_rec iters cams length]. rewrite !repeat_length. repeat split; try reflexivity.
  1,2: rewrite nth_repeat_lt by assumption; apply repeat_length. 
  - apply nth_repeat.
  - cbn [latest]. rewrite nth_repeat_lt by assumption. apply nth_repeat.
  - cbn [latest]. discriminate.
Qed.

Lemma nth_map_combine {A B C} (f : A * B -> C) (v : list A) (l : list B) k da db dc : length v = length l -> k < length l -> nth k (map f (combine v l)) dc = f (nth k v da, nth k l db).
Proof.
  intros L H. rewrite (nth_indep _ dc (f (da, db))) by (rewrite map_length, combine_length; lia). rewrite map_nth. f_equal. apply combine_nth. exact L.
Qed.
Lemma frame_kept n_sci n_iters run v s : 0 < n_iters -> length v = n_sci -> kept n_sci n_iters run s -> kept n_sci n_iters (run ++ [v]) (frame n_iters v s).
Proof.
  intros P LV (I & L1 & L2 & L3 & H). unfold kept, frame. cbn [inst_rec long_rec iters cams]. rewrite app_length, !map_length, !combine_length, I. cbn [length].
  split; [lia|]. split; [lia|]. split; [lia|]. split; [exact LV|]. intros sci HS. destruct (H sci HS) as (A & B & C & D).
  rewrite (nth_map_combine _ v (inst_rec s) sci (0%Qc, 0%Qc) [] []), (nth_map_combine _ v (long_rec s) sci (0%Qc, 0%Qc) [] []) by lia. cbn [fst snd]. rewrite !put_len.
  split; [exact A|]. split; [exact B|]. split.
  { replace (length run + 1 - 1) with (length run) by lia. rewrite ratio_new. destruct (run ++ [v]) eqn:E; [destruct run; discriminate E|reflexivity]. }
  intros k HK. replace (length run + 1) with (S (length run)) by lia. cbn [latest]. rewrite !put_nth, A, B. destruct (D k HK) as [D1 D2]. rewrite (Nat.eqb_sym k).
  destruct (length run mod n_iters =? k) eqn:E; cbn [andb].
  - destruct (Nat.ltb_spec k n_iters); [|lia]. split; [rewrite ratio_new; reflexivity|]. intros f Hf. injection Hf as <-. rewrite ratio_new. reflexivity.
  - split.
    + rewrite D1. destruct (latest n_iters (length run) k) as [f|] eqn:F; [|reflexivity]. rewrite ratio_old by (eapply latest_lt; exact F). reflexivity.
    + intros f Hf. rewrite (D2 f Hf), ratio_old by (eapply latest_lt; exact Hf). reflexivity.
Qed.
Lemma reset_kept n_sci n_iters run s : kept n_sci n_iters run s -> kept n_sci n_iters [] (reset s).
Proof.
  intros (I & L1 & L2 & L3 & H). unfold kept, reset. cbn [inst_rec long_rec iters cams length]. rewrite !map_length. do 4 (split; [auto|]). intros sci HS. destruct (H sci HS) as (A & B & C & D).
  assert (E : nth sci (map (map (fun _ : Qc => 0%Qc)) (long_rec s)) [] = map (fun _ => 0%Qc) (nth sci (long_rec s) [])) by (change (@nil Qc) with (map (fun _ : Qc => 0%Qc) []) at 1; apply map_nth).
  rewrite E, map_length. split; [exact A|]. split; [exact B|]. split.
  { change (0%Qc, 0%Qc) with ((fun _ : Qc * Qc => (0%Qc, 0%Qc)) (0%Qc, 0%Qc)) at 2. rewrite map_nth. reflexivity. }
  intros k HK. cbn [latest]. split; [|discriminate]. change 0%Qc with ((fun _ : Qc => 0%Qc) 0%Qc) at 2. rewrite map_nth. reflexivity.
Qed.
Lemma mod_colours r c : c = r mod n_colours -> (if S c =? n_colours then 0 else S c) = S r mod n_colours.
Proof.
  unfold n_colours. intros ->. pose proof (Nat.mod_upper_bound r 7 ltac:(lia)) as B. pose proof (Nat.div_mod r 7 ltac:(lia)) as D. destruct (Nat.eqb_spec (S (r mod 7)) 7) as [E|E].
  - apply (Nat.mod_unique _ _ (S (r / 7))); lia.
  - apply (Nat.mod_unique _ _ (r / 7)); lia.
Qed.
Lemma update_ok r n_sci s : clean r s -> exists t, update n_sci s = Ok t /\ clean r t /\ inst_rec t = inst_rec s /\ long_rec t = long_rec s /\ iters t = iters s /\ cams t = cams s /\
  (running s = true -> drawn t (fun sci => (r + sci) mod n_colours) (fun sci => nth sci (inst_rec s) []) (fun sci => nth sci (long_rec s) []) n_sci /\
     labels t = (map (fun c => (qz 100 * fst c)%Qc) (cams s), map (fun c => (qz 100 * snd c)%Qc) (cams s))).
Proof.
  intros (N & X & Y & Z). unfold update. destruct (running s) eqn:R; [|exists s; split; [reflexivity|]; split; [unfold clean; rewrite R; split; [exact N|split; [exact X|split; [exact Y|exact Z]]]|]; do 4 (split; [reflexivity|]); intro Q; discriminate Q].
  destruct (axes s) as [a|] eqn:A; [|destruct (X eq_refl) as [Q _]; discriminate Q]. pose proof (Y a eq_refl) as ->. rewrite (remove_self _ N).
  set (cs := flat_map (pair_of s) (seq 0 n_sci)). set (nw := combine (seq (fresh s) (length cs)) cs). eexists. split; [reflexivity|]. cbn [app].
  assert (L : length (seq (fresh s) (length cs)) = length cs) by apply seq_length.
  split; [|do 4 (split; [reflexivity|]); intros _; split; [|reflexivity]].
  - unfold clean. cbn [plts axes running threads color_no]. split; [unfold nw; rewrite map_fst_combine by exact L; apply seq_NoDup|]. split; [discriminate|]. split; [intros b Hb; injection Hb as <-; reflexivity|exact Z].
  - unfold drawn. cbn [axes]. exists nw. split; [reflexivity|]. unfold nw. rewrite map_snd_combine by exact L. unfold cs, pair_of. rewrite Z. apply flat_map_ext. intro sci.
    replace ((r mod n_colours + sci) mod n_colours) with ((r + sci) mod n_colours); [reflexivity|]. symmetry. apply Nat.add_mod_idemp_l. unfold n_colours. lia.
Qed.
Lemma act_ok n_sci n_iters r run a s : 0 < n_iters -> sound n_sci a -> clean r s -> kept n_sci n_iters run s ->
  exists t, act n_sci n_iters a s = Ok t /\ clean (runs [a] + r) t /\ kept n_sci n_iters (frames_since [a] run) t.
Proof.
  intros P SD C K. destruct a as [|v| | | | |]; cbn [act].
  - eexists. split; [reflexivity|]. split; [exact C|apply init_kept].
  - eexists. split; [reflexivity|]. split; [exact C|apply frame_kept; assumption].
  - eexists. split; [reflexivity|]. split; [exact C|exact (reset_kept _ _ _ _ K)].
  - eexists. split; [reflexivity|]. split; [|exact (kept_same _ _ _ _ _ K eq_refl eq_refl eq_refl eq_refl)]. destruct C as (N & X & Y & Z). unfold clean, press_run. cbn [plts axes running threads color_no map].
    split; [constructor|]. split; [discriminate|]. split; [intros b Hb; injection Hb as <-; reflexivity|]. apply mod_colours. exact Z.
  - eexists. split; [reflexivity|]. unfold thread_begins. destruct (threads s) eqn:T; [split; assumption|]. split; [|exact (kept_same _ _ _ _ _ K eq_refl eq_refl eq_refl eq_refl)].
    destruct C as (N & X & Y & Z). split; [exact N|]. cbn [plts axes running threads color_no]. split; [|split; [exact Y|exact Z]]. intro Q. destruct (X Q) as [_ W]. rewrite T in W. discriminate W.
  - eexists. split; [reflexivity|]. split; [|exact (kept_same _ _ _ _ _ K eq_refl eq_refl eq_refl eq_refl)]. destruct C as (N & X & Y & Z). split; [exact N|]. cbn [thread_ends plts axes running threads color_no]. split; [|split; [exact Y|exact Z]].
    intro Q. split; [reflexivity|apply X; exact Q].
  - destruct (update_ok r n_sci s C) as (t & E & CT & A1 & A2 & A3 & A4 & _). exists t. split; [exact E|]. split; [exact CT|exact (kept_same _ _ _ _ _ K A1 A2 A3 A4)].
Qed.
Lemma acts_ok n_sci n_iters l : forall r run s, 0 < n_iters -> Forall (sound n_sci) l -> clean r s -> kept n_sci n_iters run s ->
  exists t, acts n_sci n_iters l s = Ok t /\ clean (runs l + r) t /\ kept n_sci n_iters (frames_since l run) t.
Proof.
  induction l as [|a l IH]; intros r run s P F C K; [exists s; split; [reflexivity|split; assumption]|]. inversion F as [|? ? SA SL]; subst.
  destruct (act_ok n_sci n_iters r run a s P SA C K) as (t & E & CT & KT). destruct (IH _ _ t P SL CT KT) as (u & EU & CU & KU). exists u. cbn [acts]. rewrite E. split; [exact EU|]. split.
  - replace (runs (a :: l) + r) with (runs l + (runs [a] + r)) by (unfold runs; cbn [filter]; destruct a; cbn [length]; lia). exact CU.
  - destruct a; exact KU.
Qed.
Lemma acts_app n_sci n_iters l m s : acts n_sci n_iters (l ++ m) s = match acts n_sci n_iters l s with Ok t => acts n_sci n_iters m t | Err e => Err e end.
Proof. revert s. induction l as [|a l IH]; intro s; [reflexivity|]. cbn [app acts]. destruct (act n_sci n_iters a s); [apply IH|reflexivity]. Qed.
Lemma opened_ok n_sci n_iters : clean 0 (opened n_sci n_iters) /\ kept n_sci n_iters [] (opened n_sci n_iters).
Proof. split; [|apply init_kept]. unfold clean, opened, init_records. cbn. split; [constructor|]. split; [split; reflexivity|]. split; [discriminate|reflexivity]. Qed.
Lemma latest_first p n k : n <= p -> latest p n k = if k <? n then Some k else None.
Proof.
  induction n as [|n IH]; intro H; [reflexivity|]. cbn [latest]. rewrite Nat.mod_small by lia. destruct (Nat.eqb_spec n k) as [->|N]; [destruct (Nat.ltb_spec k (S k)); [reflexivity|lia]|]. rewrite IH by lia.
  destruct (Nat.ltb_spec k n); destruct (Nat.ltb_spec k (S n)); try reflexivity; lia.
Qed.
Lemma frames_only vs old : frames_since (map DoFrame vs) old = old ++ vs.
Proof. revert old. induction vs as [|v vs IH]; intro old; cbn [map frames_since]; [symmetry; apply app_nil_r|]. rewrite IH, <- app_assoc. reflexivity. Qed.
Lemma frames_app l m old : frames_since (l ++ m) old = frames_since m (frames_since l old).
Proof. revert old. induction l as [|a l IH]; intro old; [reflexivity|]. destruct a; cbn [app frames_since]; apply IH. Qed.

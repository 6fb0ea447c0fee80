From Verif.Base Require Import Vec PyFacts.
From Verif.Model Require Import Sim.
From Verif.Spec Require Import SimSpec.
Open Scope Z_scope.

(** * Main loop *)
Lemma ao_prefix save nI frame : forall n fuel it k,
  (forall j, (k <= j < k + n)%nat -> frame j = FDone) -> (n <= fuel)%nat -> it + Z.of_nat n <= nI ->
  ao_while save nI frame fuel it k = ao_while save nI frame (fuel - n) (it + Z.of_nat n) (k + n).
Proof.
  induction n as [|n IH]; intros fuel it k Hf Hn Hi.
  - change (Z.of_nat 0) with 0. rewrite Z.add_0_r, Nat.add_0_r, Nat.sub_0_r. reflexivity.
  - destruct fuel as [|fuel]; [lia|]. cbn [ao_while]. replace (it <? nI) with true by (symmetry; apply Z.ltb_lt; lia).
    rewrite Hf by lia. rewrite IH.
    + replace (S fuel - S n)%nat with (fuel - n)%nat by lia. f_equal; lia.
    + intros; apply Hf; lia.
    + lia.
    + lia.
Qed.
Lemma ao_complete save nI it frame :
  (forall j, (j < Z.to_nat (nI - it))%nat -> frame j = FDone) ->
  aoloop save nI it frame = save_and_report save (Z.max it nI) (Z.to_nat (nI - it)).
Proof.
  intros H. unfold aoloop. destruct (Z.ltb_spec it nI).
  - rewrite (ao_prefix save nI frame (Z.to_nat (nI - it))); try lia.
    + replace (Z.to_nat (nI - it) - Z.to_nat (nI - it))%nat with 0%nat by lia. cbn [ao_while].
      replace (it + Z.of_nat (Z.to_nat (nI - it)) <? nI) with false by (symmetry; apply Z.ltb_ge; lia).
      f_equal; lia.
    + intros; apply H; lia.
  - replace (Z.to_nat (nI - it)) with 0%nat by lia. cbn [ao_while]. replace (it <? nI) with false by (symmetry; apply Z.ltb_ge; lia).
    f_equal; lia.
Qed.
Lemma ao_at save nI it frame k : (k < Z.to_nat (nI - it))%nat -> (forall j, (j < k)%nat -> frame j = FDone) ->
  aoloop save nI it frame = match frame k with
    | FDone => ao_while save nI frame (Z.to_nat (nI - it) - k - 1) (it + Z.of_nat k + 1) (S k)
    | FDoneStop => save_and_report save (it + Z.of_nat k + 1) (S k)
    | FInterrupt => save_and_report save (it + Z.of_nat k) k
    | FRaise e => mkOut (it + Z.of_nat k) k [] (Some e)
    end.
Proof.
  intros Hk Hf. unfold aoloop. rewrite (ao_prefix save nI frame k); try lia; [|intros; apply Hf; lia].
  change (0 + k)%nat with k. destruct (Z.to_nat (nI - it) - k)%nat as [|m] eqn:E; [lia|]. cbn [ao_while].
  replace (it + Z.of_nat k <? nI) with true by (symmetry; apply Z.ltb_lt; lia).
  destruct (frame k); try reflexivity. f_equal. lia.
Qed.
Lemma save_cube_ok files it : 1 <= it -> (forall i, 0 <= i < it -> In i files) -> save_cube true files it = Ok tt.
Proof.
  intros H1 Hf. assert (E : forall i, In i files -> existsb (Z.eqb i) files = true).
  { intros i Hi. apply existsb_exists. exists i. split; auto. apply Z.eqb_refl. }
  unfold save_cube. rewrite E by (apply Hf; lia). cbn [andb].
  replace (forallb _ _) with true.
  - replace (it <? 1) with false by (symmetry; apply Z.ltb_ge; lia). reflexivity.
  - symmetry. apply forallb_forall. intros x Hx. apply in_seq in Hx. apply E, Hf. lia.
Qed.
Lemma report_last nI it : 0 < nI -> report_index nI it = (it - 1) mod nI.
Proof.
  intros H. unfold report_index. pose proof (Z.mod_pos_bound it nI H) as B. pose proof (Z.div_mod it nI ltac:(lia)) as D.
  destruct (Z.ltb_spec (it mod nI - 1) 0).
  - apply (Z.mod_unique_pos _ _ (it / nI - 1)); [lia|]. nia.
  - apply (Z.mod_unique_pos _ _ (it / nI)); [lia|]. lia.
Qed.

(** * Records *)
Fixpoint ring_run {A} (N it : Z) (vs l : list A) : list A :=
  match vs with [] => l | v :: r => ring_run N (it + 1) r (upd l (Z.to_nat (it mod N)) v) end.
Lemma ring_run_length {A} N : forall (vs : list A) it l, length (ring_run N it vs l) = length l.
Proof. induction vs as [|v vs IH]; intros; cbn; auto. rewrite IH. apply upd_length. Qed.
Lemma ring_run_other {A} N : 0 < N -> forall (vs : list A) it l j,
  (forall k, (k < length vs)%nat -> (it + Z.of_nat k) mod N <> Z.of_nat j) -> nth_error (ring_run N it vs l) j = nth_error l j.
Proof.
  intros HN. induction vs as [|v vs IH]; intros it l j H; cbn; auto. rewrite IH.
  - apply upd_nth_error_other. specialize (H 0%nat). cbn [length] in H. change (Z.of_nat 0) with 0 in H. rewrite Z.add_0_r in H.
    pose proof (Z.mod_pos_bound it N HN). intros ->. apply H; lia.
  - intros k Hk. replace (it + 1 + Z.of_nat k) with (it + Z.of_nat (S k)) by lia. apply H. cbn; lia.
Qed.
Lemma mod_inj N a b : 0 < N -> a mod N = b mod N -> - N < a - b < N -> a = b.
Proof. intros HN E H. pose proof (Z.div_mod a N ltac:(lia)). pose proof (Z.div_mod b N ltac:(lia)). assert (a / N = b / N) by nia. nia. Qed.
Lemma ring_run_last {A} N : 0 < N -> forall (vs : list A) it l k v, Z.of_nat (length l) = N ->
  nth_error vs k = Some v -> Z.of_nat (length vs) - N <= Z.of_nat k ->
  nth_error (ring_run N it vs l) (Z.to_nat ((it + Z.of_nat k) mod N)) = Some v.
Proof.
  intros HN. induction vs as [|w vs IH]; intros it l k v Hl Hk Hr; [destruct k; discriminate|].
  destruct k as [|k]; cbn [ring_run].
  - cbn in Hk. injection Hk as ->. change (Z.of_nat 0) with 0 in *. rewrite Z.add_0_r.
    pose proof (Z.mod_pos_bound it N HN) as B.
    rewrite ring_run_other; auto.
    + apply upd_nth_error_same. lia.
    + intros j Hj E. rewrite Z2Nat.id in E by lia. cbn [length] in Hr.
      assert (it + 1 + Z.of_nat j = it) by (apply (mod_inj N); auto; lia). lia.
  - replace (it + Z.of_nat (S k)) with (it + 1 + Z.of_nat k) by lia. apply IH; auto.
    + rewrite upd_length. auto.
    + cbn [length] in Hr. lia.
Qed.
Lemma ring_run_ok {A} N it (vs l : list A) : 0 < N -> Z.of_nat (length l) = N -> ring_ok N it vs l (ring_run N it vs l).
Proof.
  intros HN Hl. split; [apply ring_run_length|]. split.
  - intros. apply ring_run_last; auto.
  - intros. apply ring_run_other; auto.
Qed.
Lemma pyset_mod {A} N it (l : list A) v : 0 < N -> Z.of_nat (length l) = N -> pyset l (it mod N) v = Ok (upd l (Z.to_nat (it mod N)) v).
Proof.
  intros HN Hl. unfold pyset. pose proof (Z.mod_pos_bound it N HN).
  replace (it mod N <? 0) with false by (symmetry; apply Z.ltb_ge; lia).
  replace (0 <=? it mod N) with true by (symmetry; apply Z.leb_le; lia).
  replace (it mod N <? Z.of_nat (length l)) with true by (symmetry; apply Z.ltb_lt; lia). reflexivity.
Qed.
Lemma assign_row_same W c : length c = W -> assign_row W c = Ok c.
Proof. intros <-. unfold assign_row. rewrite Nat.eqb_refl. reflexivity. Qed.

Definition opt_run {A} (b : bool) N it (vs l : list A) : list A := if b then ring_run N it vs l else l.

Lemma store_frames_ok o W ef N : 0 < N -> o_field o = false -> forall fs it r,
  rec_len N r -> (o_cmds o = true -> Forall (fun f => length (f_cmds f) = W) fs) ->
  (o_frames o = true -> forall k, (k < length fs)%nat -> ~ In ((it + Z.of_nat k) mod N) (r_files r)) ->
  (o_frames o = true -> Z.of_nat (length fs) <= N) ->
  exists r', store_frames o W ef N it fs r = Ok r' /\
    let sci := (0 <? o_nsci o)%nat in
    r_slopes r' = opt_run (o_slopes o) N it (map f_slopes fs) (r_slopes r) /\ r_cmds r' = opt_run (o_cmds o) N it (map f_cmds fs) (r_cmds r) /\
    r_inst r' = opt_run sci N it (map f_inst fs) (r_inst r) /\ r_long r' = opt_run sci N it (map f_long fs) (r_long r) /\
    r_wfe r' = opt_run sci N it (map f_wfe fs) (r_wfe r) /\ r_imgs r' = opt_run (sci && o_inst o) N it (map f_img fs) (r_imgs r).
Proof.
  intros HN Hef. induction fs as [|f fs IH]; intros it r HL HC HF HB.
  - exists r. split; [reflexivity|]. cbv zeta. cbn [map].
    assert (Z0 : forall A (b : bool) (l : list A), opt_run b N it [] l = l) by (intros A [|] l; reflexivity). rewrite !Z0. repeat split; reflexivity.
  - cbn [store_frames]. destruct HL as (L1 & L2 & L3 & L4 & L5 & L6).
    remember (0 <? o_nsci o)%nat as sci eqn:Es in *.
    set (r1 := mkRec (if o_slopes o then upd (r_slopes r) (Z.to_nat (it mod N)) (f_slopes f) else r_slopes r)
                     (if o_cmds o then upd (r_cmds r) (Z.to_nat (it mod N)) (f_cmds f) else r_cmds r)
                     (if sci then upd (r_inst r) (Z.to_nat (it mod N)) (f_inst f) else r_inst r)
                     (if sci then upd (r_long r) (Z.to_nat (it mod N)) (f_long f) else r_long r)
                     (if sci then upd (r_wfe r) (Z.to_nat (it mod N)) (f_wfe f) else r_wfe r)
                     (if sci && o_inst o then upd (r_imgs r) (Z.to_nat (it mod N)) (f_img f) else r_imgs r)
                     (if o_frames o then it mod N :: r_files r else r_files r)).
    assert (E : store_data o W ef N it f r = Ok r1).
    { unfold store_data. cbv zeta. rewrite <- Es. rewrite !pyset_mod by assumption.
      assert (EC : (if o_cmds o then let* row := assign_row W (f_cmds f) in pyset (r_cmds r) (it mod N) row else Ok (r_cmds r)) =
                   Ok (if o_cmds o then upd (r_cmds r) (Z.to_nat (it mod N)) (f_cmds f) else r_cmds r)).
      { destruct (o_cmds o) eqn:Eo; [|reflexivity]. specialize (HC eq_refl). inversion HC; subst. rewrite assign_row_same by reflexivity. cbn [bind].
        rewrite pyset_mod by assumption. reflexivity. }
      rewrite EC.
      assert (EF : (if o_frames o then if existsb (Z.eqb (it mod N)) (r_files r) then Err OSError else Ok (it mod N :: r_files r) else Ok (r_files r)) =
                   Ok (if o_frames o then it mod N :: r_files r else r_files r)).
      { destruct (o_frames o) eqn:Eo; [|reflexivity]. destruct (existsb _ _) eqn:X; [|reflexivity]. exfalso.
        apply existsb_exists in X as (y & Hy & Ey). apply Z.eqb_eq in Ey. subst y. apply (HF eq_refl 0%nat); [cbn; lia|].
        change (Z.of_nat 0) with 0. rewrite Z.add_0_r. exact Hy. }
      rewrite EF, Hef, andb_false_r. unfold r1. destruct (o_slopes o), sci, (o_inst o); reflexivity. }
    rewrite E. cbn [bind].
    destruct (IH (it + 1) r1) as (r' & E' & A1 & A2 & A3 & A4 & A5 & A6).
    + unfold rec_len, r1. cbn [r_slopes r_cmds r_inst r_long r_wfe r_imgs].
      destruct (o_slopes o), (o_cmds o), sci, (o_inst o); cbn [andb]; rewrite ?upd_length; repeat (split; [assumption|]); assumption.
    + intros Eo. specialize (HC Eo). inversion HC; assumption.
    + intros Eo k Hk. unfold r1. cbn [r_files]. rewrite Eo. intros [C | C].
      * specialize (HB Eo). cbn [length] in HB. assert (it = it + 1 + Z.of_nat k) by (apply (mod_inj N); auto; lia). lia.
      * apply (HF Eo (S k)); [cbn; lia|]. replace (it + Z.of_nat (S k)) with (it + 1 + Z.of_nat k) by lia. exact C.
    + intros Eo. specialize (HB Eo). cbn [length] in HB. lia.
    + exists r'. split; [exact E'|]. cbv zeta in *.
      rewrite A1, A2, A3, A4, A5, A6. unfold r1, opt_run. cbn.
      destruct (o_slopes o), (o_cmds o), sci, (o_inst o); cbn; repeat split; reflexivity.
Qed.
Lemma opt_run_ok {A} (b : bool) N it (vs l : list A) : 0 < N -> Z.of_nat (length l) = N -> b = true -> ring_ok N it vs l (opt_run b N it vs l).
Proof. intros HN Hl ->. apply ring_run_ok; auto. Qed.

Lemma store_data_shape o W ef N it f r r' : store_data o W ef N it f r = Ok r' ->
  (o_cmds o = true -> length (f_cmds f) = W \/ length (f_cmds f) = 1%nat) /\
  (o_frames o = true -> ~ In (it mod N) (r_files r) /\ In (it mod N) (r_files r')) /\ (forall i, In i (r_files r) -> In i (r_files r')) /\
  ((0 < o_nsci o)%nat -> o_field o = true -> ef = true /\ it < N).
Proof.
  unfold store_data. cbv zeta. intros H.
  destruct (if o_slopes o then _ else _) as [x1|] in H; [|discriminate]. cbn [bind] in H.
  destruct (if o_cmds o then _ else _) as [x2|] eqn:E2 in H; [|discriminate]. cbn [bind] in H.
  destruct (if (0 <? o_nsci o)%nat then pyset (r_inst r) _ _ else _) as [x3|] in H; [|discriminate]. cbn [bind] in H.
  destruct (if (0 <? o_nsci o)%nat then pyset (r_long r) _ _ else _) as [x4|] in H; [|discriminate]. cbn [bind] in H.
  destruct (if (0 <? o_nsci o)%nat then pyset (r_wfe r) _ _ else _) as [x5|] in H; [|discriminate]. cbn [bind] in H.
  destruct (if o_frames o then _ else _) as [x6|] eqn:E6 in H; [|discriminate]. cbn [bind] in H.
  destruct (if ((0 <? o_nsci o)%nat && o_inst o)%bool then _ else _) as [x7|] in H; [|discriminate]. cbn [bind] in H.
  destruct (if ((0 <? o_nsci o)%nat && o_field o)%bool then _ else _) as [x8|] eqn:E8 in H; [|discriminate]. cbn [bind] in H.
  injection H as <-. cbn [r_files]. split; [|split; [|split]].
  - intros Eo. rewrite Eo in E2. unfold assign_row in E2. destruct (Nat.eqb_spec (length (f_cmds f)) W); auto.
    destruct (Nat.eqb_spec (length (f_cmds f)) 1); auto. discriminate.
  - intros Eo. rewrite Eo in E6. destruct (existsb _ _) eqn:X; [discriminate|]. injection E6 as <-. split; [|left; reflexivity].
    intros I. assert (existsb (Z.eqb (it mod N)) (r_files r) = true) by (apply existsb_exists; exists (it mod N); split; auto; apply Z.eqb_refl).
    congruence.
  - intros i Hi. destruct (o_frames o); [destruct (existsb _ _); [discriminate|]; injection E6 as <-; right; exact Hi | injection E6 as <-; exact Hi].
  - intros Hs Ho. replace (0 <? o_nsci o)%nat with true in E8 by (symmetry; apply Nat.ltb_lt; lia). rewrite Ho in E8. cbn in E8.
    destruct ef; [|discriminate]. destruct (Z.ltb_spec it N); [auto | discriminate].
Qed.
Lemma store_frames_files o W ef N : forall fs it r r', o_frames o = true -> store_frames o W ef N it fs r = Ok r' ->
  (forall i, In i (r_files r) -> In i (r_files r')) /\ (forall k, (k < length fs)%nat -> ~ In ((it + Z.of_nat k) mod N) (r_files r) /\ In ((it + Z.of_nat k) mod N) (r_files r')) /\
  (forall j k, (j < k < length fs)%nat -> (it + Z.of_nat j) mod N <> (it + Z.of_nat k) mod N).
Proof.
  induction fs as [|f fs IH]; intros it r r' Ho H; cbn in H.
  - injection H as <-. repeat split; auto; cbn in *; lia.
  - destruct (store_data o W ef N it f r) as [r1|] eqn:E; [|discriminate]. cbn in H.
    destruct (store_data_shape _ _ _ _ _ _ _ _ E) as (_ & F & M & _). destruct (F Ho) as (F1 & F2).
    destruct (IH (it + 1) r1 r' Ho H) as (I1 & I2 & I3).
    assert (S0 : forall k, it + Z.of_nat (S k) = it + 1 + Z.of_nat k) by (intros; lia).
    split; [auto|]. split.
    + intros [|k] Hk.
      * change (Z.of_nat 0) with 0. rewrite Z.add_0_r. auto.
      * rewrite S0. destruct (I2 k) as (J1 & J2); [cbn in Hk; lia|]. auto.
    + intros j k Hjk. destruct k as [|k]; [lia|]. rewrite (S0 k). destruct j as [|j].
      * change (Z.of_nat 0) with 0. rewrite Z.add_0_r. destruct (I2 k) as (J1 & J2); [cbn in Hjk; lia|]. intros C. rewrite <- C in J1. auto.
      * rewrite (S0 j). apply I3. cbn in Hjk. lia.
Qed.

(** * Threads *)
Definition tinv (s : tsim) : Prop :=
  exists pc, t_callers s = [pc] /\
  match pc with
  | Idle => t_saves s = t_stops s /\
      if t_flag s then exists t x, t_attr s = Some t /\ t_threads s = repeat TDone t ++ [x] /\ x <> TNew else exists n, t_threads s = repeat TDone n
  | Start1 => t_saves s = t_stops s /\ t_flag s = false /\ exists n, t_threads s = repeat TDone n
  | Start2 t => t_saves s = t_stops s /\ t_flag s = false /\ t_attr s = Some t /\ t_threads s = repeat TDone t ++ [TNew]
  | Start3 => t_saves s = t_stops s /\ t_flag s = true /\ exists t, t_attr s = Some t /\ t_threads s = repeat TDone t ++ [TNew]
  | Stop1 => t_stops s = S (t_saves s) /\ t_flag s = false /\ exists t x, t_attr s = Some t /\ t_threads s = repeat TDone t ++ [x] /\ x <> TNew
  | Stop2 => t_stops s = S (t_saves s) /\ t_flag s = false /\ exists n, t_threads s = repeat TDone n
  end.
Lemma nth_repeat_done n i t : nth_error (repeat TDone n) i = Some t -> t = TDone.
Proof. intros H. apply nth_error_In in H. apply repeat_spec in H. auto. Qed.
Lemma nth_last_thread n x i t : nth_error (repeat TDone n ++ [x]) i = Some t -> t = TDone \/ (i = n /\ t = x).
Proof.
  intros H. destruct (Nat.lt_ge_cases i n) as [L | L].
  - rewrite nth_error_app1 in H by (rewrite repeat_length; auto). left. eapply nth_repeat_done; eauto.
  - rewrite nth_error_app2 in H by (rewrite repeat_length; auto). rewrite repeat_length in H.
    destruct (i - n)%nat as [|k] eqn:E; cbn in H; [injection H as <-; right; split; [lia|reflexivity] | destruct k; discriminate].
Qed.
Lemma upd_last n x y : upd (repeat TDone n ++ [x]) n y = repeat TDone n ++ [y].
Proof. induction n as [|n IH]; cbn; [reflexivity | rewrite IH; reflexivity]. Qed.
Lemma repeat_done_snoc n : repeat TDone n ++ [TDone] = repeat TDone (S n).
Proof. symmetry. change (S n) with (1 + n)%nat. rewrite Nat.add_comm. rewrite repeat_app. reflexivity. Qed.
Lemma one_caller (l : list caller) pc c q : l = [pc] -> nth_error l c = Some q -> c = 0%nat /\ pc = q.
Proof. intros -> H. destruct c as [|[|c]]; cbn in H; try discriminate. injection H as ->. auto. Qed.

Lemma done_states n i t : nth_error (repeat TDone n) i = Some t -> t <> TDone -> False.
Proof. intros H N. apply N. eapply nth_repeat_done; eauto. Qed.

Lemma thread_step s pc i old new :
  t_callers s = [pc] -> nth_error (t_threads s) i = Some old -> old <> TDone -> old <> TNew -> new <> TNew -> tinv s ->
  (new = TDone -> t_flag s = false \/ old = TFrame) ->
  forall fr, tinv (mkT (t_flag s) (t_attr s) (with_thread s i new) (t_callers s) fr (t_saves s) (t_stops s)).
Proof.
  intros Ec Ht N1 N2 N3 (pc' & Ec' & I) Hd fr. rewrite Ec in Ec'. injection Ec' as <-. exists pc. split; [exact Ec|]. cbn.
  unfold with_thread. destruct pc.
  - destruct I as (A & B). split; auto. destruct (t_flag s).
    + destruct B as (t & x & B1 & B2 & B3). rewrite B2 in *. destruct (nth_last_thread _ _ _ _ Ht) as [C | (-> & C)]; [contradiction|].
      exists t, new. rewrite upd_last. auto.
    + destruct B as (n & B). rewrite B in Ht. exfalso. eapply done_states; eauto.
  - destruct I as (A & B & n & C). rewrite C in Ht. exfalso. eapply done_states; eauto.
  - destruct I as (A & B & C & D). rewrite D in Ht. destruct (nth_last_thread _ _ _ _ Ht) as [E | (-> & E)]; contradiction.
  - destruct I as (A & B & t & C & D). rewrite D in Ht. destruct (nth_last_thread _ _ _ _ Ht) as [E | (-> & E)]; contradiction.
  - destruct I as (A & B & t & x & C & D & E). split; auto. split; auto. rewrite D in *. destruct (nth_last_thread _ _ _ _ Ht) as [F | (-> & F)]; [contradiction|].
    exists t, new. rewrite upd_last. auto.
  - destruct I as (A & B & n & C). rewrite C in Ht. exfalso. eapply done_states; eauto.
Qed.

Lemma tinv_step s s' : tinv s -> tstep s s' -> tinv s'.
Proof.
  intros I St. pose proof I as (pc & Ec & J).
  inversion St; subst.
  - exact I.
  - destruct (one_caller _ _ _ _ Ec H) as (-> & ->). destruct J as (A & B). rewrite H0 in B. exists Start1. cbn. unfold with_caller. rewrite Ec. cbn. auto.
  - destruct (one_caller _ _ _ _ Ec H) as (-> & ->). destruct J as (A & B & n & C). exists (Start2 (length (t_threads s))). cbn. unfold with_caller. rewrite Ec. cbn.
    split; auto. split; auto. split; auto. split; auto. rewrite C, repeat_length. reflexivity.
  - destruct (one_caller _ _ _ _ Ec H) as (-> & ->). destruct J as (A & B & C & D). exists Start3. cbn. unfold with_caller. rewrite Ec. cbn. eauto 6.
  - destruct (one_caller _ _ _ _ Ec H) as (-> & ->). destruct J as (A & B & t' & C & D). exists Idle. cbn. unfold with_caller. rewrite Ec. cbn.
    split; auto. split; auto. rewrite B. rewrite H0 in C. injection C as <-. exists t, TTest. unfold with_thread. rewrite D, upd_last. repeat split; auto. discriminate.
  - exact I.
  - destruct (one_caller _ _ _ _ Ec H) as (-> & ->). destruct J as (A & B). rewrite H0 in B. exists Stop1. cbn. unfold with_caller. rewrite Ec. cbn.
    split; [reflexivity|]. split; [congruence|]. split; [reflexivity|]. exact B.
  - destruct (one_caller _ _ _ _ Ec H) as (-> & ->). destruct J as (A & B & t' & x & C & D & E). exists Stop2. cbn. unfold with_caller. rewrite Ec. cbn.
    split; auto. split; auto. split; auto. rewrite H0 in C. injection C as <-. rewrite D in H1. rewrite D.
    assert (x = TDone). { rewrite nth_error_app2 in H1 by (rewrite repeat_length; lia). rewrite repeat_length, Nat.sub_diag in H1. cbn in H1. congruence. }
    subst. exists (S t). apply repeat_done_snoc.
  - destruct (one_caller _ _ _ _ Ec H) as (-> & ->). destruct J as (A & B & n & C). exists Idle. cbn. unfold with_caller. rewrite Ec. cbn.
    split; auto. split; [congruence|]. rewrite B. eauto.
  - eapply (thread_step s pc i TTest TFrame); eauto; discriminate.
  - eapply (thread_step s pc i TTest TDone); eauto; try discriminate.
  - eapply (thread_step s pc i TFrame TTest); eauto; discriminate.
  - eapply (thread_step s pc i TFrame TDone); eauto; try discriminate.
Qed.
Lemma tinv_reach s : treach 1 s -> tinv s.
Proof.
  induction 1 as [|s s' _ IH St]; [|eapply tinv_step; eauto]. exists Idle. cbn. split; auto. split; auto. exists 0%nat. reflexivity.
Qed.

Lemma threads_one s : treach 1 s -> exists n x, t_threads s = repeat TDone n ++ x /\ (x = [] \/ exists y, x = [y]).
Proof.
  assert (D : forall n, t_threads s = repeat TDone n -> exists n x, t_threads s = repeat TDone n ++ x /\ (x = [] \/ exists y, x = [y])).
  { intros n E. exists n, []. rewrite app_nil_r. split; [exact E | left; reflexivity]. }
  assert (L : forall n x, t_threads s = repeat TDone n ++ [x] -> exists n x, t_threads s = repeat TDone n ++ x /\ (x = [] \/ exists y, x = [y])).
  { intros n x E. exists n, [x]. split; [exact E | right; exists x; reflexivity]. }
  intros R. destruct (tinv_reach s R) as (pc & _ & J). destruct pc.
  - destruct J as (_ & B). destruct (t_flag s); [destruct B as (t & x & _ & B & _); exact (L _ _ B) | destruct B as (n & B); exact (D _ B)].
  - destruct J as (_ & _ & n & B). exact (D _ B).
  - destruct J as (_ & _ & _ & B). exact (L _ _ B).
  - destruct J as (_ & _ & t' & _ & B). exact (L _ _ B).
  - destruct J as (_ & _ & t & x & _ & B & _). exact (L _ _ B).
  - destruct J as (_ & _ & n & B). exact (D _ B).
Qed.
Lemma alive_unique s i j : treach 1 s -> alive s i -> alive s j -> i = j.
Proof.
  intros R (x & Hx & Nx) (y & Hy & Ny). destruct (threads_one s R) as (n & l & E & [-> | (z & ->)]); rewrite E in *.
  - rewrite app_nil_r in Hx. exfalso. eapply done_states; eauto.
  - destruct (nth_last_thread _ _ _ _ Hx) as [C | (-> & _)]; [contradiction|]. destruct (nth_last_thread _ _ _ _ Hy) as [C | (-> & _)]; [contradiction|]. reflexivity.
Qed.
Lemma stopped_dead s : treach 1 s -> t_callers s = [Idle] -> t_flag s = false ->
  t_saves s = t_stops s /\ (forall i, ~ alive s i) /\
  forall s', tstep s s' -> s' = s \/ (t_callers s' = [Start1] /\ t_frames s' = t_frames s /\ t_saves s' = t_saves s).
Proof.
  intros R Ec F. destruct (tinv_reach s R) as (pc & Ec' & J). rewrite Ec in Ec'. injection Ec' as <-. destruct J as (A & B). rewrite F in B. destruct B as (n & B).
  assert (D : forall i, ~ alive s i). { intros i (x & Hx & Nx). rewrite B in Hx. eapply done_states; eauto. }
  split; auto. split; auto. intros s' St.
  inversion St; subst; auto; try (destruct (one_caller _ _ _ _ Ec H) as (-> & C); try discriminate C); try congruence;
    try (exfalso; apply (D i); eexists; split; [eassumption | discriminate]).
  right. cbn. unfold with_caller. rewrite Ec. auto.
Qed.
Lemma saves_stops s : treach 1 s -> t_callers s = [Idle] -> t_saves s = t_stops s.
Proof.
  intros R Ec. destruct (tinv_reach s R) as (pc & Ec' & J). rewrite Ec in Ec'. injection Ec' as <-. apply J.
Qed.
Lemma work_app a b : fold_right (fun t n => (work t + n)%nat) 0%nat (a ++ b) = (fold_right (fun t n => (work t + n)%nat) 0%nat a + fold_right (fun t n => (work t + n)%nat) 0%nat b)%nat.
Proof. induction a; cbn; lia. Qed.
Lemma work_done n : fold_right (fun t n => (work t + n)%nat) 0%nat (repeat TDone n) = 0%nat.
Proof. induction n; cbn; auto. Qed.
(** stop returns: while joining, the loop thread can always move and has at most two moves left *)
Lemma stop_terminates s : treach 1 s -> t_callers s = [Stop1] ->
  (total_work s <= 2)%nat /\ (exists s', tstep s s') /\
  forall s', tstep s s' -> (t_callers s' = [Stop1] /\ (total_work s' < total_work s)%nat) \/ (t_callers s' = [Stop2] /\ forall i, ~ alive s' i).
Proof.
  intros R Ec. destruct (tinv_reach s R) as (pc & Ec' & J). rewrite Ec in Ec'. injection Ec' as <-.
  destruct J as (A & F & t & x & At & Th & Nx).
  assert (W : forall y, fold_right (fun t n => (work t + n)%nat) 0%nat (repeat TDone t ++ [y]) = work y) by (intros; rewrite work_app, work_done; cbn; lia).
  assert (TW : total_work s = work x) by (unfold total_work; rewrite Th; apply W).
  assert (Lt : nth_error (t_threads s) t = Some x).
  { rewrite Th, nth_error_app2 by (rewrite repeat_length; lia). rewrite repeat_length, Nat.sub_diag. reflexivity. }
  assert (C0 : nth_error (t_callers s) 0 = Some Stop1) by (rewrite Ec; reflexivity).
  split; [rewrite TW; destruct x; cbn; try lia; congruence|]. split.
  - destruct x; [congruence | | |].
    + eexists. eapply loop_exit; eauto.
    + eexists. eapply frame_done; eauto.
    + eexists. eapply stop_join; eauto.
  - intros s' St. unfold total_work in *. 
    inversion St; subst; try (destruct (one_caller _ _ _ _ Ec H) as (-> & C); try discriminate C); try congruence.
    + right. cbn. unfold with_caller. rewrite Ec. split; [reflexivity|]. intros i (y & Hy & Ny). cbn in Hy.
      rewrite At in H0. injection H0 as <-. rewrite Lt in H1. injection H1 as ->. rewrite Th in Hy. rewrite repeat_done_snoc in Hy. eapply done_states; eauto.
    + left. cbn. split; auto. unfold with_thread. rewrite Th in H |- *. destruct (nth_last_thread _ _ _ _ H) as [C | (-> & <-)]; [discriminate C|].
      rewrite upd_last, !W. cbn. lia.
    + left. cbn. split; auto. unfold with_thread. rewrite Th in H |- *. destruct (nth_last_thread _ _ _ _ H) as [C | (-> & <-)]; [discriminate C|].
      rewrite upd_last, !W. cbn. lia.
    + left. cbn. split; auto. unfold with_thread. rewrite Th in H |- *. destruct (nth_last_thread _ _ _ _ H) as [C | (-> & <-)]; [discriminate C|].
      rewrite upd_last, !W. cbn. lia.
Qed.
(** a loop that died of an exception is not started again *)
Lemma dead_stays s : t_callers s = [Idle] -> t_flag s = true -> (forall i, ~ alive s i) ->
  forall s', tstep s s' -> s' = s \/ t_callers s' = [Stop1].
Proof.
  intros Ec F D s' St.
  inversion St; subst; auto; try (destruct (one_caller _ _ _ _ Ec H) as (-> & C); try discriminate C); try congruence;
    try (exfalso; apply (D i); eexists; split; [eassumption | discriminate]).
  right. cbn. unfold with_caller. rewrite Ec. reflexivity.
Qed.

(** * Reset *)
Lemma zeros_zero v : all_zero (zeros v).
Proof. unfold all_zero, zeros. apply Forall_forall. intros x H. apply in_map_iff in H as (y & <- & _). reflexivity. Qed.
Lemma zeros_len v : length (zeros v) = length v.
Proof. apply map_length. Qed.
Lemma reset_mirrors_ok : forall l, Forall (fun m => m <> None) l ->
  exists l', reset_mirrors l = Ok l' /\ length l' = length l /\ Forall (fun m => exists v, m = Some v /\ all_zero v) l'.
Proof.
  induction l as [|m l IH]; intros H; [exists []; repeat split; constructor|]. inversion H; subst. destruct m as [v|]; [|congruence].
  destruct (IH H3) as (l' & E & L & F). exists (Some (zeros v) :: l'). cbn. rewrite E. cbn. rewrite L. repeat split. constructor; auto. exists (zeros v). split; auto. apply zeros_zero.
Qed.
Lemma reset_mirrors_err : forall l, In None l -> reset_mirrors l = Err AttributeError.
Proof.
  induction l as [|m l IH]; intros H; [destruct H|]. destruct m as [v|]; [|reflexivity]. destruct H as [H|H]; [discriminate|]. cbn. rewrite (IH H). reflexivity.
Qed.

(** * Mask *)
Lemma has_shape_iff m n : has_shape m n = true <-> nrow m = n /\ ncol m = n.
Proof. unfold has_shape. rewrite andb_true_iff, !Z.eqb_eq. tauto. Qed.
Lemma has_shape_false m n : has_shape m n = false <-> ~ (nrow m = n /\ ncol m = n).
Proof. rewrite <- has_shape_iff. destruct (has_shape m n); split; intros; congruence. Qed.

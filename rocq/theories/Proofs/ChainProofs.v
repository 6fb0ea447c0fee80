(** Proofs about a loop made of mirrors, lines of sight and sensors. *)
From Verif.Base Require Import Vec PyFacts.
From Verif.Model Require Import Recon Numerics Dm Los Delay Loop.
From Verif.Spec Require Import ReconSpec LoopSpec DmSpec LosSpec.
From Verif.Proofs Require Import ReconProofs DmProofs LosProofs LoopScalar LoopProofs LoopConv.
From Verif.Model Require Import Chain.
From Verif.Spec Require Import ChainSpec.
Local Open Scope Z_scope.

(** ** Arrays as vectors *)
Lemma flat_length n a : length (flat n a) = Z.to_nat (n * n).
Proof. unfold flat. rewrite map_length, seq_length. reflexivity. Qed.
Lemma nth_flat n a i j : 0 <= i < n -> 0 <= j < n -> nth (Z.to_nat (i * n + j)) (flat n a) 0%Qc = at2 a i j.
Proof.
  intros Hi Hj. unfold flat.
  assert (B : (Z.to_nat (i * n + j) < Z.to_nat (n * n))%nat) by nia.
  set (f := fun k => at2 a (Z.of_nat k / n) (Z.of_nat k mod n)).
  rewrite (nth_indep _ 0%Qc (f 0%nat)) by (rewrite map_length, seq_length; exact B).
  rewrite map_nth, seq_nth by exact B. unfold f. rewrite Nat.add_0_l, Z2Nat.id by nia.
  rewrite Z.add_comm, Z.div_add, Z.mod_add by lia. rewrite Z.div_small, Z.mod_small by lia. f_equal.
Qed.
Lemma flat_at n k : (k < Z.to_nat (n * n))%nat -> 0 < n -> 0 <= Z.of_nat k / n < n /\ 0 <= Z.of_nat k mod n < n.
Proof.
  intros Hk Hn. split; [split; [apply Z.div_pos; lia|apply Z.div_lt_upper_bound; lia]|apply Z.mod_pos_bound; lia].
Qed.
Lemma flat_ext n a b : 0 <= n -> (forall i j, 0 <= i < n -> 0 <= j < n -> at2 a i j = at2 b i j) -> flat n a = flat n b.
Proof.
  intros Hn H. unfold flat. apply map_ext_in. intros k Hk. apply in_seq in Hk.
  assert (0 < n) by (destruct (Z.eq_dec n 0); [subst; cbn in Hk; lia|lia]).
  destruct (flat_at n k ltac:(lia) ltac:(auto)). apply H; auto.
Qed.
Lemma axpy_map {A} a (f h : A -> Qc) l : axpy a (map f l) (map h l) = map (fun x => a * f x + h x)%Qc l.
Proof. induction l as [|x l IH]; [reflexivity|]. cbn [map]. rewrite axpy_cons, IH. reflexivity. Qed.
Lemma flat_axpy n al a b c : 0 <= n -> (forall i j, 0 <= i < n -> 0 <= j < n -> at2 c i j = (al * at2 a i j + at2 b i j)%Qc) ->
  flat n c = axpy al (flat n a) (flat n b).
Proof.
  intros Hn H. rewrite (flat_ext n c (mkArr n n (fun i j => al * at2 a i j + at2 b i j)%Qc)) by (auto; intros; apply H; auto).
  unfold flat. rewrite axpy_map. reflexivity.
Qed.
Lemma unflat_axpy n al u v i j : length u = length v -> at2 (unflat n (axpy al u v)) i j = (al * at2 (unflat n u) i j + at2 (unflat n v) i j)%Qc.
Proof. intros E. unfold unflat. cbn [at2]. apply elem_axpy. exact E. Qed.
Lemma unflat_zero n k i j : at2 (unflat n (vzero k)) i j = 0%Qc.
Proof. unfold unflat. cbn [at2]. apply elem_vzero. Qed.
Lemma unflat_flat n a i j : 0 <= i < n -> 0 <= j < n -> at2 (unflat n (flat n a)) i j = at2 a i j.
Proof. intros. unfold unflat. cbn [at2]. apply nth_flat; auto. Qed.

(** ** Mirrors *)
Definition put (m N : Z) (v : vec) : arr Qc := centred m N (fun i j => at2 (unflat m v) i j - average m (at2 (unflat m v)))%Qc.
Lemma fit_put N m v : 0 <= m -> 0 <= N -> Z.even (m - N) = true ->
  exists r, fit_screen N (arr_zero N) (remove_piston (unflat m v)) = Ok r /\ flat N r = flat N (put m N v) /\ arr_eq r (put m N v).
Proof.
  intros Hm HN HE. destruct (fit_screen_ok m N (arr_zero N) (remove_piston (unflat m v)) Hm HN HE eq_refl eq_refl (arr_zero_inv m N)) as (r & R1 & R2 & _).
  exists r. split; [exact R1|]. split; [|exact R2]. apply flat_ext; auto. intros i j Hi Hj. apply (arr_eq_at _ _ i j R2); auto.
Qed.
Lemma mirror_fit_put N sizes k v : 0 <= N -> (forall k, 0 <= nth k sizes N /\ Z.even (nth k sizes N - N) = true) ->
  mirror_fit N sizes k v = flat N (put (nth k sizes N) N v).
Proof.
  intros HN H. destruct (H k) as [H1 H2]. unfold mirror_fit. destruct (fit_put N _ v H1 HN H2) as (r & -> & E & _). exact E.
Qed.
Lemma put_axpy m N al u v i j : length u = length v -> at2 (put m N (axpy al u v)) i j = (al * at2 (put m N u) i j + at2 (put m N v) i j)%Qc.
Proof.
  intros E. unfold put, centred. cbn [at2]. destruct (_ && _)%bool; [|ring]. rewrite unflat_axpy by auto.
  rewrite (average_ext m (at2 (unflat m (axpy al u v))) (fun i j => al * at2 (unflat m u) i j + 1 * at2 (unflat m v) i j)%Qc)
    by (intros; rewrite unflat_axpy by auto; ring).
  rewrite average_linear. ring.
Qed.
Lemma put_zero m N k i j : at2 (put m N (vzero k)) i j = 0%Qc.
Proof.
  unfold put, centred. cbn [at2]. destruct (_ && _)%bool; [|reflexivity]. rewrite unflat_zero.
  rewrite (average_ext m (at2 (unflat m (vzero k))) (fun i j => 0 * 0 + 0 * 0)%Qc) by (intros; rewrite unflat_zero; ring).
  rewrite average_linear. ring.
Qed.
Lemma fit_linear N sizes npix : 0 <= N -> (forall k, 0 <= nth k sizes N /\ Z.even (nth k sizes N - N) = true) ->
  linear_fit npix (Z.to_nat (N * N)) (mirror_fit N sizes).
Proof.
  intros HN H k. split; [|split].
  - intros v _. rewrite mirror_fit_put by auto. apply flat_length.
  - intros n. rewrite mirror_fit_put by auto. rewrite (flat_ext N _ (mkArr N N (fun _ _ => 0%Qc))) by (auto; intros; apply put_zero).
    unfold flat, vzero. cbn [at2]. rewrite <- (seq_length (Z.to_nat (N * N)) 0) at 2. generalize (seq 0 (Z.to_nat (N * N))). intros l. induction l as [|x l IH]; [reflexivity|]. cbn [map length repeat]. f_equal. exact IH.
  - intros a u v Hu Hv. rewrite !mirror_fit_put by auto. apply flat_axpy; auto. intros. apply put_axpy. congruence.
Qed.

(** ** Lines of sight *)
Lemma mapM_ok {A B} (f : A -> result B) (h : A -> B) l : (forall x, In x l -> f x = Ok (h x)) -> mapM f l = Ok (map h l).
Proof.
  induction l as [|x l IH]; intros H; [reflexivity|]. cbn [mapM map]. rewrite (H x (or_introl eq_refl)). cbn [bind].
  rewrite IH by (intros; apply H; right; auto). reflexivity.
Qed.
Definition seen_sum (g : geom) (l : list (arr Qc)) (alts : list Qc) (k : nat) : Qc :=
  stack_sum g (Z.of_nat k / g_nout g) (Z.of_nat k mod g_nout g) l alts.
Definition pixels (g : geom) : list nat := seq 0 (Z.to_nat (g_nout g * g_nout g)).
Lemma unflat_screens N s : screens_ok N (map (unflat N) s).
Proof. apply Forall_forall. intros a Ha. apply in_map_iff in Ha. destruct Ha as (v & <- & _). split; reflexivity. Qed.
Lemma view_ok N ndm g sc corr : 2 <= N -> geom_ok N ndm g -> screens_ok N (scr_of g sc) -> (length (scr_of g sc) <= length (g_alts g))%nat ->
  screens_ok N corr -> length corr = ndm ->
  view g sc corr = Ok (map (fun k => g_rad g * (seen_sum g (scr_of g sc) (g_alts g) k - seen_sum g corr (g_dmalts g) k))%Qc (pixels g)).
Proof.
  intros HN (G1 & G2 & G3) HS HL HC HL'. unfold view. apply mapM_ok. intros k _.
  destruct (frame_general g (Z.of_nat k / g_nout g) (Z.of_nat k mod g_nout g) sc (Some corr) (px_init g)) as (s' & E & P & _).
  - lia.
  - exact G2.
  - constructor.
  - rewrite G1; exact HS.
  - exact HL.
  - rewrite G1; exact HC.
  - cbn [corr_of]. lia.
  - rewrite E. cbn [bind]. cbn [corr_of] in P. cbv zeta in P. rewrite P. reflexivity.
Qed.
Lemma between_axpy N al u v x y : length u = length v ->
  between_pixels (unflat N (axpy al u v)) x y = (al * between_pixels (unflat N u) x y + between_pixels (unflat N v) x y)%Qc.
Proof. intros E. unfold between_pixels. rewrite !unflat_axpy by auto. ring. Qed.
Lemma seen_axpy N P g al s t alts k : Forall (fun v => length v = P) s -> Forall (fun v => length v = P) t -> length s = length t ->
  seen_sum g (map (unflat N) (stack_axpy al s t)) alts k = (al * seen_sum g (map (unflat N) s) alts k + seen_sum g (map (unflat N) t) alts k)%Qc.
Proof.
  unfold seen_sum, stack_sum, stack_axpy. revert t alts. induction s as [|u s IH]; intros [|v t] alts Hs Ht E; try discriminate.
  - cbn. ring.
  - destruct alts as [|h alts]; [cbn; ring|]. inversion Hs; subst. inversion Ht; subst.
    cbn [combine map lsum fold_right fst snd]. rewrite between_axpy by congruence.
    specialize (IH t alts H2 ltac:(auto) ltac:(cbn in E; lia)). unfold lsum in IH. rewrite IH. ring.
Qed.
Lemma between_zero a x y : (forall i j, at2 a i j = 0%Qc) -> between_pixels a x y = 0%Qc.
Proof. intros H. unfold between_pixels. rewrite !H. ring. Qed.
Lemma seen_zeros g l alts k : Forall (fun a => forall i j, at2 a i j = 0%Qc) l -> seen_sum g l alts k = 0%Qc.
Proof.
  unfold seen_sum, stack_sum. revert alts. induction l as [|a l IH]; intros [|h alts] H; try reflexivity.
  inversion H; subst. cbn [combine map lsum fold_right fst snd]. rewrite between_zero by auto. unfold lsum in IH. rewrite IH by auto. ring.
Qed.
Lemma Forall_repeat {A} (P : A -> Prop) x n : P x -> Forall P (repeat x n).
Proof. intros H. apply Forall_forall. intros y Hy. apply repeat_spec in Hy. subst. exact H. Qed.

(** ** Sensors *)
Section Chain.
  Variable N : Z.
  Variables npix nmeas : nat.
  Variable ms : list mirror.
  Variable ws : list sensor.
  Hypothesis HN : 2 <= N.
  Hypothesis HM : Forall (mirror_ok N npix) ms.
  Hypothesis HW : Forall (sensor_ok N (length ms)) ws.
  Let np := Z.to_nat (N * N).
  Let nd := length ms.
  Let sizes := map m_size ms.

  Lemma sizes_ok k : 0 <= nth k sizes N /\ Z.even (nth k sizes N - N) = true.
  Proof.
    destruct (nth_in_or_default k sizes N) as [H| ->].
    - unfold sizes in *. apply in_map_iff in H. destruct H as (m & E & Hm). rewrite Forall_forall in HM. destruct (HM m Hm) as (A & B & _). rewrite <- E. split; auto; lia.
    - rewrite Z.sub_diag. split; [lia|reflexivity].
  Qed.
  Lemma none_ok g : geom_ok N nd g -> screens_ok N (scr_of g None) /\ (length (scr_of g None) <= length (g_alts g))%nat.
  Proof. intros (G & _). cbn [scr_of]. rewrite G, repeat_length. split; [apply Forall_repeat; split; reflexivity|lia]. Qed.
  Definition phase_of (g : geom) (sc : option (list (arr Qc))) (s : list vec) : vec :=
    map (fun k => g_rad g * (seen_sum g (scr_of g sc) (g_alts g) k - seen_sum g (map (unflat N) s) (g_dmalts g) k))%Qc (pixels g).
  Lemma frame_phase w sc s : sensor_ok N nd w -> stack_ok nd np s -> (match sc with Some l => turbulence_ok N l (s_geom w) | None => True end) ->
    sensor_frame N sc w s = s_slopes w (phase_of (s_geom w) sc s).
  Proof.
    intros (G & _) (S1 & S2) T. unfold sensor_frame. rewrite (view_ok N nd); auto.
    - destruct sc; [apply T|apply (none_ok _ G)].
    - destruct sc; [apply T|apply (none_ok _ G)].
    - apply unflat_screens.
    - rewrite map_length. exact S1.
  Qed.
  Lemma phase_length g sc s : length (phase_of g sc s) = Z.to_nat (g_nout g * g_nout g).
  Proof. unfold phase_of, pixels. rewrite map_length, seq_length. reflexivity. Qed.
  Lemma none_seen g alts k : seen_sum g (scr_of g None) alts k = 0%Qc.
  Proof. apply seen_zeros. cbn [scr_of]. apply Forall_repeat. reflexivity. Qed.
  Lemma phase_axpy g al s t : stack_ok nd np s -> stack_ok nd np t ->
    phase_of g None (stack_axpy al s t) = axpy al (phase_of g None s) (phase_of g None t).
  Proof.
    intros (S1 & S2) (T1 & T2). unfold phase_of. rewrite axpy_map. apply map_ext. intros k.
    rewrite (none_seen g (g_alts g) k). rewrite (seen_axpy N np); [ring|exact S2|exact T2|exact (eq_trans S1 (eq_sym T1))].
  Qed.
  Lemma stack_axpy_ok al s t : stack_ok nd np s -> stack_ok nd np t -> stack_ok nd np (stack_axpy al s t).
  Proof.
    intros (S1 & S2) (T1 & T2). unfold stack_axpy. split; [rewrite map_length, combine_length; lia|].
    apply Forall_forall. intros v Hv. apply in_map_iff in Hv. destruct Hv as ((a & b) & <- & Hab). cbn [fst snd].
    rewrite Forall_forall in S2, T2. rewrite axpy_length; [apply T2; eapply in_combine_r; eauto|].
    rewrite (S2 a), (T2 b); auto; [eapply in_combine_r|eapply in_combine_l]; eauto.
  Qed.
  Lemma sensor_linear w : sensor_ok N nd w -> linear_sensor nd np (sensor_frame N None w).
  Proof.
    intros H. pose proof H as (G & (q & Q) & L). split.
    - exists q. intros s Hs. rewrite (frame_phase w None s H Hs I). apply Q, phase_length.
    - intros a s t Hs Ht. rewrite !frame_phase; auto; [|apply stack_axpy_ok; auto].
      rewrite phase_axpy by auto. apply L; apply phase_length.
  Qed.
  Let wfss := map (sensor_frame N None) ws.
  Let zstack := repeat (vzero np) nd.
  Lemma zstack_fine : stack_ok nd np zstack.
  Proof. split; [apply repeat_length|apply Forall_repeat, vzero_length]. Qed.
  Lemma slopes_const s : stack_ok nd np s -> length (all_slopes wfss s) = length (all_slopes wfss zstack).
  Proof.
    intros Hs. unfold all_slopes, wfss. pose proof HW as K. revert K. generalize ws as l. intros l K. induction K as [|w l Hw _ IH]; [reflexivity|].
    cbn [map concat]. rewrite !app_length, IH. f_equal.
    destruct (sensor_linear w Hw) as ((q & Q) & _). rewrite !Q; auto. apply zstack_fine.
  Qed.
  Lemma split_frame w scr s : sensor_ok N nd w -> turbulence_ok N scr (s_geom w) -> stack_ok nd np s ->
    sensor_frame N (Some scr) w s = vadd (sensor_frame N (Some scr) w zstack) (sensor_frame N None w s) /\
    length (sensor_frame N (Some scr) w zstack) = length (sensor_frame N None w s).
  Proof.
    intros H T Hs. pose proof H as (G & (q & Q) & L). rewrite !frame_phase; auto using zstack_fine. split.
    - rewrite <- (vscale_1 (s_slopes w (phase_of (s_geom w) (Some scr) zstack))). fold (axpy 1 (s_slopes w (phase_of (s_geom w) (Some scr) zstack)) (s_slopes w (phase_of (s_geom w) None s))).
      rewrite <- L by apply phase_length. f_equal. unfold phase_of. rewrite axpy_map. apply map_ext. intros k. rewrite none_seen.
      rewrite (seen_zeros _ (map (unflat N) zstack)); [ring|]. unfold zstack. apply Forall_forall. intros a Ha. apply in_map_iff in Ha.
      destruct Ha as (v & <- & Hv). apply repeat_spec in Hv. subst v. intros. apply unflat_zero.
    - rewrite !Q; auto; apply phase_length.
  Qed.
  Lemma read_split scr s : Forall (fun w => turbulence_ok N scr (s_geom w)) ws -> stack_ok nd np s ->
    read_sensors N ws scr s = with_turbulence wfss (read_sensors N ws scr zstack) s /\ length (read_sensors N ws scr zstack) = length (all_slopes wfss s).
  Proof.
    intros T Hs. unfold read_sensors, with_turbulence, all_slopes, wfss. rewrite map_map. pose proof HW as K. revert K T. generalize ws as l. intros l K.
    induction K as [|w l Hw _ IH]; intros T; [split; reflexivity|]. inversion T as [|? ? T1 T2]; subst. cbn [map concat].
    destruct (split_frame w scr s Hw T1 Hs) as [E1 E2]. destruct (IH T2) as [E3 E4]. split.
    - rewrite E1, E3. unfold vadd. clear - E2. revert E2. generalize (sensor_frame N (Some scr) w zstack), (sensor_frame N None w s).
      intros u v E. symmetry. revert v E. induction u as [|x u IH]; intros [|y v] E; try discriminate; [reflexivity|].
      cbn [app vmap2]. f_equal. apply IH. cbn in E. lia.
    - rewrite !app_length, E2, E4. reflexivity.
  Qed.

  (** ** The system *)
  Variables (ds : list dm) (imat ctrl : mat).
  Hypothesis HC : calibrated_chain N npix nmeas ms ws ds imat ctrl.
  Notation fit := (mirror_fit N sizes).
  Let total := total_acts (nvalids ds).
  Lemma chain_system : calibrated_system fit npix np nmeas wfss (map (mirror_dm npix) ms) ds imat ctrl.
  Proof.
    destruct HC as (C1 & C2 & C3 & C4 & C5). constructor; auto.
    - apply Forall_forall. intros d Hd. apply in_map_iff in Hd. destruct Hd as (m & <- & Hm). rewrite Forall_forall in HM.
      destruct (HM m Hm) as (A & _ & _ & _ & B). unfold mirror_dm, new_dm, fresh, dm_shaped. cbn [shapes n_acts]. split; [|reflexivity].
      apply Forall_forall. intros v Hv. apply in_map_iff in Hv. destruct Hv as (a & <- & _). unfold padded.
      rewrite app_length, flat_length, vzero_length. lia.
    - apply fit_linear; [lia|exact sizes_ok].
    - rewrite map_length. unfold wfss. apply Forall_forall. intros f Hf. apply in_map_iff in Hf. destruct Hf as (w & <- & Hw).
      apply sensor_linear. rewrite Forall_forall in HW. apply HW. exact Hw.
    - rewrite map_length. intros s Hs. rewrite slopes_const by exact Hs. rewrite <- C3. unfold all_slopes, wfss, zstack, np, nd, flat_mirrors. rewrite map_map. reflexivity.
  Qed.
  Definition base (scr : list (arr Qc)) : vec := read_sensors N ws scr zstack.
  Notation lit scr := (Forall (fun w => turbulence_ok N scr (s_geom w)) ws).
  Lemma base_length scr : lit scr -> length (base scr) = nmeas.
  Proof.
    intros T. destruct (read_split scr zstack T zstack_fine) as [_ E]. unfold base. rewrite E.
    destruct chain_system as [_ _ _ _ _ H _ _]. apply H. rewrite map_length. apply zstack_fine.
  Qed.
  Lemma run_same dl frames : forall L, LoopProofs.loop_inv np nmeas ds dl L -> Forall (fun scr => lit scr) frames ->
    loop_run fit ds nmeas total ctrl (Z.of_nat dl) L (map (read_sensors N ws) frames)
    = loop_run fit ds nmeas total ctrl (Z.of_nat dl) L (map (with_turbulence wfss) (map base frames)).
  Proof.
    induction frames as [|scr frames IH]; intros L HI HF; [reflexivity|]. inversion HF as [|? ? F1 F2]; subst.
    cbn [map loop_run].
    assert (Hs1 : forall s, stack_ok (length (map (mirror_dm npix) ms)) np s -> length (read_sensors N ws scr s) = nmeas).
    { intros s Hs. rewrite map_length in Hs. destruct (read_split scr s F1 Hs) as [E E2]. rewrite E. unfold with_turbulence. fold (base scr) in *.
      rewrite vadd_length by exact E2. apply base_length; auto. }
    assert (Hs2 : forall s, stack_ok (length (map (mirror_dm npix) ms)) np s -> length (with_turbulence wfss (base scr) s) = nmeas).
    { intros s Hs. rewrite map_length in Hs. destruct (read_split scr s F1 Hs) as [E E2]. fold (base scr) in *. unfold with_turbulence.
      rewrite vadd_length by exact E2. apply base_length; auto. }
    destruct (LoopProofs.loop_frame_ok _ _ _ _ _ _ _ _ _ chain_system dl L _ HI Hs1) as (b1 & c1 & cc1 & D1 & D2 & D3 & D4).
    destruct (LoopProofs.loop_frame_ok _ _ _ _ _ _ _ _ _ chain_system dl L _ HI Hs2) as (b2 & c2 & cc2 & G1 & G2 & G3 & G4).
    assert (E : read_sensors N ws scr (LoopProofs.surfaces fit npix np closed 0 0 ds c1) = with_turbulence wfss (base scr) (LoopProofs.surfaces fit npix np closed 0 0 ds c1)).
    { apply read_split; auto. destruct (LoopProofs.sys_facts _ _ _ _ _ _ _ _ _ chain_system) as (Hl & _ & HG).
      pose proof (LoopProofs.surfaces_stack _ _ _ _ _ _ _ _ _ chain_system closed ds 0 0 c1 HG) as K. rewrite Hl, map_length in K. exact K. }
    assert (EF : loop_frame fit ds nmeas total ctrl (Z.of_nat dl) L (read_sensors N ws scr) = loop_frame fit ds nmeas total ctrl (Z.of_nat dl) L (with_turbulence wfss (base scr))).
    { assert (c1 = c2) by congruence. subst c2. unfold total in *. clear - D1 D3 G1 G3 E.
      unfold loop_frame in *. destruct (reconstruct _ _ _ _ _ _) as [a|e]; [|discriminate]. cbn [bind] in *.
      destruct (delay zero_like_vec (l_buf L) a (Z.of_nat dl)) as [b [c|e]]; cbn [bind] in *; [|discriminate].
      destruct (loop_corr _ _ _) as [[[x1 x2] x3]|e]; cbn [bind fst snd] in *; [|discriminate].
      injection D3. intros. subst. injection G3. intros. f_equal. congruence. }
    rewrite EF. unfold total at 1 3. rewrite G3. cbn [bind fst snd]. rewrite (IH _ G4 F2). reflexivity.
  Qed.
  Lemma chain_is_system dl frames : Forall (fun scr => lit scr) frames ->
    chain_run N ms ds ws nmeas ctrl dl frames = system_run fit np nmeas wfss ds ctrl dl (map base frames).
  Proof.
    intros HF. unfold chain_run, system_run. change (map m_size ms) with sizes. change (Z.to_nat (N * N)) with np. change (total_acts (nvalids ds)) with total.
    rewrite run_same; auto.
    - destruct (loop_run _ _ _ _ _ _ _ _) as [[L outs]|e]; reflexivity.
    - apply (LoopProofs.init_inv). 
  Qed.
  Lemma from_mirror x d : belongs ds x d -> exists m, In m ms /\ gain d = m_gain m /\ closed d = m_closed m.
  Proof.
    intros (i & o & n & B1 & _). pose proof chain_system as [HF HI _ _ _ _ _ _]. unfold make_imat in HI.
    destruct (make_imat_from fit np wfss (length (map (mirror_dm npix) ms)) 0 (map (mirror_dm npix) ms)) as [ds1 [Ms|e]] eqn:Em; simpl in HI; [|discriminate].
    injection HI as E0 _. rewrite E0 in *. clear E0 ds1.
    destruct (make_imat_from_ok fit np wfss npix _ _ _ _ _ HF Em) as (L1 & _ & H).
    assert (Hi : (i < length (map (mirror_dm npix) ms))%nat) by (rewrite <- L1; apply nth_error_Some; congruence).
    destruct (nth_error (map (mirror_dm npix) ms) i) as [d0|] eqn:Ed; [|apply nth_error_None in Ed; lia].
    destruct (H i d0 Ed) as (d2 & M & E2 & _ & (flags & _ & _ & _ & _ & _ & C1 & C2 & _)). assert (d2 = d) by congruence. subst d2.
    rewrite nth_error_map in Ed. destruct (nth_error ms i) as [m|] eqn:Emi; [|discriminate]. injection Ed as <-.
    exists m. split; [eapply nth_error_In; eauto|]. split; [exact C2|exact C1].
  Qed.
  (** ** Static turbulence *)
  Notation surf c := (LoopProofs.surfaces fit npix np (fun _ => true) 0 0 ds c).
  Lemma facts : length ds = nd /\ length imat = total /\ Forall (LoopProofs.good npix) ds /\ length ctrl = total.
  Proof.
    destruct (LoopProofs.sys_facts _ _ _ _ _ _ _ _ _ chain_system) as (A & B & C). rewrite map_length in A. repeat split; auto.
    destruct HC as (_ & _ & _ & E & _). exact (eq_trans E B).
  Qed.
  Lemma surf_ok c : stack_ok nd np (surf c).
  Proof.
    destruct facts as (A & _ & C & _). pose proof (LoopProofs.surfaces_stack _ _ _ _ _ _ _ _ _ chain_system (fun _ => true) ds 0 0 c C) as K.
    rewrite A in K. exact K.
  Qed.
  Lemma run_surf c : length c = total -> run_dms fit ds c = Ok (surf c).
  Proof.
    intros Hc. destruct facts as (_ & _ & C & _). unfold run_dms. apply (LoopProofs.run_dms_surfaces _ _ _ _ _ _ _ _ _ chain_system); auto.
    rewrite Hc. unfold total. lia.
  Qed.
  Lemma surf_axpy a u v : length u = length v -> surf (axpy a u v) = stack_axpy a (surf u) (surf v).
  Proof. intros E. apply (LoopProofs.surfaces_axpy _ _ _ _ _ _ _ _ _ chain_system); auto. apply facts. Qed.
  Lemma recon_unit_all y : (y < total)%nat -> mvm ctrl (all_slopes wfss (surf (unit_vec total y))) = vneg (unit_vec total y).
  Proof.
    intros Hy. destruct facts as (Hl & Hi & HG & HR). pose proof chain_system as [HF HI HL HT _ _ _ HV].
    destruct (calibration_matches_operation fit np wfss (fun k n => proj1 (proj2 (HT k)) n) npix _ ds imat HF HI HL) as [_ E2].
    destruct (nth_error imat y) as [row|] eqn:Er; [|apply nth_error_None in Er; lia].
    destruct (E2 y row Er) as (frames & R1 & R2 & R3). rewrite Hi in R1. rewrite run_surf in R1 by apply unit_vec_length.
    injection R1 as R1. rewrite R1. unfold wfs_row in R3. rewrite LoopProofs.concat_vneg in R3. pose proof (HV y row Er) as V. rewrite Hi in V.
    rewrite <- V, R3. unfold all_slopes. remember (concat (map (fun w => w frames) wfss)) as S0.
    rewrite (vneg_scale S0), mvm_scale, vneg_scale, vscale_scale.
    replace (-(1) * -(1))%Qc with 1%Qc by ring. rewrite vscale_1. reflexivity.
  Qed.
  Lemma recon_all c : length c = total -> mvm ctrl (all_slopes wfss (surf c)) = vneg c.
  Proof.
    intros Hc. destruct facts as (Hl & Hi & HG & HR).
    apply (nth_ext _ _ 0%Qc 0%Qc); [rewrite mvm_length; unfold vneg; rewrite map_length; congruence|].
    intros x _. change (elem (mvm ctrl (all_slopes wfss (surf c))) x = elem (vneg c) x). rewrite elem_vneg.
    apply (linear_ext total (fun c => elem (mvm ctrl (all_slopes wfss (surf c))) x) (fun c => - elem c x)%Qc); auto.
    - intros a u v Hu Hv. rewrite surf_axpy by congruence.
      pose proof (LoopProofs.slopes_axpy _ _ _ _ _ _ _ _ _ chain_system a (surf u) (surf v)) as K. rewrite map_length in K.
      rewrite K by apply surf_ok. rewrite mvm_axpy.
      + apply elem_axpy. rewrite !mvm_length. reflexivity.
      + destruct chain_system as [_ _ _ _ _ H _ _]. rewrite !H; auto; rewrite map_length; apply surf_ok.
    - intros a u v Hu Hv. rewrite elem_axpy by congruence. ring.
    - intros y Hy. rewrite recon_unit_all by exact Hy. rewrite elem_vneg. reflexivity.
  Qed.
  Lemma view_phase g scr s : geom_ok N nd g -> turbulence_ok N scr g -> stack_ok nd np s ->
    view g (Some scr) (map (unflat N) s) = Ok (phase_of g (Some scr) s).
  Proof.
    intros G T (S1 & S2). rewrite (view_ok N nd); auto; try apply T; [apply unflat_screens|rewrite map_length; exact S1].
  Qed.
  Lemma zeros_vzero p : Forall (fun x => x = 0%Qc) p -> p = vzero (length p).
  Proof. induction 1 as [|x p -> _ IH]; [reflexivity|]. cbn [length]. unfold vzero. cbn [repeat]. f_equal. exact IH. Qed.
  Lemma slopes_dark w p : sensor_ok N nd w -> length p = Z.to_nat (g_nout (s_geom w) * g_nout (s_geom w)) ->
    Forall (fun x => x = 0%Qc) p -> Forall (fun x => x = 0%Qc) (s_slopes w p).
  Proof.
    intros (_ & (q & Q) & L) Hp Z. apply zeros_vzero in Z. assert (E : p = axpy (-(1)) p p).
    { rewrite Z at 1. symmetry. apply axpy_self. }
    rewrite E, (L (-(1))%Qc p p Hp Hp), axpy_self. apply Forall_repeat. reflexivity.
  Qed.
  Variables (scr : list (arr Qc)) (t : vec).
  Hypothesis HL : lit scr.
  Hypothesis Ht : length t = total.
  Hypothesis HD : Forall (fun w => no_phase (view (s_geom w) (Some scr) (map (unflat N) (surf t)))) ws.
  Lemma asks : mvm ctrl (base scr) = t.
  Proof.
    destruct (read_split scr (surf t) HL (surf_ok t)) as [E1 E2]. fold (base scr) in E1, E2.
    assert (Z : Forall (fun x => x = 0%Qc) (read_sensors N ws scr (surf t))).
    { unfold read_sensors. pose proof (surf_ok t) as S0. revert HD S0. generalize (surf t) as s. intros s K2 S0. pose proof HW as K. pose proof HL as K3.
      revert K K2 K3. clear E1 E2. generalize ws as l. intros l K. induction K as [|w l Hw _ IH]; intros K2 K3; [constructor|].
      inversion K2 as [|? ? D1 D2]; subst. inversion K3 as [|? ? T1 T2]; subst.
      cbn [map concat]. apply Forall_app. split; [|apply IH; auto].
      destruct D1 as (p & V & P). pose proof Hw as (G & _). unfold sensor_frame. rewrite V. apply slopes_dark; auto.
      rewrite (view_phase _ _ _ G T1 S0) in V. injection V as <-. apply phase_length. }
    assert (EB : base scr = vscale (-(1)) (all_slopes wfss (surf t))).
    { rewrite E1 in Z. unfold with_turbulence in Z. revert Z E2. generalize (base scr), (all_slopes wfss (surf t)). clear.
      intros u. induction u as [|x u IH]; intros [|y v] Z E; try discriminate; [reflexivity|].
      cbn in Z. inversion Z as [|? ? Z1 Z2]; subst. unfold vscale. cbn [map]. f_equal; [|apply IH; auto].
      replace x with (x + y - y)%Qc by ring. change (x + y = 0)%Qc in Z1. rewrite Z1. ring. }
    rewrite EB, mvm_scale, recon_all by exact Ht. rewrite (vneg_scale t), vscale_scale. replace (-(1) * -(1))%Qc with 1%Qc by ring. apply vscale_1.
  Qed.
  Lemma bases_repeat F : map base (repeat scr F) = repeat (base scr) F.
  Proof. induction F as [|F IH]; [reflexivity|]. cbn [repeat map]. f_equal. exact IH. Qed.
  Lemma lit_repeat F : Forall (fun s => lit s) (repeat scr F).
  Proof. apply Forall_repeat. exact HL. Qed.
  Lemma outs_science dl frames outs : Forall (fun s => lit s) frames -> chain_run N ms ds ws nmeas ctrl dl frames = Ok outs ->
    Forall (fun o => length (applied o) = total /\ science o = surf (applied o)) outs.
  Proof.
    intros HF HR. rewrite chain_is_system in HR by exact HF. unfold system_run in HR.
    assert (HSs : Forall (fun f : list vec -> vec => forall s, stack_ok (length (map (mirror_dm npix) ms)) np s -> length (f s) = nmeas) (map (with_turbulence wfss) (map base frames))).
    { apply Forall_forall. intros f Hf. apply in_map_iff in Hf. destruct Hf as (b & <- & Hb). intros s Hs. apply in_map_iff in Hb. destruct Hb as (sc & <- & Hsc).
      rewrite Forall_forall in HF. specialize (HF sc Hsc). rewrite map_length in Hs. destruct (read_split sc s HF Hs) as [_ E]. fold (base sc) in E.
      unfold with_turbulence. rewrite vadd_length by exact E. apply base_length. exact HF. }
    destruct (LoopProofs.loop_run_ok _ _ _ _ _ _ _ _ _ chain_system dl _ _ (LoopProofs.init_inv np nmeas ds dl) HSs) as (L' & outs' & As & R1 & _ & _ & _ & _ & _ & R7 & _).
    change (loop_run fit ds nmeas (total_acts (nvalids ds)) ctrl (Z.of_nat dl) (loop_init (length ds) np nmeas) (map (with_turbulence wfss) (map base frames)) = Ok (L', outs')) in R1.
    rewrite R1 in HR. injection HR as <-. exact R7.
  Qed.
  (** the phase of the mirrors' commands [c] *)
  Variable g : geom.
  Hypothesis HG : geom_ok N nd g.
  Hypothesis HT : turbulence_ok N scr g.
  Hypothesis HK : no_phase (view g (Some scr) (map (unflat N) (surf t))).
  Definition left (c : vec) (k : nat) : Qc := (g_rad g * seen_sum g (map (unflat N) (surf c)) (g_dmalts g) k)%Qc.
  Lemma left_axpy a u v k : length u = total -> length v = total -> left (axpy a u v) k = (a * left u k + left v k)%Qc.
  Proof.
    intros Hu Hv. unfold left. rewrite surf_axpy by exact (eq_trans Hu (eq_sym Hv)). destruct (surf_ok u) as [U1 U2]. destruct (surf_ok v) as [V1 V2].
    rewrite (seen_axpy N np); [ring|exact U2|exact V2|exact (eq_trans U1 (eq_sym V1))].
  Qed.
  Lemma view_left c : length c = total -> view g (Some scr) (map (unflat N) (surf c)) = Ok (map (fun k => left t k - left c k)%Qc (pixels g)).
  Proof.
    intros Hc. rewrite (view_phase g scr _ HG HT (surf_ok c)). f_equal. unfold phase_of. apply map_ext_in. intros k Hk.
    destruct HK as (p & V & P). rewrite (view_phase g scr _ HG HT (surf_ok t)) in V. injection V as V. rewrite <- V in P.
    unfold phase_of in P. rewrite Forall_forall in P.
    specialize (P _ (in_map (fun k => (g_rad g * (seen_sum g (scr_of g (Some scr)) (g_alts g) k - seen_sum g (map (unflat N) (surf t)) (g_dmalts g) k))%Qc) _ k Hk)). cbv beta in P.
    unfold left. transitivity ((g_rad g * (seen_sum g (scr_of g (Some scr)) (g_alts g) k - seen_sum g (map (unflat N) (surf t)) (g_dmalts g) k)) +
      (g_rad g * seen_sum g (map (unflat N) (surf t)) (g_dmalts g) k - g_rad g * seen_sum g (map (unflat N) (surf c)) (g_dmalts g) k))%Qc; [ring|rewrite P; ring].
  Qed.
  Lemma zero_surf : surf (vzero total) = zstack.
  Proof.
    unfold zstack. apply nth_error_ext. intros i. destruct facts as (Hl & _ & HGd & _). destruct (nth_error ds i) as [d|] eqn:Ed.
    - rewrite (LoopProofs.surfaces_nth fit npix np ds (fun _ => true) ds 0 0 (vzero total) i d Ed). rewrite nth_error_repeat by (rewrite <- Hl; apply nth_error_Some; congruence). f_equal.
      assert (E : forall o n, exists m, seg o n (vzero total) = vzero m).
      { intros o n. unfold seg, vzero. exists (Nat.min n (total - o)). clear. revert n o. induction total as [|T IH]; intros n o.
        - cbn. rewrite skipn_nil, firstn_nil, Nat.min_0_r. reflexivity.
        - destruct o as [|o]; [|apply IH]. destruct n as [|n]; [reflexivity|]. cbn [repeat skipn firstn]. specialize (IH n 0%nat). cbn [skipn] in IH. rewrite IH, !Nat.sub_0_r. reflexivity. }
      destruct (E (0 + fold_left Nat.add (firstn i (nvalids ds)) 0%nat)%nat (nv d)) as [m ->]. unfold sframe.
      rewrite Forall_forall in HGd. destruct (HGd d (nth_error_In _ _ Ed)) as (S1 & _).
      assert (EL : lincomb npix (vzero m) (shapes d) = vzero npix).
      { unfold dm_shaped in S1. clear - S1. revert m. induction S1 as [|s sh Hs _ IH]; intros [|m]; try reflexivity.
        change (vadd (vscale 0 s) (lincomb npix (vzero m) sh) = vzero npix). rewrite IH.
        replace (vscale 0 s) with (vzero npix); [apply vadd_0_l, vzero_length|]. rewrite <- Hs. clear. induction s as [|x s IH]; [reflexivity|].
        unfold vzero, vscale. cbn [length repeat map]. f_equal; [ring|exact IH]. }
      rewrite EL. destruct chain_system as [_ _ _ HF _ _ _ _]. apply HF.
    - apply nth_error_None in Ed. rewrite !(proj2 (nth_error_None _ _)); auto; rewrite ?LoopProofs.surfaces_length, ?repeat_length; lia.
  Qed.
  Lemma left_zero k : left (vzero total) k = 0%Qc.
  Proof.
    unfold left. rewrite zero_surf, seen_zeros; [ring|]. unfold zstack. apply Forall_forall. intros a Ha. apply in_map_iff in Ha.
    destruct Ha as (v & <- & Hv). apply repeat_spec in Hv. subst v. intros. apply unflat_zero.
  Qed.
  Lemma static_residual gn F n o outs : Forall (fun m => m_gain m = gn) ms ->
    chain_run N ms ds ws nmeas ctrl 0 (repeat scr F) = Ok outs -> nth_error outs n = Some o ->
    exists p0, view g (Some scr) (map (unflat N) zstack) = Ok p0 /\
      view g (Some scr) (map (unflat N) (science o)) = Ok (vscale ((1 - gn) ^ n) p0).
  Proof.
    intros Hg HR Ho. pose proof (outs_science 0 _ outs (lit_repeat F) HR) as HO. rewrite Forall_forall in HO. destruct (HO o (nth_error_In _ _ Ho)) as [O1 O2].
    exists (map (fun k => left t k - left (vzero total) k)%Qc (pixels g)). split; [rewrite <- zero_surf; apply view_left, vzero_length|].
    rewrite O2, view_left by exact O1. f_equal. unfold vscale. rewrite map_map. apply map_ext. intros k. rewrite left_zero.
    rewrite chain_is_system in HR by apply lit_repeat. rewrite bases_repeat in HR.
    assert (Hn : (n < F)%nat).
    { destruct (system_law _ _ _ _ _ _ _ _ _ chain_system 0 (repeat (base scr) F)) as (outs' & R1 & R2 & _).
      - apply Forall_repeat. apply base_length, HL.
      - assert (outs' = outs) by congruence. subst outs'. rewrite repeat_length in R2. rewrite <- R2. apply nth_error_Some. congruence. }
    assert (E : applied o = axpy (- (1 - gn) ^ n)%Qc t t).
    { apply (nth_ext _ _ 0%Qc 0%Qc); [rewrite axpy_length by reflexivity; exact (eq_trans O1 (eq_sym Ht))|]. intros x Hx. rewrite O1 in Hx.
      change (elem (applied o) x = elem (axpy (- (1 - gn) ^ n)%Qc t t) x). rewrite elem_axpy by reflexivity.
      destruct (LoopProofs.belongs_exists _ _ _ _ _ _ _ _ _ chain_system x Hx) as [d Bd].
      pose proof (static_zero _ _ _ _ _ _ _ _ _ chain_system (base scr) F outs x d (base_length scr HL) HR Bd n Hn) as Z.
      unfold command in Z. destruct (from_mirror x d Bd) as (m & Hm & G1 & G2). rewrite Forall_forall in Hg. rewrite Ho, asks, G1, (Hg m Hm) in Z. rewrite Z. ring. }
    rewrite E, left_axpy by exact Ht. ring.
  Qed.
  (** a bound for all of a finite list *)
  Lemma common_bound {A} (l : list A) (P : A -> nat -> Prop) : (forall a, In a l -> exists n0, forall n, (n0 <= n)%nat -> P a n) ->
    exists n0, forall a, In a l -> forall n, (n0 <= n)%nat -> P a n.
  Proof.
    induction l as [|a l IH]; intros H; [exists 0%nat; intros a []|]. destruct (H a (or_introl eq_refl)) as [n1 H1].
    destruct IH as [n2 H2]; [intros; apply H; right; auto|]. exists (Nat.max n1 n2). intros b [<-|Hb] n Hn; [apply H1|apply H2; auto]; lia.
  Qed.
  Lemma left_sum c k : length c = total -> left c k = lsum (map (fun x => elem c x * left (unit_vec total x) k)%Qc (seq 0 total)).
  Proof.
    intros Hc. apply (linear_ext total (fun c => left c k) (fun c => lsum (map (fun x => elem c x * left (unit_vec total x) k)%Qc (seq 0 total)))); auto.
    - intros a u v Hu Hv. apply left_axpy; auto.
    - intros a u v Hu Hv. generalize (seq 0 total) as l. intros l. induction l as [|x l IH]; [cbn; ring|].
      cbn [map lsum fold_right]. unfold lsum in IH. rewrite IH, elem_axpy by congruence. ring.
    - intros y Hy. assert (G : forall s m, (lsum (map (fun x => elem (unit_vec total y) x * left (unit_vec total x) k)%Qc (seq s m))
                              = if (s <=? y)%nat && (y <? s + m)%nat then left (unit_vec total y) k else 0)%Qc).
      { intros s m. revert s. induction m as [|m IH]; intros s.
        - cbn [seq map lsum fold_right]. destruct (Nat.leb_spec s y), (Nat.ltb_spec y (s + 0)); try reflexivity; lia.
        - cbn [seq map lsum fold_right]. unfold lsum in IH. rewrite IH, elem_unit by exact Hy.
          destruct (Nat.eqb_spec s y) as [->|Ne].
          + rewrite Nat.leb_refl. replace (S y <=? y)%nat with false by (symmetry; apply Nat.leb_gt; lia).
            replace (y <? y + S m)%nat with true by (symmetry; apply Nat.ltb_lt; lia). cbn [andb]. ring.
          + destruct (Nat.leb_spec (S s) y), (Nat.leb_spec s y), (Nat.ltb_spec y (S s + m)), (Nat.ltb_spec y (s + S m)); cbn [andb]; try lia; ring. }
      rewrite G. replace (y <? 0 + total)%nat with true by (symmetry; apply Nat.ltb_lt; exact Hy). reflexivity.
  Qed.
  Lemma lsum_bound e l : (0 <= e)%Qc -> Forall (fun x => qc_abs x <= e)%Qc l -> (qc_abs (lsum l) <= qz (Z.of_nat (length l)) * e)%Qc.
  Proof.
    intros He. induction 1 as [|x l Hx _ IH]; [change (qc_abs 0 <= qz 0 * e)%Qc; rewrite qz_0, qc_abs_pos by qclra; replace (0 * e)%Qc with 0%Qc by ring; qclra|]. cbn [lsum fold_right length]. fold (lsum l).
    rewrite Nat2Z.inj_succ. unfold Z.succ. rewrite qz_add. assert (qc_abs (x + lsum l) <= qc_abs x + qc_abs (lsum l))%Qc by (unfold qc_abs; repeat destruct (Qclt_le_dec _ _); qclra). change (qz 1) with 1%Qc.
    remember (qz (Z.of_nat (length l)) * e)%Qc as z. replace ((qz (Z.of_nat (length l)) + 1) * e)%Qc with (z + e)%Qc by (subst z; ring). qclra.
  Qed.
  Lemma pos_inv x : (0 < x)%Qc -> (0 < / x)%Qc /\ (x * / x = 1)%Qc.
  Proof.
    intros H. assert (Hn : x <> 0%Qc) by (intros E; rewrite E in H; revert H; qclra). pose proof (Qcmult_inv_r _ Hn) as Hi. split; [|exact Hi].
    destruct (Qclt_le_dec 0 (/ x)); auto. exfalso. qcnra.
  Qed.
  Lemma small_product e a : (0 < e)%Qc -> (0 <= a)%Qc -> exists e', (0 < e')%Qc /\ forall x, (0 <= x <= e' -> x * a <= e)%Qc.
  Proof.
    intros He Ha. destruct (pos_inv (a + 1)) as [H1 H2]; [qclra|]. exists (e * / (a + 1))%Qc. remember (/ (a + 1))%Qc as i. split; [qcnra|].
    intros x [X0 X]. assert (x * (a + 1) <= e * i * (a + 1))%Qc by qcnra. assert (E : (e * i * (a + 1) = e * ((a + 1) * i))%Qc) by ring. rewrite H2 in E. qcnra.
  Qed.
  Lemma static_settles dl e : Forall (settles dl) ms -> (0 < e)%Qc ->
    exists n0, forall F outs n o, chain_run N ms ds ws nmeas ctrl dl (repeat scr F) = Ok outs -> nth_error outs n = Some o -> (n0 <= n)%nat ->
      exists p, view g (Some scr) (map (unflat N) (science o)) = Ok p /\ Forall (fun x => qc_abs x <= e)%Qc p.
  Proof.
    intros Hg He.
    assert (C : exists n0, forall kx, In kx (list_prod (pixels g) (seq 0 total)) -> forall n, (n0 <= n)%nat ->
      forall F outs o, chain_run N ms ds ws nmeas ctrl dl (repeat scr F) = Ok outs -> nth_error outs n = Some o ->
        (qc_abs (elem t (snd kx) - elem (applied o) (snd kx)) * qc_abs (left (unit_vec total (snd kx)) (fst kx)) <= e * / (qz (Z.of_nat total) + 1))%Qc).
    { apply common_bound. intros (k & x) Hkx. cbn [fst snd]. apply in_prod_iff in Hkx. destruct Hkx as [_ Hx]. apply in_seq in Hx. cbn [Nat.add] in Hx.
      destruct (LoopProofs.belongs_exists _ _ _ _ _ _ _ _ _ chain_system x ltac:(unfold total in Hx; lia)) as [d Bd].
      destruct (small_product (e * / (qz (Z.of_nat total) + 1)) (qc_abs (left (unit_vec total x) k))) as (e' & E1 & E2).
      { assert (0 <= qz (Z.of_nat total))%Qc by (rewrite <- qz_0; apply qz_le; lia). destruct (pos_inv (qz (Z.of_nat total) + 1)%Qc) as [H1 _]; [qclra|]. qcnra. }
      { apply qc_abs_nonneg. }
      assert (K : exists n0, forall F outs n, system_run fit np nmeas wfss ds ctrl dl (repeat (base scr) F) = Ok outs -> (n0 <= n < F)%nat ->
        (qc_abs (elem (mvm ctrl (base scr)) x - command outs n x) <= e')%Qc).
      { destruct (from_mirror x d Bd) as (m & Hm & M1 & M2). rewrite Forall_forall in Hg. pose proof (Hg m Hm) as G. unfold settles in G. rewrite <- M1, <- M2 in G. destruct (closed d) eqn:Ec.
        - destruct G as (G1 & G2 & G3). apply (delayed_converges _ _ _ _ _ _ _ _ _ chain_system dl (base scr) x d e'); auto. apply base_length, HL.
        - destruct G as (G1 & G2). apply (delayed_open_converges _ _ _ _ _ _ _ _ _ chain_system dl (base scr) x d e'); auto. apply base_length, HL. }
      destruct K as [n0 K]. exists n0. intros n Hn F outs o HR Ho. rewrite chain_is_system in HR by apply lit_repeat. rewrite bases_repeat in HR.
      assert (HnF : (n < F)%nat).
      { destruct (system_law _ _ _ _ _ _ _ _ _ chain_system dl (repeat (base scr) F)) as (outs' & R1 & R2 & _).
        - apply Forall_repeat. apply base_length, HL.
        - assert (outs' = outs) by congruence. subst outs'. rewrite repeat_length in R2. rewrite <- R2. apply nth_error_Some. congruence. }
      specialize (K F outs n HR (conj Hn HnF)). unfold command in K. rewrite Ho, asks in K. apply E2. split; [apply qc_abs_nonneg|exact K]. }
    destruct C as [n0 C]. exists n0. intros F outs n o HR Ho Hn.
    pose proof (outs_science dl _ outs (lit_repeat F) HR) as HO. rewrite Forall_forall in HO. destruct (HO o (nth_error_In _ _ Ho)) as [O1 O2].
    exists (map (fun k => left t k - left (applied o) k)%Qc (pixels g)). split; [rewrite O2; apply view_left; exact O1|].
    apply Forall_forall. intros y Hy. apply in_map_iff in Hy. destruct Hy as (k & <- & Hk).
    assert (E : (left t k - left (applied o) k = left (axpy (-(1)) (applied o) t) k)%Qc) by (rewrite left_axpy by assumption; ring).
    rewrite E, left_sum by (rewrite axpy_length by exact (eq_trans O1 (eq_sym Ht)); exact Ht).
    assert (0 <= qz (Z.of_nat total))%Qc by (rewrite <- qz_0; apply qz_le; lia). destruct (pos_inv (qz (Z.of_nat total) + 1)%Qc) as [H1 H2]; [qclra|].
    remember (/ (qz (Z.of_nat total) + 1))%Qc as i.
    eapply Qcle_trans; [apply (lsum_bound (e * i))|].
    - qcnra.
    - apply Forall_forall. intros z Hz. apply in_map_iff in Hz. destruct Hz as (x & <- & Hx).
      specialize (C (k, x) ltac:(apply in_prod; auto) n Hn F outs o HR Ho). cbn [fst snd] in C.
      rewrite qc_abs_mul, elem_axpy by exact (eq_trans O1 (eq_sym Ht)).
      replace (-(1) * elem (applied o) x + elem t x)%Qc with (elem t x - elem (applied o) x)%Qc by ring. exact C.
    - rewrite map_length, seq_length. remember (qz (Z.of_nat total)) as q. assert (E3 : (q * (e * i) = e * ((q + 1) * i) - e * i)%Qc) by ring. rewrite E3, H2. qcnra.
  Qed.
End Chain.

(** ** The mirrors *)
Lemma lincomb_nth n cs sh k : Forall (fun v => length v = n) sh -> nth k (lincomb n cs sh) 0%Qc = lsum (map (fun p => fst p * nth k (snd p) 0)%Qc (combine cs sh)).
Proof.
  intros H. revert cs. induction H as [|s sh Hs H IH]; intros cs.
  - destruct cs; cbn; apply elem_vzero.
  - destruct cs as [|c cs]; [cbn; apply elem_vzero|].
    change (elem (vadd (vscale c s) (lincomb n cs sh)) k = (c * nth k s 0 + lsum (map (fun p => fst p * nth k (snd p) 0)%Qc (combine cs sh)))%Qc).
    rewrite elem_vadd by (rewrite vscale_length, lincomb_length; auto). rewrite elem_vscale. unfold elem. rewrite IH. reflexivity.
Qed.
Lemma padded_length npix m a : (Z.to_nat (m * m) <= npix)%nat -> length (padded npix m a) = npix.
Proof. intros H. unfold padded. rewrite app_length, flat_length, vzero_length. lia. Qed.
Lemma mirror_tie N npix sizes k m shs d cs : 0 <= N -> 0 < m -> nth k sizes N = m -> Z.even (m - N) = true -> square_shapes m shs -> shs <> [] ->
  (Z.to_nat (m * m) <= npix)%nat -> shapes d = map (padded npix m) shs -> length cs = length shs ->
  exists a, dm_frame2 N 0 shs (arr_zero N) cs = Ok a /\ dm_frame (mirror_fit N sizes) k d cs = Ok (flat N a).
Proof.
  intros HN Hm Hk HE HS Hne Hp Hd Hc. unfold dm_frame, dm_frame2. rewrite Hd.
  destruct shs as [|s0 shs]; [congruence|]. set (sh := s0 :: shs) in *.
  assert (E1 : make_surface sh cs = Ok (weighted m cs sh)).
  { unfold make_surface, sh. fold sh. rewrite Hc, Nat.eqb_refl. inversion HS as [|? ? [A _] _]; subst. rewrite A. reflexivity. }
  assert (E2 : make_dm_frame (map (padded npix m) sh) cs = Ok (lincomb npix cs (map (padded npix m) sh))).
  { unfold make_dm_frame, sh. cbn [map]. fold (map (padded npix m) sh). change (padded npix m s0 :: map (padded npix m) shs) with (map (padded npix m) sh).
    rewrite map_length, Hc, Nat.eqb_refl. rewrite padded_length by exact Hp. reflexivity. }
  rewrite E1, E2. cbn [bind]. unfold mirror_fit. rewrite Hk. set (u := lincomb npix cs (map (padded npix m) sh)).
  assert (EQ : forall i j, 0 <= i < m -> 0 <= j < m -> at2 (unflat m u) i j = at2 (weighted m cs sh) i j).
  { intros i j Hi Hj. unfold unflat, weighted. cbn [at2]. unfold u. rewrite lincomb_nth.
    - f_equal. clear - Hi Hj. revert cs. generalize sh as l. induction l as [|a l IH]; intros [|c cs]; try reflexivity. cbn [map combine fst snd]. f_equal; [|apply IH].
      f_equal. unfold padded. rewrite app_nth1 by (rewrite flat_length; nia). apply nth_flat; auto.
    - apply Forall_forall. intros v Hv. apply in_map_iff in Hv. destruct Hv as (a & <- & _). apply padded_length. exact Hp. }
  destruct (fit_screen_ok m N (arr_zero N) (remove_piston (weighted m cs sh)) ltac:(lia) HN HE eq_refl eq_refl (arr_zero_inv m N)) as (r1 & R1 & Q1 & _).
  destruct (fit_screen_ok m N (arr_zero N) (remove_piston (unflat m u)) ltac:(lia) HN HE eq_refl eq_refl (arr_zero_inv m N)) as (r2 & R2 & Q2 & _).
  exists r1. rewrite R1, R2. split; [reflexivity|]. f_equal. apply flat_ext; auto. intros i j Hi Hj.
  rewrite (arr_eq_at _ _ i j Q2), (arr_eq_at _ _ i j Q1) by auto.
  assert (EA : arr_mean (unflat m u) = arr_mean (weighted m cs sh)).
  { unfold arr_mean, arr_sum. cbn [nrow ncol unflat weighted]. f_equal. apply zsum_ext. intros x Hx. apply zsum_ext. intros y Hy. apply EQ; auto. }
  unfold centred. cbn [at2]. destruct (_ && _)%bool eqn:EB; [|reflexivity].
  unfold remove_piston. cbn [at2]. rewrite EA, EQ; [reflexivity| |]; repeat (apply Bool.andb_true_iff in EB; destruct EB as [EB ?]); lia.
Qed.

(** ** The theorems *)
Lemma chain_law N npix nmeas ms ws ds imat ctrl : 2 <= N -> Forall (mirror_ok N npix) ms -> Forall (sensor_ok N (length ms)) ws ->
  calibrated_chain N npix nmeas ms ws ds imat ctrl ->
  forall loop_delay frames, Forall (fun scr => Forall (fun w => turbulence_ok N scr (s_geom w)) ws) frames ->
  exists outs, chain_run N ms ds ws nmeas ctrl loop_delay frames = Ok outs /\ length outs = length frames /\
    (forall x d, belongs ds x d -> exists u : nat -> Qc, u 0%nat = 0%Qc /\
       forall n scr, nth_error frames n = Some scr ->
         let t := elem (mvm ctrl (read_sensors N ws scr (flat_mirrors N ms))) x in
         command outs n x = (if (n <? loop_delay)%nat then 0%Qc else u (n - loop_delay)%nat) /\
         u (S n) = (if closed d then u n + gain d * (t - command outs n x) else gain d * t + (1 - gain d) * u n)%Qc) /\
    (forall o, In o outs -> run_dms (mirror_fit N (map m_size ms)) ds (applied o) = Ok (science o)).
Proof.
  intros HN HM HW HC dl frames HF. pose proof (chain_system N npix nmeas ms ws HN HM HW ds imat ctrl HC) as HS.
  destruct (system_law _ _ _ _ _ _ _ _ _ HS dl (map (base N ms ws) frames)) as (outs & R1 & R2 & R3 & R4).
  { apply Forall_forall. intros b Hb. apply in_map_iff in Hb. destruct Hb as (scr & <- & Hs). rewrite Forall_forall in HF.
    apply (base_length N npix nmeas ms ws HN HM HW ds imat ctrl HC). apply HF. exact Hs. }
  rewrite map_length in R2. exists outs. rewrite (chain_is_system N npix nmeas ms ws HN HM HW ds imat ctrl HC) by exact HF.
  repeat split; auto. intros x d Bx. destruct (R3 x d Bx) as (u & U0 & U). exists u. split; [exact U0|]. intros n scr Hn. cbv zeta.
  apply (U n (base N ms ws scr)). rewrite nth_error_map, Hn. reflexivity.
Qed.
Lemma run_is_surf N npix nmeas ms ws ds imat ctrl : 2 <= N -> Forall (mirror_ok N npix) ms -> Forall (sensor_ok N (length ms)) ws ->
  calibrated_chain N npix nmeas ms ws ds imat ctrl -> forall t surf, length t = total_acts (nvalids ds) ->
  run_dms (mirror_fit N (map m_size ms)) ds t = Ok surf -> surf = LoopProofs.surfaces (mirror_fit N (map m_size ms)) npix (Z.to_nat (N * N)) (fun _ => true) 0 0 ds t.
Proof. intros HN HM HW HC t surf Ht HR. rewrite (run_surf N npix nmeas ms ws HN HM HW ds imat ctrl HC t Ht) in HR. injection HR as <-. reflexivity. Qed.
Lemma chain_residual N npix nmeas ms ws ds imat ctrl : 2 <= N -> Forall (mirror_ok N npix) ms -> Forall (sensor_ok N (length ms)) ws ->
  calibrated_chain N npix nmeas ms ws ds imat ctrl ->
  forall scr t surf, Forall (fun w => turbulence_ok N scr (s_geom w)) ws ->
  length t = total_acts (nvalids ds) -> run_dms (mirror_fit N (map m_size ms)) ds t = Ok surf ->
  Forall (fun w => no_phase (view (s_geom w) (Some scr) (map (unflat N) surf))) ws ->
  forall los, geom_ok N (length ms) los -> turbulence_ok N scr los -> no_phase (view los (Some scr) (map (unflat N) surf)) ->
  forall g F n o outs, Forall (fun m => m_gain m = g) ms ->
  chain_run N ms ds ws nmeas ctrl 0 (repeat scr F) = Ok outs -> nth_error outs n = Some o ->
  exists p0, view los (Some scr) (map (unflat N) (flat_mirrors N ms)) = Ok p0 /\
             view los (Some scr) (map (unflat N) (science o)) = Ok (vscale ((1 - g) ^ n)%Qc p0).
Proof.
  intros HN HM HW HC scr t surf HL Ht HR HD los HG HT HK. rewrite (run_is_surf N npix nmeas ms ws ds imat ctrl HN HM HW HC t surf Ht HR) in HD, HK.
  intros g F n o outs. apply (static_residual N npix nmeas ms ws HN HM HW ds imat ctrl HC scr t HL Ht HD los HG HT HK g F n o outs).
Qed.
Lemma chain_settles N npix nmeas ms ws ds imat ctrl : 2 <= N -> Forall (mirror_ok N npix) ms -> Forall (sensor_ok N (length ms)) ws ->
  calibrated_chain N npix nmeas ms ws ds imat ctrl ->
  forall scr t surf, Forall (fun w => turbulence_ok N scr (s_geom w)) ws ->
  length t = total_acts (nvalids ds) -> run_dms (mirror_fit N (map m_size ms)) ds t = Ok surf ->
  Forall (fun w => no_phase (view (s_geom w) (Some scr) (map (unflat N) surf))) ws ->
  forall los, geom_ok N (length ms) los -> turbulence_ok N scr los -> no_phase (view los (Some scr) (map (unflat N) surf)) ->
  forall loop_delay eps, Forall (settles loop_delay) ms -> (0 < eps)%Qc ->
  exists n0, forall F outs n o, chain_run N ms ds ws nmeas ctrl loop_delay (repeat scr F) = Ok outs -> nth_error outs n = Some o -> (n0 <= n)%nat ->
    exists p, view los (Some scr) (map (unflat N) (science o)) = Ok p /\ Forall (fun x => qc_abs x <= eps)%Qc p.
Proof.
  intros HN HM HW HC scr t surf HL Ht HR HD los HG HT HK. rewrite (run_is_surf N npix nmeas ms ws ds imat ctrl HN HM HW HC t surf Ht HR) in HD, HK.
  intros dl eps. apply (static_settles N npix nmeas ms ws HN HM HW ds imat ctrl HC scr t HL Ht HD los HG HT HK dl eps).
Qed.

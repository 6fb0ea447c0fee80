(** C55-C59, C88-...: main loop, records, background thread, reset, pupil mask, class loading. *)
From Verif.Base Require Import Vec.
From Verif.Model Require Import Sim.
From Verif.Spec Require Import SimSpec.
From Verif.Proofs Require Import SimProofs.
Open Scope Z_scope.

(** C55: if every frame succeeds, aoloop runs the frames still missing to nIters (none if there are none), then saves and reports once. *)
Theorem C55_partial :
  forall (save : Z -> result unit) (nIters it : Z) (frame : nat -> frame_end),
    (forall i, save i = Ok tt) ->
    ((forall j, (j < Z.to_nat (nIters - it))%nat -> frame j = FDone) ->
       aoloop save nIters it frame = mkOut (Z.max it nIters) (Z.to_nat (nIters - it)) [ASave; AReport] None) /\
    (forall k, (k < Z.to_nat (nIters - it))%nat -> (forall j, (j < k)%nat -> frame j = FDone) ->
       (frame k = FInterrupt -> aoloop save nIters it frame = mkOut (it + Z.of_nat k) k [ASave; AReport] None) /\
       (frame k = FDoneStop -> aoloop save nIters it frame = mkOut (it + Z.of_nat k + 1) (S k) [ASave; AReport] None)).
Proof.
  intros save nI it frame Hs. split.
  - intros H. rewrite ao_complete by auto. unfold save_and_report. rewrite Hs. reflexivity.
  - intros k Hk Hj. rewrite (ao_at save nI it frame k Hk Hj). split; intros ->; unfold save_and_report; rewrite Hs; reflexivity.
Qed.
Print Assumptions C55_partial.
Example C55_instance :
  aoloop (fun _ => Ok tt) 5 2 (fun _ => FDone) = mkOut 5 3 [ASave; AReport] None /\
  aoloop (fun _ => Ok tt) 5 7 (fun _ => FDone) = mkOut 7 0 [ASave; AReport] None /\
  aoloop (fun _ => Ok tt) 5 2 (fun k => if Nat.eqb k 1 then FInterrupt else FDone) = mkOut 3 1 [ASave; AReport] None.
Proof. repeat split; reflexivity. Qed.

(** C55 is false when a frame ends with any other exception: whatever was recorded so far is neither saved nor reported. *)
Theorem C55_exception_refuted :
  forall (save : Z -> result unit) (nIters it : Z) (frame : nat -> frame_end) (k : nat) (e : exn),
    (k < Z.to_nat (nIters - it))%nat -> (forall j, (j < k)%nat -> frame j = FDone) -> frame k = FRaise e ->
    aoloop save nIters it frame = mkOut (it + Z.of_nat k) k [] (Some e).
Proof. intros save nI it frame k e Hk Hj He. rewrite (ao_at save nI it frame k Hk Hj), He. reflexivity. Qed.
Print Assumptions C55_exception_refuted.
Example C55_exception_instance :
  aoloop (fun _ => Ok tt) 100 0 (fun k => if Nat.eqb k 99 then FRaise IndexError else FDone) = mkOut 99 99 [] (Some IndexError).
Proof. reflexivity. Qed.

(** C55: with saved sensor frames the data are saved if a file was written for every iteration; an interrupt in the first frame makes the
    save fail and nothing is reported. *)
Theorem C55_cube_partial :
  forall (files : list Z) (it : Z), 1 <= it -> (forall i, 0 <= i < it -> In i files) -> save_cube true files it = Ok tt.
Proof. exact save_cube_ok. Qed.
Print Assumptions C55_cube_partial.
Example C55_cube_instance : save_cube true [2; 1; 0] 3 = Ok tt.
Proof. reflexivity. Qed.
Theorem C55_interrupt_first_frame_refuted :
  forall (nIters : Z) (frame : nat -> frame_end), 0 < nIters -> frame O = FInterrupt ->
    aoloop (save_cube true []) nIters 0 frame = mkOut 0 0 [ASave] (Some OSError).
Proof. intros nI frame Hn Hf. rewrite (ao_at _ nI 0 frame O) by (try lia; intros; lia). rewrite Hf. reflexivity. Qed.
Print Assumptions C55_interrupt_first_frame_refuted.

(** C56: with fields not saved, commands of the width of the record, and (when sensor frames are saved) at most nIters frames and no left-over
    files, storing any sequence of frames never raises, and every enabled record holds the last nIters frames, each at frame number mod nIters. *)
Theorem C56_partial :
  forall (o : save_opts) (W : nat) (ef : bool) (N it : Z) (fs : list frame_data) (r : records),
    0 < N -> o_field o = false -> rec_len N r ->
    (o_cmds o = true -> Forall (fun f => length (f_cmds f) = W) fs) ->
    (o_frames o = true -> Z.of_nat (length fs) <= N /\ forall k, (k < length fs)%nat -> ~ In ((it + Z.of_nat k) mod N) (r_files r)) ->
    exists r', store_frames o W ef N it fs r = Ok r' /\
      (o_slopes o = true -> ring_ok N it (map f_slopes fs) (r_slopes r) (r_slopes r')) /\
      (o_cmds o = true -> ring_ok N it (map f_cmds fs) (r_cmds r) (r_cmds r')) /\
      ((0 < o_nsci o)%nat -> ring_ok N it (map f_inst fs) (r_inst r) (r_inst r') /\ ring_ok N it (map f_long fs) (r_long r) (r_long r') /\
                             ring_ok N it (map f_wfe fs) (r_wfe r) (r_wfe r')) /\
      ((0 < o_nsci o)%nat -> o_inst o = true -> ring_ok N it (map f_img fs) (r_imgs r) (r_imgs r')).
Proof.
  intros o W ef N it fs r HN Ho Hr Hc Hf. pose proof Hr as (L1 & L2 & L3 & L4 & L5 & L6).
  destruct (store_frames_ok o W ef N HN Ho fs it r Hr Hc (fun q => proj2 (Hf q)) (fun q => proj1 (Hf q))) as (r' & E & R).
  exists r'. split; [exact E|]. cbv zeta in R. destruct R as (R1 & R2 & R3 & R4 & R5 & R6).
  rewrite R1, R2, R3, R4, R5, R6.
  assert (S : (0 < o_nsci o)%nat -> (0 <? o_nsci o)%nat = true) by (intros; apply Nat.ltb_lt; auto).
  split; [intros; apply opt_run_ok; auto|]. split; [intros; apply opt_run_ok; auto|].
  split; [intros; split; [|split]; apply opt_run_ok; auto|]. intros q1 q2. apply opt_run_ok; auto. rewrite q2, (S q1). reflexivity.
Qed.
Print Assumptions C56_partial.
Definition frame_no (k : Z) : frame_data := mkFrame [qz k] [qz k; qz (- k)] (qz k) (qz k) (qz k) [qz k].
Example C56_instance :
  let o := mkOpts true true false true false 1 in
  exists r', store_frames o 2 false 3 0 (map frame_no [0; 1; 2; 3; 4]) (init_records 3 2 1 1) = Ok r' /\
             r_slopes r' = [[qz 3]; [qz 4]; [qz 2]] /\ r_cmds r' = [[qz 3; qz (-3)]; [qz 4; qz (-4)]; [qz 2; qz (-2)]] /\
             rec_len 3 (init_records 3 2 1 1).
Proof. eexists. split; [vm_compute; reflexivity|]. repeat split; reflexivity. Qed.

(** C56 is false with saveDmCommands when calibration dropped actuators: the record is allocated before, for all of them. *)
Theorem C56_commands_refuted :
  forall (o : save_opts) (W : nat) (ef : bool) (N it : Z) (f : frame_data) (r : records),
    o_cmds o = true -> length (f_cmds f) <> W -> length (f_cmds f) <> 1%nat -> forall r', store_data o W ef N it f r <> Ok r'.
Proof. intros o W ef N it f r Hc H1 H2 r' E. destruct (store_data_shape _ _ _ _ _ _ _ _ E) as (A & _). destruct (A Hc); contradiction. Qed.
Print Assumptions C56_commands_refuted.
Example C56_commands_instance :
  store_data (mkOpts false true false false false 0) 5 false 10 0 (frame_no 7) (init_records 10 5 1 1) = Err ValueError.
Proof. reflexivity. Qed.

(** C56 is false with saveWfsFrames for more than nIters frames: the file of the oldest frame is not overwritten but an error. *)
Theorem C56_frames_refuted :
  forall (o : save_opts) (W : nat) (ef : bool) (N it : Z) (fs : list frame_data) (r : records),
    0 < N -> o_frames o = true -> N < Z.of_nat (length fs) -> forall r', store_frames o W ef N it fs r <> Ok r'.
Proof.
  intros o W ef N it fs r HN Ho Hl r' E. destruct (store_frames_files o W ef N fs it r r' Ho E) as (_ & _ & A).
  apply (A 0%nat (Z.to_nat N)); [lia|]. rewrite Z2Nat.id by lia. replace (it + N) with (it + 1 * N) by lia. rewrite Z.mod_add by lia. f_equal. lia.
Qed.
Print Assumptions C56_frames_refuted.
Example C56_frames_instance :
  store_frames (mkOpts false false true false false 0) 0 false 2 0 (map frame_no [0; 1; 2]) (init_records 2 0 1 1) = Err OSError.
Proof. reflexivity. Qed.

(** C56 is false with saveInstScieField: no camera has the field that is saved, and the index is not taken modulo nIters. *)
Theorem C56_field_refuted :
  forall (o : save_opts) (W : nat) (N it : Z) (f : frame_data) (r : records),
    o_field o = true -> (0 < o_nsci o)%nat ->
    (forall r', store_data o W false N it f r <> Ok r') /\ (N <= it -> forall r', store_data o W true N it f r <> Ok r').
Proof.
  intros o W N it f r Hf Hn. split; [intros r' E | intros Hi r' E]; destruct (store_data_shape _ _ _ _ _ _ _ _ E) as (_ & _ & _ & A); destruct (A Hn Hf); [discriminate | lia].
Qed.
Print Assumptions C56_field_refuted.
Example C56_field_instance :
  store_data (mkOpts false false false false true 1) 0 false 10 0 (frame_no 7) (init_records 10 0 1 1) = Err AttributeError.
Proof. reflexivity. Qed.

(** C57, one controlling thread: in every interleaving with the loop thread at most one loop thread is alive, so frames never overlap; whenever
    a call has returned the data have been saved once for each stop of a running loop; after stop returned no loop thread is left and no frame
    runs before start is called again; stop returns: while it waits, some step is possible and at most two steps are left. *)
Theorem C57_partial :
  forall s, treach 1 s ->
    (forall i j, alive s i -> alive s j -> i = j) /\
    (t_callers s = [Idle] -> t_saves s = t_stops s) /\
    (t_callers s = [Idle] -> t_flag s = false ->
       (forall i, ~ alive s i) /\
       forall s', tstep s s' -> s' = s \/ (t_callers s' = [Start1] /\ t_frames s' = t_frames s /\ t_saves s' = t_saves s)) /\
    (t_callers s = [Stop1] ->
       (total_work s <= 2)%nat /\ (exists s', tstep s s') /\
       forall s', tstep s s' -> (t_callers s' = [Stop1] /\ (total_work s' < total_work s)%nat) \/ (t_callers s' = [Stop2] /\ forall i, ~ alive s' i)).
Proof.
  intros s R. split; [intros i j; apply alive_unique; auto|]. split; [apply saves_stops; auto|].
  split; [intros A B; apply (stopped_dead s R A B) | apply stop_terminates; auto].
Qed.
Print Assumptions C57_partial.
Ltac run R st := let R' := fresh in pose proof (treach_step _ _ _ R st) as R'; clear R; rename R' into R; cbn in R.
(** start, two frames, a second start in between, stop *)
Example C57_instance : exists s, treach 1 s /\ t_callers s = [Idle] /\ t_flag s = false /\ t_frames s = 2%nat /\ t_saves s = 1%nat /\ t_threads s = [TDone].
Proof.
  pose proof (treach_init 1) as R. cbn in R.
  run R (start_test (t_init 1) 0 eq_refl eq_refl).
  run R (start_create (mkT false None [] [Start1] 0 0 0) 0 eq_refl).
  run R (start_flag (mkT false (Some 0%nat) [TNew] [Start2 0] 0 0 0) 0 0 eq_refl).
  run R (start_run (mkT true (Some 0%nat) [TNew] [Start3] 0 0 0) 0 0 eq_refl eq_refl eq_refl).
  run R (loop_enter (mkT true (Some 0%nat) [TTest] [Idle] 0 0 0) 0 eq_refl eq_refl).
  run R (start_busy (mkT true (Some 0%nat) [TFrame] [Idle] 1 0 0) 0 eq_refl eq_refl).
  run R (frame_done (mkT true (Some 0%nat) [TFrame] [Idle] 1 0 0) 0 eq_refl).
  run R (loop_enter (mkT true (Some 0%nat) [TTest] [Idle] 1 0 0) 0 eq_refl eq_refl).
  run R (stop_flag (mkT true (Some 0%nat) [TFrame] [Idle] 2 0 0) 0 eq_refl eq_refl).
  run R (frame_done (mkT false (Some 0%nat) [TFrame] [Stop1] 2 0 1) 0 eq_refl).
  run R (loop_exit (mkT false (Some 0%nat) [TTest] [Stop1] 2 0 1) 0 eq_refl eq_refl).
  run R (stop_join (mkT false (Some 0%nat) [TDone] [Stop1] 2 0 1) 0 0 eq_refl eq_refl eq_refl).
  run R (stop_save (mkT false (Some 0%nat) [TDone] [Stop2] 2 0 1) 0 eq_refl).
  eexists. split; [exact R|]. repeat split; reflexivity.
Qed.
(** C57 is false when two threads (say the GUI and a console) call start: both can find the loop not running, and two loop threads run frames
    at the same time. *)
Theorem C57_two_callers_refuted :
  exists s i j, treach 2 s /\ i <> j /\ in_frame s i /\ in_frame s j.
Proof.
  pose proof (treach_init 2) as R. cbn in R.
  run R (start_test (t_init 2) 0 eq_refl eq_refl).
  run R (start_test (mkT false None [] [Start1; Idle] 0 0 0) 1 eq_refl eq_refl).
  run R (start_create (mkT false None [] [Start1; Start1] 0 0 0) 0 eq_refl).
  run R (start_flag (mkT false (Some 0%nat) [TNew] [Start2 0; Start1] 0 0 0) 0 0 eq_refl).
  run R (start_run (mkT true (Some 0%nat) [TNew] [Start3; Start1] 0 0 0) 0 0 eq_refl eq_refl eq_refl).
  run R (start_create (mkT true (Some 0%nat) [TTest] [Idle; Start1] 0 0 0) 1 eq_refl).
  run R (start_flag (mkT true (Some 1%nat) [TTest; TNew] [Idle; Start2 1] 0 0 0) 1 1 eq_refl).
  run R (start_run (mkT true (Some 1%nat) [TTest; TNew] [Idle; Start3] 0 0 0) 1 1 eq_refl eq_refl eq_refl).
  run R (loop_enter (mkT true (Some 1%nat) [TTest; TTest] [Idle; Idle] 0 0 0) 0 eq_refl eq_refl).
  run R (loop_enter (mkT true (Some 1%nat) [TFrame; TTest] [Idle; Idle] 1 0 0) 1 eq_refl eq_refl).
  eexists _, 0%nat, 1%nat. split; [exact R|]. split; [discriminate|]. split; reflexivity.
Qed.
Print Assumptions C57_two_callers_refuted.

(** C58: after reset the iteration counter, slopes, commands, recorded slopes and commands, the integrator, the long-exposure Strehl record,
    the science images and the camera's accumulated images and the mirror shapes are zero, sizes and calibration data are kept - for every state
    in which every mirror has made a shape. *)
Theorem C58_partial :
  forall s, Forall (fun m => m <> None) (st_mirrors s) ->
    exists s', reset_loop s = Ok s' /\ st_iters s' = 0 /\
      all_zero (st_slopes s') /\ same_size (st_slopes s') (st_slopes s) /\ all_zero (st_cmds s') /\ same_size (st_cmds s') (st_cmds s) /\
      (forall l, st_all_slopes s = Some l -> exists l', st_all_slopes s' = Some l' /\ length l' = length l /\ Forall all_zero l') /\
      (forall l, st_all_cmds s = Some l -> exists l', st_all_cmds s' = Some l' /\ length l' = length l /\ Forall all_zero l') /\
      (forall a, st_acts s = Some a -> exists a', st_acts s' = Some a' /\ length a' = length a /\ all_zero a') /\
      length (st_images s') = length (st_images s) /\ Forall all_zero (st_images s') /\
      (st_images s <> [] -> all_zero (st_long s') /\ length (st_long s') = length (st_long s) /\
         Forall (fun c => all_zero (fst (fst c)) /\ snd (fst c) = 0%Qc /\ snd c = 0%Qc) (st_cam s')) /\
      length (st_mirrors s') = length (st_mirrors s) /\ Forall (fun m => exists v, m = Some v /\ all_zero v) (st_mirrors s') /\
      st_imat s' = st_imat s /\ st_cmat s' = st_cmat s.
Proof.
  intros s Hm. destruct (reset_mirrors_ok _ Hm) as (l' & E & L & F). unfold reset_loop. rewrite E. cbn [bind].
  eexists. split; [reflexivity|]. cbn [st_iters st_slopes st_cmds st_all_slopes st_all_cmds st_acts st_images st_long st_cam st_mirrors st_imat st_cmat].
  assert (M : forall l, Forall all_zero (map zeros l)) by (intros l; apply Forall_forall; intros x Hx; apply in_map_iff in Hx as (y & <- & _); apply zeros_zero).
  unfold same_size. rewrite !zeros_len, !map_length.
  split; [reflexivity|]. split; [apply zeros_zero|]. split; [reflexivity|]. split; [apply zeros_zero|]. split; [reflexivity|].
  split. { intros q Hq. rewrite Hq. exists (map zeros q). rewrite map_length. cbn. auto. }
  split. { intros q Hq. rewrite Hq. exists (map zeros q). rewrite map_length. cbn. auto. }
  split. { intros q Hq. rewrite Hq. exists (zeros q). rewrite zeros_len. cbn. split; [reflexivity|]. split; [reflexivity | apply zeros_zero]. }
  split; [reflexivity|]. split; [apply M|].
  split. { destruct (st_images s) as [|i im]; [congruence|]. intros _. rewrite zeros_len. split; [apply zeros_zero|]. split; [reflexivity|].
           apply Forall_forall. intros x Hx. apply in_map_iff in Hx as (y & <- & _). cbn. split; [apply zeros_zero | auto]. }
  split; [exact L|]. split; [exact F|]. split; reflexivity.
Qed.
Print Assumptions C58_partial.
Definition some_state : sim_state :=
  mkSt 7 [qz 1; qz 2] [qz 3] (Some [[qz 1; qz 2]]) None (Some [qz 3]) [qz 1; qz 2] [qz 3; qz 4] [qz 5; qz 6] [qz 9] [[qz 1]] [([qz 4], qz 1, qz 1)]
       [Some [qz 8]] [[qz 1]] [[qz 2]].
Example C58_instance : Forall (fun m => m <> None) (st_mirrors some_state) /\ st_iters some_state = 7 /\ st_images some_state <> [].
Proof. split; [repeat constructor; discriminate|]. split; [reflexivity | discriminate]. Qed.

(** C58 is false: the recorded instantaneous Strehls and wavefront errors are kept, and before the first frame reset raises. *)
Theorem C58_records_refuted :
  forall s s', reset_loop s = Ok s' -> st_inst s' = st_inst s /\ st_wfe s' = st_wfe s.
Proof. intros s s' H. unfold reset_loop in H. destruct (reset_mirrors (st_mirrors s)); [|discriminate]. cbn in H. injection H as <-. split; reflexivity. Qed.
Print Assumptions C58_records_refuted.
Example C58_records_instance : exists s', reset_loop some_state = Ok s' /\ st_inst s' = [qz 3; qz 4] /\ st_long s' = [0%Qc; 0%Qc].
Proof. eexists. split; [reflexivity|]. split; reflexivity. Qed.
Theorem C58_before_first_frame_refuted :
  forall s, In None (st_mirrors s) -> reset_loop s = Err AttributeError.
Proof. intros s H. unfold reset_loop. rewrite (reset_mirrors_err _ H). reflexivity. Qed.
Print Assumptions C58_before_first_frame_refuted.
Example C58_before_instance : reset_loop (mkSt 0 [] [] None None None [] [] [] [] [] [] [None; None] [] []) = Err AttributeError.
Proof. reflexivity. Qed.

(** C59: a mask array is accepted exactly if it has the pupil or the simulation size and then the result has the simulation size: unchanged, or
    the pupil-size mask in the middle with zeros around it. *)
Theorem C59_user_mask :
  forall (pupil pad : Z) (m : arr Qc), 0 <= pad ->
    (nrow m = pupil /\ ncol m = pupil ->
       exists p, user_mask pupil (pupil + 2 * pad) pad m = Ok p /\ nrow p = pupil + 2 * pad /\ ncol p = pupil + 2 * pad /\
         (forall i j, 0 <= i < pupil -> 0 <= j < pupil -> at2 p (i + pad) (j + pad) = at2 m i j) /\
         (forall i j, 0 < pad -> i < pad \/ pupil + pad <= i \/ j < pad \/ pupil + pad <= j -> at2 p i j = 0%Qc)) /\
    (nrow m = pupil + 2 * pad /\ ncol m = pupil + 2 * pad -> user_mask pupil (pupil + 2 * pad) pad m = Ok m) /\
    (~ (nrow m = pupil /\ ncol m = pupil) -> ~ (nrow m = pupil + 2 * pad /\ ncol m = pupil + 2 * pad) ->
       user_mask pupil (pupil + 2 * pad) pad m = Err ValueError).
Proof.
  intros pupil pad m Hp. split; [|split].
  - intros Hm. unfold user_mask. rewrite (proj2 (has_shape_iff m pupil) Hm). cbn [negb andb]. destruct Hm as (Hr & Hc).
    destruct (has_shape m (pupil + 2 * pad)) eqn:E.
    + apply has_shape_iff in E as (E1 & E2). assert (pad = 0) by lia. subst pad. exists m. split; [reflexivity|]. split; [lia|]. split; [lia|].
      split; [intros i j _ _; rewrite !Z.add_0_r; reflexivity | intros; lia].
    + exists (pad_mask pad m). split; [reflexivity|]. cbn [pad_mask nrow ncol at2]. split; [lia|]. split; [lia|]. split.
      * intros i j Hi Hj.
        replace (pad <=? i + pad) with true by (symmetry; apply Z.leb_le; lia). replace (i + pad <? nrow m + pad) with true by (symmetry; apply Z.ltb_lt; lia).
        replace (pad <=? j + pad) with true by (symmetry; apply Z.leb_le; lia). replace (j + pad <? ncol m + pad) with true by (symmetry; apply Z.ltb_lt; lia).
        cbn. replace (i + pad - pad) with i by lia. replace (j + pad - pad) with j by lia. reflexivity.
      * intros i j _ H. destruct (Z.leb_spec pad i), (Z.ltb_spec i (nrow m + pad)), (Z.leb_spec pad j), (Z.ltb_spec j (ncol m + pad)); cbn; try reflexivity; lia.
  - intros Hm. unfold user_mask. rewrite (proj2 (has_shape_iff m _) Hm). cbn [negb]. rewrite andb_false_r. reflexivity.
  - intros H1 H2. unfold user_mask. rewrite (proj2 (has_shape_false _ _) H1), (proj2 (has_shape_false _ _) H2). reflexivity.
Qed.
Print Assumptions C59_user_mask.
Example C59_instance :
  let m := mkArr 2 2 (fun i j => qz (1 + i + 2 * j)) in
  (exists p, user_mask 2 6 2 m = Ok p /\ map (fun i => at2 p i 2) [0; 1; 2; 3; 4; 5] = [0%Qc; 0%Qc; qz 1; qz 2; 0%Qc; 0%Qc]) /\
  user_mask 3 7 2 m = Err ValueError.
Proof. split; [eexists; split; reflexivity | reflexivity]. Qed.

(** C59: a mask file of any size gives a simulation-size mask, provided zoom delivers the size it is asked for. *)
Theorem C59_file_mask :
  forall (zoom : arr Qc -> Z -> arr Qc) (pupil pad : Z) (m : arr Qc), 0 <= pad ->
    (forall a n, nrow (zoom a n) = n /\ ncol (zoom a n) = n) ->
    exists p, file_mask zoom pupil (pupil + 2 * pad) pad m = Ok p /\ nrow p = pupil + 2 * pad /\ ncol p = pupil + 2 * pad.
Proof.
  intros zoom pupil pad m Hp Hz. unfold file_mask. destruct (has_shape m pupil) eqn:E.
  - apply has_shape_iff in E. destruct (proj1 (C59_user_mask pupil pad m Hp) E) as (p & A & B & C & _). eauto.
  - destruct (proj1 (C59_user_mask pupil pad (zoom m pupil) Hp) (Hz m pupil)) as (p & A & B & C & _). eauto.
Qed.
Print Assumptions C59_file_mask.
Example C59_file_instance :
  let zoom := fun (a : arr Qc) n => mkArr n n (fun i j => at2 a (i * nrow a / n) (j * ncol a / n)) in
  exists p, file_mask zoom 2 4 1 (mkArr 4 4 (fun i j => qz i)) = Ok p /\ map (fun i => at2 p i 1) [0; 1; 2; 3] = [0%Qc; qz 0; qz 2; 0%Qc].
Proof. eexists. split; reflexivity. Qed.

(** C88: the Strehl reported at the end is the one recorded by the last frame, for every number of frames. *)
Theorem C88_report_is_last :
  forall (N it : Z) (vs before : list Qc), 0 < N -> vs <> [] -> Z.of_nat (length before) = N ->
    forall after, ring_ok N it vs before after -> nth_error after (Z.to_nat (report_index N (it + Z.of_nat (length vs)))) = nth_error vs (length vs - 1).
Proof.
  intros N it vs before HN Hv Hb after (HL & H & _). rewrite report_last by auto.
  assert (L : (0 < length vs)%nat) by (destruct vs; [congruence | cbn; lia]).
  destruct (nth_error vs (length vs - 1)) as [v|] eqn:E; [|apply nth_error_None in E; lia].
  replace (it + Z.of_nat (length vs) - 1) with (it + Z.of_nat (length vs - 1)) by lia. apply H; [exact E | lia].
Qed.
Print Assumptions C88_report_is_last.
Example C88_instance : report_index 3 3 = 2 /\ report_index 3 5 = 1 /\ report_index 3 1 = 0.
Proof. repeat split; reflexivity. Qed.

(** C89 is false: once the loop thread has died from an exception in a frame, start does nothing; only stop can be called. *)
Theorem C89_restart_refuted :
  exists s, treach 1 s /\ t_callers s = [Idle] /\ t_flag s = true /\ (forall i, ~ alive s i) /\
            forall s', tstep s s' -> s' = s \/ t_callers s' = [Stop1].
Proof.
  pose proof (treach_init 1) as R. cbn in R.
  run R (start_test (t_init 1) 0 eq_refl eq_refl).
  run R (start_create (mkT false None [] [Start1] 0 0 0) 0 eq_refl).
  run R (start_flag (mkT false (Some 0%nat) [TNew] [Start2 0] 0 0 0) 0 0 eq_refl).
  run R (start_run (mkT true (Some 0%nat) [TNew] [Start3] 0 0 0) 0 0 eq_refl eq_refl eq_refl).
  run R (loop_enter (mkT true (Some 0%nat) [TTest] [Idle] 0 0 0) 0 eq_refl eq_refl).
  run R (frame_raises (mkT true (Some 0%nat) [TFrame] [Idle] 1 0 0) 0 eq_refl).
  assert (D : forall i, ~ alive (mkT true (Some 0%nat) [TDone] [Idle] 1 0 0) i).
  { intros i (t & Ht & N). destruct i as [|[|i]]; cbn in Ht; try discriminate. injection Ht as <-. congruence. }
  eexists. split; [exact R|]. split; [reflexivity|]. split; [reflexivity|]. split; [exact D|]. apply dead_stays; auto.
Qed.
Print Assumptions C89_restart_refuted.
Theorem C89_dead_loop_refuted :
  forall s, t_callers s = [Idle] -> t_flag s = true -> (forall i, ~ alive s i) -> forall s', tstep s s' -> s' = s \/ t_callers s' = [Stop1].
Proof. exact dead_stays. Qed.
Print Assumptions C89_dead_loop_refuted.
Example C89_instance : let s := mkT true (Some 0%nat) [TDone] [Idle] 1 0 0 in
  t_callers s = [Idle] /\ t_flag s = true /\ forall i, ~ alive s i.
Proof.
  repeat split. intros i (t & Ht & N). destruct i as [|[|i]]; cbn in Ht; try discriminate. injection Ht as <-. congruence.
Qed.

(** C90: with loadModule, mirror, reconstructor and camera classes come from the named module, or ConfigurationError if it lacks them; without it
    they come from the library. *)
Theorem C90_partial :
  forall (class_in : option nat -> nat -> bool) (c : component) (module : option nat) (cls : nat), c <> CWfs ->
    load_class class_in c module cls = if class_in module cls then Ok (module, cls) else Err ConfigurationError.
Proof. intros ci [| | |] m cls H; [congruence | reflexivity..]. Qed.
Print Assumptions C90_partial.
Example C90_instance : load_class (fun m n => Nat.eqb n 5) CDm (Some 1%nat) 5 = Ok (Some 1%nat, 5%nat).
Proof. reflexivity. Qed.
(** C90 is false for sensors: no module ever works. *)
Theorem C90_sensor_refuted :
  forall class_in module cls, load_class class_in CWfs (Some module) cls = Err ConfigurationError.
Proof. reflexivity. Qed.
Print Assumptions C90_sensor_refuted.

(** C91 is false: running again after a reset with saved sensor frames raises, since the files of the first run are still there. *)
Theorem C91_rerun_refuted :
  forall (o : save_opts) (W : nat) (ef : bool) (N : Z) (fs gs : list frame_data) (r r' : records),
    0 < N -> o_frames o = true -> fs <> [] -> gs <> [] -> store_frames o W ef N 0 fs r = Ok r' -> forall r'', store_frames o W ef N 0 gs r' <> Ok r''.
Proof.
  intros o W ef N fs gs r r' HN Ho Hf Hg E r'' E'.
  destruct (store_frames_files o W ef N fs 0 r r' Ho E) as (_ & A & _). destruct (store_frames_files o W ef N gs 0 r' r'' Ho E') as (_ & B & _).
  destruct (A 0%nat) as (_ & A2); [destruct fs; [congruence | cbn; lia]|]. destruct (B 0%nat) as (B1 & _); [destruct gs; [congruence | cbn; lia]|]. contradiction.
Qed.
Print Assumptions C91_rerun_refuted.
Example C91_instance : exists r', store_frames (mkOpts true false true false false 0) 0 false 4 0 (map frame_no [0; 1]) (init_records 4 0 1 1) = Ok r' /\ r_files r' = [1; 0].
Proof. eexists. split; [vm_compute; reflexivity | reflexivity]. Qed.

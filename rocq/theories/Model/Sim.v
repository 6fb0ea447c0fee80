(** The simulation object: main loop, records, background thread, reset, pupil mask. *)
From Verif.Base Require Import Vec.
Open Scope Z_scope.

(** ** Main loop *)
(** How one call of loopFrame ends: normally, normally with [go] cleared meanwhile (another thread), by Ctrl-C, or by another exception. *)
Inductive frame_end := FDone | FDoneStop | FInterrupt | FRaise (e : exn).
(** What aoloop did: frames completed, and the calls made after the loop. *)
Inductive action := ASave | AReport.
Record loop_out := mkOut { lo_iters : Z; lo_frames : nat; lo_acts : list action; lo_exn : option exn }.
(** soapy/simulation.py:677-698, 864-973  saveData then finishUp; [save] is the outcome of saveData *)
Definition save_and_report (save : Z -> result unit) (it : Z) (n : nat) : loop_out :=
  match save it with
  | Ok _ => mkOut it n [ASave; AReport] None
  | Err e => mkOut it n [ASave] (Some e)
  end.
(** soapy/simulation.py:582-603  aoloop; [fuel] bounds the remaining frames, [frame k] is the k-th call of loopFrame *)
Fixpoint ao_while (save : Z -> result unit) (nIters : Z) (frame : nat -> frame_end) (fuel : nat) (it : Z) (k : nat) : loop_out :=
  if it <? nIters then
    match fuel with
    | O => mkOut it k [] None
    | S f => match frame k with
             | FDone => ao_while save nIters frame f (it + 1) (S k)
             | FDoneStop => save_and_report save (it + 1) (S k)
             | FInterrupt => save_and_report save it k
             | FRaise e => mkOut it k [] (Some e)
             end
    end
  else save_and_report save it k.
Definition aoloop (save : Z -> result unit) (nIters it : Z) (frame : nat -> frame_end) : loop_out :=
  ao_while save nIters frame (Z.to_nat (nIters - it)) it 0.
(** soapy/simulation.py:949-965  saveData's part that can fail: the cube of sensor frames reads back one file per iteration;
    [files] are the indices of the frame files present *)
Definition save_cube (save_frames : bool) (files : list Z) (it : Z) : result unit :=
  if save_frames then
    if existsb (Z.eqb 0) files && forallb (fun i => existsb (Z.eqb (Z.of_nat i)) files) (seq 1 (Z.to_nat (it - 1)))
    then if it <? 1 then Err IndexError else Ok tt
    else Err OSError
  else Ok tt.
(** soapy/simulation.py:682, 686  index of the Strehl finishUp prints *)
Definition report_index (nIters it : Z) : Z := let j := it mod nIters - 1 in if j <? 0 then j + nIters else j.

(** ** Per-frame records *)
(** What is recorded of one frame. *)
Record frame_data := mkFrame { f_slopes : vec; f_cmds : vec; f_inst : Qc; f_long : Qc; f_wfe : Qc; f_img : vec }.
Record save_opts := mkOpts { o_slopes : bool; o_cmds : bool; o_frames : bool (* with a simName *); o_inst : bool; o_field : bool; o_nsci : nat }.
Record records := mkRec {
  r_slopes : list vec; r_cmds : list vec; r_inst : list Qc; r_long : list Qc; r_wfe : list Qc; r_imgs : list vec; r_files : list Z }.
Definition init_records (n W : nat) (nslopes : nat) (npix : nat) : records :=
  mkRec (repeat (repeat 0%Qc nslopes) n) (repeat (repeat 0%Qc W) n) (repeat 0%Qc n) (repeat 0%Qc n) (repeat 0%Qc n) (repeat (repeat 0%Qc npix) n) [].
(** [row[0:] = c] for a row of W entries: numpy broadcasts one value, otherwise the lengths must agree *)
Definition assign_row (W : nat) (c : vec) : result vec :=
  if (length c =? W)%nat then Ok c else if (length c =? 1)%nat then Ok (repeat (nth 0 c 0%Qc) W) else Err ValueError.
(** soapy/simulation.py:804-861  storeData for one science camera (the others are stored the same way); [W] is the width of the command
    record, allocated in initSaveData (763-771) before calibration.  No camera class has the attribute focalPlane_efield read in line 861.
    LGS images and residual phases are not modelled. *)
Definition store_data (o : save_opts) (W : nat) (has_efield : bool) (nIters it : Z) (f : frame_data) (r : records) : result records :=
  let i := it mod nIters in
  let* sl := (if o_slopes o then pyset (r_slopes r) i (f_slopes f) else Ok (r_slopes r)) in
  let* cm := (if o_cmds o then let* row := assign_row W (f_cmds f) in pyset (r_cmds r) i row else Ok (r_cmds r)) in
  let sci := (0 <? o_nsci o)%nat in
  let* ins := (if sci then pyset (r_inst r) i (f_inst f) else Ok (r_inst r)) in
  let* lon := (if sci then pyset (r_long r) i (f_long f) else Ok (r_long r)) in
  let* wfe := (if sci then pyset (r_wfe r) i (f_wfe f) else Ok (r_wfe r)) in
  let* fil := (if o_frames o then if existsb (Z.eqb i) (r_files r) then Err OSError else Ok (i :: r_files r) else Ok (r_files r)) in
  let* img := (if sci && o_inst o then pyset (r_imgs r) i (f_img f) else Ok (r_imgs r)) in
  let* _ := (if sci && o_field o then if has_efield then if it <? nIters then Ok tt else Err IndexError else Err AttributeError else Ok tt) in
  Ok (mkRec sl cm ins lon wfe img fil).
(** soapy/simulation.py:568-579  frames [it], [it]+1, ... stored one after the other *)
Fixpoint store_frames (o : save_opts) (W : nat) (ef : bool) (nIters it : Z) (fs : list frame_data) (r : records) : result records :=
  match fs with
  | [] => Ok r
  | f :: t => let* r' := store_data o W ef nIters it f r in store_frames o W ef nIters (it + 1) t r'
  end.

(** ** Background thread *)
(** A loop thread: object created, at the loop test, inside loopFrame, finished (also when loopFrame raises). *)
Inductive thread := TNew | TTest | TFrame | TDone.
(** A caller of start/stop: idle; in start after the test, with the thread object stored, with the flag set; in stop with the flag
    cleared, after join. *)
Inductive caller := Idle | Start1 | Start2 (t : nat) | Start3 | Stop1 | Stop2.
Record tsim := mkT { t_flag : bool; t_attr : option nat; t_threads : list thread; t_callers : list caller;
                     t_frames : nat; t_saves : nat; t_stops : nat }.
Definition with_caller (s : tsim) (c : nat) (p : caller) : list caller := upd (t_callers s) c p.
Definition with_thread (s : tsim) (i : nat) (t : thread) : list thread := upd (t_threads s) i t.
(** soapy/simulation.py:606-647  one atomic step of a caller or of a loop thread.  [t_frames] counts frames begun, [t_stops] the stop
    calls that found the loop running and [t_saves] the saves. *)
Inductive tstep : tsim -> tsim -> Prop :=
| start_busy s c : nth_error (t_callers s) c = Some Idle -> t_flag s = true -> tstep s s
| start_test s c : nth_error (t_callers s) c = Some Idle -> t_flag s = false ->
    tstep s (mkT (t_flag s) (t_attr s) (t_threads s) (with_caller s c Start1) (t_frames s) (t_saves s) (t_stops s))
| start_create s c : nth_error (t_callers s) c = Some Start1 ->
    tstep s (mkT (t_flag s) (Some (length (t_threads s))) (t_threads s ++ [TNew]) (with_caller s c (Start2 (length (t_threads s)))) (t_frames s) (t_saves s) (t_stops s))
| start_flag s c t : nth_error (t_callers s) c = Some (Start2 t) ->
    tstep s (mkT true (t_attr s) (t_threads s) (with_caller s c Start3) (t_frames s) (t_saves s) (t_stops s))
| start_run s c t : nth_error (t_callers s) c = Some Start3 -> t_attr s = Some t -> nth_error (t_threads s) t = Some TNew ->
    tstep s (mkT (t_flag s) (t_attr s) (with_thread s t TTest) (with_caller s c Idle) (t_frames s) (t_saves s) (t_stops s))
| stop_idle s c : nth_error (t_callers s) c = Some Idle -> t_flag s = false -> tstep s s
| stop_flag s c : nth_error (t_callers s) c = Some Idle -> t_flag s = true ->
    tstep s (mkT false (t_attr s) (t_threads s) (with_caller s c Stop1) (t_frames s) (t_saves s) (S (t_stops s)))
| stop_join s c t : nth_error (t_callers s) c = Some Stop1 -> t_attr s = Some t -> nth_error (t_threads s) t = Some TDone ->
    tstep s (mkT (t_flag s) (t_attr s) (t_threads s) (with_caller s c Stop2) (t_frames s) (t_saves s) (t_stops s))
| stop_save s c : nth_error (t_callers s) c = Some Stop2 ->
    tstep s (mkT (t_flag s) (t_attr s) (t_threads s) (with_caller s c Idle) (t_frames s) (S (t_saves s)) (t_stops s))
| loop_enter s i : nth_error (t_threads s) i = Some TTest -> t_flag s = true ->
    tstep s (mkT (t_flag s) (t_attr s) (with_thread s i TFrame) (t_callers s) (S (t_frames s)) (t_saves s) (t_stops s))
| loop_exit s i : nth_error (t_threads s) i = Some TTest -> t_flag s = false ->
    tstep s (mkT (t_flag s) (t_attr s) (with_thread s i TDone) (t_callers s) (t_frames s) (t_saves s) (t_stops s))
| frame_done s i : nth_error (t_threads s) i = Some TFrame ->
    tstep s (mkT (t_flag s) (t_attr s) (with_thread s i TTest) (t_callers s) (t_frames s) (t_saves s) (t_stops s))
| frame_raises s i : nth_error (t_threads s) i = Some TFrame ->
    tstep s (mkT (t_flag s) (t_attr s) (with_thread s i TDone) (t_callers s) (t_frames s) (t_saves s) (t_stops s)).
Definition t_init (callers : nat) : tsim := mkT false None [] (repeat Idle callers) 0 0 0.
Inductive treach (n : nat) : tsim -> Prop :=
| treach_init : treach n (t_init n)
| treach_step s s' : treach n s -> tstep s s' -> treach n s'.

(** ** Reset *)
Record sim_state := mkSt {
  st_iters : Z; st_slopes : vec; st_cmds : vec;
  st_all_slopes : option (list vec); st_all_cmds : option (list vec);
  st_acts : option vec;                       (* reconstructor's integrated commands *)
  st_long : list Qc; st_inst : list Qc; st_wfe : list Qc; st_ee50 : vec;
  st_images : list vec;                       (* science images *)
  st_cam : list (vec * Qc * Qc);              (* camera: accumulated image, instantaneous and long Strehl *)
  st_mirrors : list (option vec);             (* mirror shapes, absent before the first frame *)
  st_imat : list vec; st_cmat : list vec }.
Definition zeros (v : vec) : vec := map (fun _ => 0%Qc) v.
(** soapy/DM.py:204-206 *)
Fixpoint reset_mirrors (l : list (option vec)) : result (list (option vec)) :=
  match l with
  | [] => Ok []
  | None :: _ => Err AttributeError
  | Some v :: r => let* r' := reset_mirrors r in Ok (Some (zeros v) :: r')
  end.
(** soapy/simulation.py:650-674; soapy/reconstruction.py:444-446; soapy/scienceinstrument.py:177-185.  The command delay buffer and the
    sensors' frame counters are in the model of the loop delay and of the read-out schedule. *)
Definition reset_loop (s : sim_state) : result sim_state :=
  let* m := reset_mirrors (st_mirrors s) in
  let sci := match st_images s with [] => false | _ => true end in
  Ok (mkSt 0 (zeros (st_slopes s)) (zeros (st_cmds s)) (option_map (map zeros) (st_all_slopes s)) (option_map (map zeros) (st_all_cmds s))
           (option_map zeros (st_acts s))
           (if sci then zeros (st_long s) else st_long s) (st_inst s) (st_wfe s) (if sci then zeros (st_ee50 s) else st_ee50 s)
           (map zeros (st_images s)) (if sci then map (fun c => (zeros (fst (fst c)), 0%Qc, 0%Qc)) (st_cam s) else st_cam s)
           m (st_imat s) (st_cmat s)).

(** ** Pupil mask *)
(** soapy/simulation.py:1191-1202  a mask given as a 2-d array *)
Definition pad_mask (pad : Z) (m : arr Qc) : arr Qc :=
  mkArr (nrow m + 2 * pad) (ncol m + 2 * pad)
        (fun i j => if (pad <=? i) && (i <? nrow m + pad) && (pad <=? j) && (j <? ncol m + pad) then at2 m (i - pad) (j - pad) else 0%Qc).
Definition has_shape (m : arr Qc) (n : Z) : bool := (nrow m =? n) && (ncol m =? n).
Definition user_mask (pupil sim pad : Z) (m : arr Qc) : result (arr Qc) :=
  if negb (has_shape m pupil) && negb (has_shape m sim) then Err ValueError
  else Ok (if negb (has_shape m sim) then pad_mask pad m else m).
(** soapy/simulation.py:1179-1188  a mask file is first brought to the pupil size by [zoom] *)
Definition file_mask (zoom : arr Qc -> Z -> arr Qc) (pupil sim pad : Z) (m : arr Qc) : result (arr Qc) :=
  user_mask pupil sim pad (if has_shape m pupil then m else zoom m pupil).

(** ** Loading classes *)
(** soapy/simulation.py:199-210, 230-238, 254-262, 276-283  the class used for a component: from the module named by [loadModule] if given.
    For sensors the module name is read from config.wfsss, which does not exist. *)
Inductive component := CWfs | CDm | CRecon | CSci.
Definition load_class (class_in : option nat -> nat -> bool) (c : component) (module : option nat) (cls : nat) : result (option nat * nat) :=
  match c, module with
  | CWfs, Some _ => Err ConfigurationError
  | _, _ => if class_in module cls then Ok (module, cls) else Err ConfigurationError
  end.

(** Saving and loading of interaction and control matrices; makeCMat. *)
From Verif.Base Require Import Vec.
From Verif.Model Require Import Recon.

(** State of one file in the simulation directory.  [Partial]: written incompletely when the process
    died; reading such a file raises (astropy reports a truncated or empty file as OSError; the
    possibility that a truncated file still reads as data is not modelled). *)
Inductive fstate (A : Type) := Absent | Partial | Data (a : A).
Arguments Absent {A}.
Arguments Partial {A}.
Arguments Data {A} a.

(** fits.getdata / getheader / open *)
Definition read_file {A} (f : fstate A) : result A :=
  match f with Data a => Ok a | _ => Err OSError end.

(** iMat.fits: header keys DMNACTU and NSLOP (soapy/simulation.py:1001, 1025) and the matrix. *)
Record imat_file := mkImatFile { h_dmnactu : nat; h_nslop : nat; im_data : mat }.
(** cMat.fits: header key DMCOND (None: one of NBDM, DMACTS, DMTYPE, DMCOND is missing) and the matrix.
    The other keys only decide whether a warning is logged (soapy/reconstruction.py:147-149). *)
Record cmat_file := mkCmatFile { h_dmcond : option (list Qc); cm_data : mat }.

(** The directory: iMat.fits, active_acts_dm{i}.fits, dmShapes_dm{i}.fits, cMat.fits. *)
Record fsys := mkFs { f_imat : fstate imat_file; f_acts : nat -> fstate (list bool);
                      f_shapes : nat -> fstate (list vec); f_cmat : fstate cmat_file }.

(** A primitive, atomic change of the directory. *)
Definition fstep := fsys -> fsys.
Definition put_imat (x : fstate imat_file) : fstep := fun s => mkFs x (f_acts s) (f_shapes s) (f_cmat s).
Definition put_acts (i : nat) (x : fstate (list bool)) : fstep :=
  fun s => mkFs (f_imat s) (fun j => if (j =? i)%nat then x else f_acts s j) (f_shapes s) (f_cmat s).
Definition put_cmat (x : fstate cmat_file) : fstep := fun s => mkFs (f_imat s) (f_acts s) (f_shapes s) x.
Definition run_steps (ss : list fstep) (s : fsys) : fsys := fold_left (fun s f => f s) ss s.

(** fits.writeto(..., overwrite=True): removes the old file, creates the new one, fills it. *)
Definition write_steps {A} (put : fstate A -> fstep) (x : A) : list fstep :=
  [put Absent; put Partial; put (Data x)].

(** soapy/reconstruction.py:165-192  save_interaction_matrix.  The dmShapes files are never written:
    the header argument is self.simConfig, an attribute Reconstructor does not have (it is sim_config),
    and the AttributeError is swallowed at line 191. *)
Fixpoint save_acts_steps (i : nat) (ds : list dm) : list fstep :=
  match ds with
  | [] => []
  | d :: r => write_steps (put_acts i) (valid d) ++ save_acts_steps (S i) r
  end.
Definition save_imat_steps (hdr_acts hdr_slop : nat) (ds : list dm) (imat : mat) : list fstep :=
  write_steps put_imat (mkImatFile hdr_acts hdr_slop imat) ++ save_acts_steps 0 ds.

(** .shape of a matrix read from a file; fits.getdata gives None for an image without elements, and
    None.shape raises AttributeError. *)
Definition file_shape (M : mat) : result (nat * nat) :=
  match M with
  | (x :: r) :: _ => Ok (length M, length (x :: r))
  | _ => Err AttributeError
  end.

(** soapy/reconstruction.py:223-239  the valid actuators DM by DM, and influence functions if a file
    exists.  Returns the DMs and the total of n_valid_actuators. *)
Fixpoint load_dms (i : nat) (ds : list dm) (fs : fsys) : list dm * result nat :=
  match ds with
  | [] => ([], Ok 0%nat)
  | d :: r =>
      match read_file (f_acts fs i) with
      | Err e => (d :: r, Err e)
      | Ok flags =>
          match set_valid d flags with
          | (d1, Err e) => (d1 :: r, Err e)
          | (d1, Ok _) =>
              let d2 := match f_shapes fs i with
                        | Data sh => mkDm (n_acts d1) sh (valid d1) (n_valid d1) (closed d1) (gain d1)
                        | _ => d1
                        end in
              let '(r', t) := load_dms (S i) r fs in
              (d2 :: r', let* n := t in Ok (count_true flags + n)%nat)
          end
      end
  end.

(** soapy/reconstruction.py:194-246  load_interaction_matrix; [total], [nmeas]: sim.totalActs and
    sim.totalWfsData of the running simulation. *)
Definition load_imat (total nmeas : nat) (ds : list dm) (fs : fsys) : list dm * result mat :=
  match read_file (f_imat fs) with
  | Err e => (ds, Err e)
  | Ok f =>
      if negb ((h_dmnactu f =? total)%nat && (h_nslop f =? nmeas)%nat) then (ds, Err OSError)
      else
        match load_dms 0 ds fs with
        | (ds', Err e) => (ds', Err e)
        | (ds', Ok n) =>
            (ds', let* sh := file_shape (im_data f) in
                  if ((fst sh =? n)%nat && (snd sh =? nmeas)%nat) then Ok (im_data f) else Err OSError)
        end
  end.

(** numpy.allclose(a, b): |a - b| <= 1e-8 + 1e-5*|b| elementwise, after broadcasting. *)
Definition close (a b : Qc) : bool := qc_leb (qc_abs (a - b)) (qfrac 1 100000000 + qfrac 1 100000 * qc_abs b)%Qc.
Definition allclose (a b : list Qc) : result bool :=
  if (length a =? length b)%nat then Ok (forallb (fun p => close (fst p) (snd p)) (combine a b))
  else match a, b with
       | [x], _ => Ok (forallb (close x) b)
       | _, [y] => Ok (forallb (fun x => close x y) a)
       | _, _ => Err ValueError
       end.

(** soapy/reconstruction.py:122-163  loadCMat; [cshape]: controlShape, fixed at construction. *)
Definition load_cmat (conds : list Qc) (cshape : nat * nat) (fs : fsys) : result mat :=
  let* f := read_file (f_cmat fs) in
  let* ok := match h_dmcond f with Some c => allclose c conds | None => Ok true end in
  if negb ok then Err OSError
  else
    let* sh := file_shape (cm_data f) in
    if ((fst sh =? fst cshape)%nat && (snd sh =? snd cshape)%nat) then Ok (cm_data f) else Err OSError.

(** What makeCMat reads and changes. *)
Record recon := mkRecon { rc_dms : list dm; rc_imat : option mat; rc_cmat : mat; rc_fs : fsys }.

Section MakeCMat.
  (** the sensors and DM fitting of Model/Recon.v; numpy.linalg.pinv(M, rcond) *)
  Variable fit : nat -> vec -> vec.
  Variable npx : nat.
  Variable wfss : list (list vec -> vec).
  Variable pinv : Qc -> mat -> mat.
  (** settings: header values fixed when the save header was made, totalActs and totalWfsData now,
      conditioning of each DM and of the reconstructor, controlShape; simName is not None. *)
  Variables (hdr_acts : nat) (total nmeas : nat) (conds : list Qc) (rcond : Qc) (cshape : nat * nat).

  (** makeIMat followed by save_interaction_matrix (soapy/reconstruction.py:379-382, 386-388).  When the
      calibration raises, interaction_matrix is in fact left as zeros; nothing reads it afterwards. *)
  Definition calibrate_and_save (s : recon) : recon * result unit :=
    match make_imat fit npx wfss (rc_dms s) with
    | (ds', Ok M) => (mkRecon ds' (Some M) (rc_cmat s) (run_steps (save_imat_steps hdr_acts nmeas ds' M) (rc_fs s)), Ok tt)
    | (ds', Err e) => (mkRecon ds' (rc_imat s) (rc_cmat s) (rc_fs s), Err e)
    end.

  (** MVM.calcCMat (soapy/reconstruction.py:455-465) then saveCMat (112-120). *)
  Definition calc_and_save (s : recon) : recon * result unit :=
    match rc_imat s with
    | None => (s, Err AttributeError)
    | Some M =>
        let c := pinv rcond M in
        (mkRecon (rc_dms s) (Some M) c (run_steps (write_steps put_cmat (mkCmatFile (Some conds) c)) (rc_fs s)), Ok tt)
    end.

  (** soapy/reconstruction.py:368-407  makeCMat; both except clauses are bare. *)
  Definition make_cmat (loadI loadC : bool) (s : recon) : recon * result unit :=
    let first :=
      if loadI then
        match load_imat total nmeas (rc_dms s) (rc_fs s) with
        | (ds', Ok M) => (mkRecon ds' (Some M) (rc_cmat s) (rc_fs s), Ok tt)
        | (ds', Err _) => calibrate_and_save (mkRecon ds' (rc_imat s) (rc_cmat s) (rc_fs s))
        end
      else calibrate_and_save s in
    match first with
    | (s1, Err e) => (s1, Err e)
    | (s1, Ok _) =>
        if loadC then
          match load_cmat conds cshape (rc_fs s1) with
          | Ok c => (mkRecon (rc_dms s1) (rc_imat s1) c (rc_fs s1), Ok tt)
          | Err _ => calc_and_save s1
          end
        else calc_and_save s1
    end.
End MakeCMat.

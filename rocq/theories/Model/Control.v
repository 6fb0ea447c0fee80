(** The other reconstructors of soapy/reconstruction.py: MVM_SeparateDMs, LearnAndApply,
    LearnAndApplyLTAO, GLAO_4LGS, WooferTweeter, LgsTT, ANN.
    Control matrices are held transposed (one row per actuator, as in Model/Recon.v), so [pinvT c M], the
    transpose of numpy.linalg.pinv(M, c), has the shape of M. *)
From Verif.Base Require Import Vec.
From Verif.Model Require Import Recon.

(** What a reconstructor reads of a WFS object: n_measurements, and the attributes n_subaps (set by
    ShackHartmann, soapy/wfs/shackhartmann.py:133; inherited by ExtendedSH) and activeSubaps (set by
    ShackHartmannLegacy, soapy/wfs/shackhartmann_legacy.py:98, and Gradient), None where the class has no such
    attribute (Pyramid and Zernike have neither). *)
Record sensor := mkSensor { s_meas : nat; s_subaps : option nat; s_active : option nat }.
(** What a reconstructor reads of a DM object: Model/Recon.v's part, dmConfig.wfs, whether dmConfig.type is
    "TT", dmConfig.svdConditioning. *)
Record mirror := mkMirror { m_dm : dm; m_wfs : option nat; m_tt : bool; m_cond : Qc }.

(** soapy/simulation.py:216-217  config.dataStart of every WFS and sim.totalWfsData *)
Definition data_starts (ws : list sensor) : list nat := dm_offsets 0 (map s_meas ws).
Definition total_data (ws : list sensor) : nat := total_acts (map s_meas ws).
(** soapy/simulation.py:242-252  sim.totalActs when the reconstructor is constructed *)
Definition total_n_acts (ms : list mirror) : nat := total_acts (map (fun m => n_acts (m_dm m)) ms).
(** soapy/simulation.py:350-355  sim.totalActs after Sim.makeIMat *)
Definition total_valid (ms : list mirror) : nat := total_acts (nvalids (map m_dm ms)).

(** self.wfss[j]: KeyError when there is no such WFS; with its config.dataStart *)
Definition get_wfs (ws : list sensor) (j : nat) : result (nat * sensor) :=
  match nth_error ws j, nth_error (data_starts ws) j with
  | Some s, Some o => Ok (o, s)
  | _, _ => Err KeyError
  end.
(** an attribute the object may not have *)
Definition attr {A} (o : option A) : result A := match o with Some a => Ok a | None => Err AttributeError end.

(** numpy.zeros((r, c)) *)
Definition zeros2 (r c : nat) : mat := repeat (vzero c) r.

(** M[r0:r0+nr, c0:c0+nc] = B with numpy's broadcasting: a block of another shape raises ValueError unless
    the differing extents are 1. *)
Definition bcast_rows (n : nat) (B : mat) : result mat :=
  if (length B =? n)%nat then Ok B
  else match B with [b] => Ok (repeat b n) | _ => Err ValueError end.
Definition store_row (c0 nc : nat) (row b : vec) : result vec :=
  let* c := bcast (length (firstn nc (skipn c0 row))) b in Ok (splice row c0 c).
Definition store2 (M : mat) (r0 nr c0 nc : nat) (B : mat) : result mat :=
  let R := firstn nr (skipn r0 M) in
  let* B' := bcast_rows (length R) B in
  let* R' := mapM (fun p => store_row c0 nc (fst p) (snd p)) (combine R B') in
  Ok (splice M r0 R').

(** M.dot(v) for a matrix with n columns *)
Definition dot_chk (n : nat) (M : mat) (v : vec) : result vec :=
  if (length v =? n)%nat then Ok (mvm M v) else Err ValueError.

(** v.mean() *)
Definition vmean (v : vec) : Qc := (lsum v / qz (Z.of_nat (length v)))%Qc.
(** v - c *)
Definition vshift (c : Qc) (v : vec) : vec := map (fun x => x - c)%Qc v.

(** ** Learning *)
(** soapy/reconstruction.py:576-578  one row of learnSlopes: for j-th WFS,
    learnSlopes[i, j*wfs.n_measurements:(j+1)*wfs.n_measurements] = wfs.frame(scrns, read=True);
    [fr]: what the WFSs measured. *)
Fixpoint learn_row (j : nat) (ws : list sensor) (fr : list vec) (row : vec) : result vec :=
  match ws, fr with
  | [], _ => Ok row
  | _ :: _, [] => Err ValueError
  | s :: ws', f :: fr' =>
      let* b := bcast (length (firstn (s_meas s) (skipn (j * s_meas s) row))) f in
      learn_row (S j) ws' fr' (splice row (j * s_meas s) b)
  end.
(** soapy/reconstruction.py:562-586  learn; [frs]: the measurements of the learnIters frames *)
Definition learn (ws : list sensor) (frs : list (list vec)) : result mat :=
  mapM (fun fr => learn_row 0 ws fr (vzero (total_data ws))) frs.

(** numpy.cov(records.T) for records of n elements (soapy/reconstruction.py:610, 689, 925): means removed,
    divided by N-1.  With fewer than two records numpy returns nan, on which pinv raises LinAlgError (unless
    the matrix handed to pinv is empty, which is not modelled). *)
Definition centre (n : nat) (X : mat) : mat :=
  map (fun r => vsub r (map (fun j => vmean (col X j)) (seq 0 n))) X.
Definition cov (n : nat) (X : mat) : result mat :=
  if (length X <=? 1)%nat then Err LinAlgError
  else Ok (map (fun i => map (fun j => (dot (col (centre n X) i) (col (centre n X) j) / qz (Z.of_nat (length X) - 1))%Qc)
                            (seq 0 n)) (seq 0 n)).

Section Control.
  (** the transpose of numpy.linalg.pinv(M, rcond); it can raise LinAlgError *)
  Variable pinvT : Qc -> mat -> result mat.
  (** config.recon.svdConditioning; the conditionings 1e-8 (LearnAndApply) and numpy's default 1e-15 used for
      covariance matrices *)
  Variable rcond : Qc.
  Definition cov_rcond : Qc := qfrac 1 100000000.
  Definition default_rcond : Qc := qfrac 1 1000000000000000.
  Variable ws : list sensor.
  Variable ms : list mirror.
  Definition total_w : nat := total_data ws.

  (** soapy/reconstruction.py:611-620, 689-701, 925-933  Conoff.dot(pinv(Coffoff)), with Conoff the rows a:b and
      Coffoff the rows e: of the covariance, both with the columns e: *)
  Definition tomography (rc : Qc) (C : mat) (a b e : nat) : result mat :=
    let onoff := map (skipn e) (firstn (b - a) (skipn a C)) in
    let* P := pinvT rc (map (skipn e) (skipn e C)) in
    Ok (map (fun r => map (fun q => dot r q) P) onoff).

  (** ** MVM_SeparateDMs *)
  (** soapy/reconstruction.py:482-497  one DM: its interaction matrix with its own WFS, inverted.  dm.wfss
      (soapy/DM.py:113-123) is [wfss[wfs]], or the dictionary of all WFSs if dmConfig.wfs is None: iterating
      that gives integers, which have no n_measurements (and with no WFS, self.wfss[None] is a KeyError). *)
  Definition sep_block (imat : mat) (k : nat) (m : mirror) : result (nat * nat * mat) :=
    match m_wfs m with
    | None => match ws with [] => Err KeyError | _ => Err AttributeError end
    | Some w =>
        let* x := get_wfs ws w in
        let nw := s_meas (snd x) in
        let* sub := get_dm_imat (map m_dm ms) imat k (fst x) nw in
        let* D := store2 (zeros2 (n_acts (m_dm m)) nw) 0 (n_acts (m_dm m)) 0 nw sub in
        let* P := pinvT (m_cond m) D in
        Ok (fst x, nw, P)
    end.
  (** soapy/reconstruction.py:481-507  calcCMat, from DM k on, whose first column is [acts] *)
  Fixpoint sep_calc (imat : mat) (k acts : nat) (l : list mirror) (ctrl : mat) : result mat :=
    match l with
    | [] => Ok ctrl
    | m :: r =>
        let* x := sep_block imat k m in
        let* c := store2 ctrl acts (n_acts (m_dm m)) (fst (fst x)) (snd (fst x)) (snd x) in
        sep_calc imat (S k) (acts + n_acts (m_dm m)) r c
    end.
  (** control_matrix = zeros((totalWfsData, totalActs)) (soapy/reconstruction.py:94-95) filled DM by DM; the
      initControlMatrix methods of the subclasses are called from nowhere. *)
  Definition separate (imat : mat) : result mat := sep_calc imat 0 0 ms (zeros2 (total_n_acts ms) total_w).

  (** ** LearnAndApply *)
  (** 2*self.wfss[0].n_subaps *)
  Definition on_axis : result nat :=
    let* x := get_wfs ws 0 in let* n := attr (s_subaps (snd x)) in Ok (2 * n)%nat.
  (** soapy/reconstruction.py:519-523  makeIMat: only the first columns are kept *)
  Definition la_imat (imat : mat) : result mat :=
    let* n := on_axis in Ok (map (firstn n) imat).
  (** soapy/reconstruction.py:596-631  calcCMat after makeIMat: the tomographic reconstructor and the
      (transposed) control matrix *)
  Definition la_calc (imat : mat) (frs : list (list vec)) : result (mat * mat) :=
    let* n := on_axis in
    let* X := learn ws frs in
    let* C := cov total_w X in
    let* T := tomography cov_rcond C 0 n n in
    let* P := pinvT rcond imat in
    Ok (T, P).
  (** soapy/reconstruction.py:634-657  reconstruct; [acts]: sim.totalActs *)
  Definition la_reconstruct (acts : nat) (T P : mat) (s : recon_state) (m : vec) : result (vec * recon_state) :=
    let* n := on_axis in
    let* on := dot_chk (total_w - n) T (skipn n m) in
    match ms with
    | [] => Err KeyError
    | d0 :: _ =>
        if m_tt d0 then
          let h := (n / 2)%nat in
          if (length on =? n)%nat then
            let on' := vshift (vmean (firstn h on)) (firstn h on) ++ vshift (vmean (skipn h on)) (skipn h on) in
            Ok (mvm (firstn 2 P) on ++ mvm (skipn 2 P) on', s)
          else Err ValueError
        else
          let* a := reconstruct (map m_dm ms) n acts P s on in Ok (a, Some a)
    end.

  (** ** Removing common tip-tilt (soapy/reconstruction.py:806-830, 961-985), one row of slopes *)
  (** the loop 813-817: slices of the WFSs in [l] into xSlopes and ySlopes *)
  Fixpoint tt_collect (i : nat) (l : list nat) (sl xs ys : vec) : result (vec * vec) :=
    match l with
    | [] => Ok (xs, ys)
    | w :: r =>
        let* x := get_wfs ws w in
        let* n := attr (s_active (snd x)) in
        let* bx := bcast (length (firstn n (skipn (i * n) xs))) (firstn n (skipn (i * 2 * n) sl)) in
        let* by_ := bcast (length (firstn n (skipn (i * n) ys))) (firstn n (skipn (i * 2 * n + n) sl)) in
        tt_collect (S i) r sl (splice xs (i * n) bx) (splice ys (i * n) by_)
    end.
  (** the loop 822-827: back into the slopes *)
  Fixpoint tt_return (i : nat) (l : list nat) (xs ys sl : vec) : result vec :=
    match l with
    | [] => Ok sl
    | w :: r =>
        let* x := get_wfs ws w in
        let* n := attr (s_active (snd x)) in
        let* bx := bcast (length (firstn n (skipn (i * 2 * n) sl))) (firstn n (skipn (i * n) xs)) in
        let sl1 := splice sl (i * 2 * n) bx in
        let* by_ := bcast (length (firstn n (skipn (i * 2 * n + n) sl1))) (firstn n (skipn (i * n) ys)) in
        tt_return (S i) r xs ys (splice sl1 (i * 2 * n + n) by_)
    end.
  (** xSlopesShape[-1] /= 2. stores a float into an integer array: truncated *)
  Definition remove_common_tt (sl : vec) (l : list nat) : result vec :=
    let h := (length sl / 2)%nat in
    let* xy := tt_collect 0 l sl (vzero h) (vzero h) in
    tt_return 0 l (vshift (vmean (fst xy)) (fst xy)) (vshift (vmean (snd xy)) (snd xy)) sl.

  (** ** All classes *)
  Inductive recon_class := MVM | MVM_SeparateDMs | LearnAndApply | LearnAndApplyLTAO | GLAO_4LGS
                         | WooferTweeter | LgsTT | ANN.

  (** Result of makeIMat and calcCMat: columns of the transposed control matrix, the matrix, tomoRecon. *)
  Record calibration := mkCalib { k_cols : nat; k_ctrl : mat; k_tomo : mat }.

  (** makeIMat and calcCMat of each class.  [imat]: the interaction matrix measured by Reconstructor.makeIMat
      (Model/Recon.v make_imat); [learn1], [learn2]: what the WFSs measure in a first and a second learn.
      MVM 455-465 (also GLAO_4LGS); MVM_SeparateDMs; LearnAndApply; LearnAndApplyLTAO 677-711 (makeIMat
      inherited from LearnAndApply); WooferTweeter 844-879: with one DM nothing is done, with more
      self.dms[dm].iMat is read, an attribute DMs do not have (and self.dms[0] with none); LgsTT 906-938: it
      ends by calling LearnAndApply.calcCMat; ANN 997-1013: again self.dms[dm].iMat. *)
  Definition calibrate (cl : recon_class) (imat : mat) (learn1 learn2 : list (list vec)) : result calibration :=
    match cl with
    | MVM | GLAO_4LGS => let* P := pinvT rcond imat in Ok (mkCalib total_w P [])
    | MVM_SeparateDMs => let* P := separate imat in Ok (mkCalib total_w P [])
    | LearnAndApply =>
        let* n := on_axis in
        let* M := la_imat imat in
        let* x := la_calc M learn1 in Ok (mkCalib n (snd x) (fst x))
    | LearnAndApplyLTAO =>
        let* M := la_imat imat in
        let* X := learn ws learn1 in
        let* C := cov total_w X in
        let* w1 := get_wfs ws 1 in
        let* w2 := get_wfs ws 2 in
        let* T := tomography default_rcond C (fst w1) (fst w2) (fst w2) in
        let* P := separate M in Ok (mkCalib total_w P T)
    | WooferTweeter =>
        match ms with
        | [] => Err KeyError
        | [_] => Ok (mkCalib total_w (zeros2 (total_n_acts ms) total_w) [])
        | _ => Err AttributeError
        end
    | LgsTT =>
        let* M := la_imat imat in
        let* X := learn ws learn1 in
        let* w1 := get_wfs ws 1 in
        let* n1 := attr (s_active (snd w1)) in
        let* Y := mapM (fun r => let* o := remove_common_tt (skipn (2 * n1) r) [2; 3; 4; 5]%nat in
                                 Ok (firstn (2 * n1) r ++ o)) X in
        let* C := cov total_w Y in
        let* T := tomography default_rcond C 0 (2 * n1) (2 * n1) in
        let* n := on_axis in
        let* x := la_calc M learn2 in Ok (mkCalib n (snd x) (fst x))
    | ANN =>
        let* w0 := get_wfs ws 0 in
        let* n := attr (s_active (snd w0)) in
        match ms with
        | [] => Ok (mkCalib (2 * n) [] [])
        | _ => Err AttributeError
        end
    end.

  (** reconstruct of each class: Reconstructor 431-442; LearnAndApply; LearnAndApplyLTAO 713-760 (one mean is
      subtracted from all of slopes_HO: nSubaps is its whole length); GLAO_4LGS 784-803 (super(LgsTT, self) with
      self not an LgsTT: TypeError); LgsTT 934-958; ANN 1015-1032 with [net] = self.net.run.
      [acts]: sim.totalActs. *)
  Variable net : vec -> vec.
  Definition frame_of (cl : recon_class) (acts : nat) (c : calibration) (s : recon_state) (m : vec)
    : result (vec * recon_state) :=
    match cl with
    | MVM | MVM_SeparateDMs | WooferTweeter =>
        let* a := reconstruct (map m_dm ms) (k_cols c) acts (k_ctrl c) s m in Ok (a, Some a)
    | LearnAndApply => la_reconstruct acts (k_tomo c) (k_ctrl c) s m
    | LearnAndApplyLTAO =>
        let* w1 := get_wfs ws 1 in
        let* w2 := get_wfs ws 2 in
        let* ho := dot_chk (total_w - fst w2) (k_tomo c) (skipn (fst w2) m) in
        let on := firstn (fst w1) m ++ vshift (vmean ho) ho in
        let* a := dot_chk (k_cols c) (k_ctrl c) on in Ok (a, s)
    | GLAO_4LGS =>
        let* w2 := get_wfs ws 2 in
        let* n := attr (s_active (snd w2)) in
        let off := skipn (fst w2) m in
        if (length off =? 4 * (n * 2))%nat then
          let mean4 := map (fun i => vmean (map (fun q => nth (q * (n * 2) + i) off 0%Qc) [0; 1; 2; 3]%nat)) (seq 0 (n * 2)) in
          let* _o := remove_common_tt mean4 [1]%nat in
          let* _w := get_wfs ws 1 in
          Err TypeError
        else Err ValueError
    | LgsTT =>
        let* w2 := get_wfs ws 2 in
        let* off := remove_common_tt (skipn (fst w2) m) [2; 3; 4; 5]%nat in
        let* on := dot_chk (total_w - k_cols c) (k_tomo c) off in
        let* w1 := get_wfs ws 1 in
        la_reconstruct acts (k_tomo c) (k_ctrl c) s (firstn (fst w1) m ++ on)
    | ANN =>
        let* w0 := get_wfs ws 0 in
        let* n := attr (s_active (snd w0)) in
        let* a := dot_chk (k_cols c) (k_ctrl c)
                    (vscale (qz 7) (net (map (fun x => x / qz 7)%Qc (skipn (n * 2) m)))) in
        Ok (a, s)
    end.

  (** Commands of successive frames after a calibration. *)
  Fixpoint frames_of (cl : recon_class) (acts : nat) (c : calibration) (s : recon_state) (l : list vec)
    : result (list vec) :=
    match l with
    | [] => Ok []
    | m :: r =>
        let* x := frame_of cl acts c s m in
        let* y := frames_of cl acts c (snd x) r in
        Ok (fst x :: y)
    end.
  (** Sim.makeIMat followed by frames (soapy/simulation.py:345-357, 543). *)
  Definition use (cl : recon_class) (imat : mat) (learn1 learn2 : list (list vec)) (l : list vec)
    : result (list vec) :=
    let* c := calibrate cl imat learn1 learn2 in
    frames_of cl (total_valid ms) c None l.
End Control.

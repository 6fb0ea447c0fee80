From Verif.Base Require Import Vec.
From Verif.Model Require Import MovedStar.
From Verif.Spec Require Import MovedStarSpec.
Local Open Scope Qc_scope.

Definition shape (b : bool) (gs p : Qc * Qc) (h : Qc) : conf := if b then mkConf (Some p) (Some gs) None (Some h) else mkConf (Some p) None (Some h) None.
Lemma shape_position b gs p h : get_position (shape b gs p h) = Ok p.
Proof. destruct b; reflexivity. Qed.
Lemma shape_height b gs p h : get_height (shape b gs p h) = Ok h.
Proof. destruct b; reflexivity. Qed.
Lemma shape_start b p h : configured b p h = shape b p p h.
Proof. destruct b; reflexivity. Qed.
(** The position the configuration of a sensor gives, after moves *)
Fixpoint last_gs (b : bool) (ms : list move) (gs : Qc * Qc) : Qc * Qc :=
  match ms with [] => gs | AssignPosition q :: r => last_gs b r (if b then q else gs) | _ :: r => last_gs b r gs end.
Lemma conf_step b gs p h m : conf_move m (shape b gs p h) = Ok (shape b (last_gs b [m] gs) (last_position b [m] gs p) (last_height [m] h)).
Proof. destruct m, b; reflexivity. Qed.
Lemma last_position_cons b m ms gs p : last_position b (m :: ms) gs p = last_position b ms (last_gs b [m] gs) (last_position b [m] gs p).
Proof. destruct m, b; reflexivity. Qed.
Lemma last_gs_cons b m ms gs : last_gs b (m :: ms) gs = last_gs b ms (last_gs b [m] gs).
Proof. destruct m, b; reflexivity. Qed.
Lemma last_height_cons m ms h : last_height (m :: ms) h = last_height ms (last_height [m] h).
Proof. destruct m; reflexivity. Qed.
Lemma legacy_all b ms : forall gs p h rs, legacy_moves ms (mkLegacy (shape b gs p h) rs) = Ok (mkLegacy (shape b (last_gs b ms gs) (last_position b ms gs p) (last_height ms h)) rs).
Proof.
  induction ms as [|m ms IH]; intros gs p h rs; [reflexivity|]. cbn [legacy_moves l_conf l_radii]. rewrite conf_step. cbn [bind]. rewrite IH. rewrite (last_gs_cons b m ms gs), (last_position_cons b m ms gs p), (last_height_cons m ms h). reflexivity.
Qed.
Lemma path_all g layers dms b ms : forall gs p h src ls ds, exists ls' ds',
  path_moves g layers dms ms (mkPath (shape b gs p h) src ls ds) = Ok (mkPath (shape b (last_gs b ms gs) (last_position b ms gs p) (last_height ms h)) src ls' ds') /\
  (existsb is_recalc ms = false -> ls' = ls /\ ds' = ds).
Proof.
  induction ms as [|m ms IH]; intros gs p h src ls ds; [exists ls, ds; split; [reflexivity|auto]|]. cbn [path_moves]. unfold path_move. cbn [p_conf p_src p_layers p_dms]. rewrite conf_step. cbn [bind].
  rewrite (last_gs_cons b m ms gs), (last_position_cons b m ms gs p), (last_height_cons m ms h). destruct (is_recalc m) eqn:R.
  - destruct m; try discriminate R. unfold recalc. cbn [p_conf p_src]. rewrite shape_position. cbn [bind].
    match goal with |- context [mkPath (shape b ?a ?c ?d) src ?l1 ?l2] => destruct (IH a c d src l1 l2) as (l' & d' & E & _) end. exists l', d'. split; [exact E|discriminate].
  - replace (match m with Recalc => recalc g layers dms _ | _ => Ok _ end) with (Ok (mkPath (shape b (last_gs b [m] gs) (last_position b [m] gs p) (last_height [m] h)) src ls ds)) by (destruct m; try reflexivity; discriminate R).
    cbn [bind]. destruct (IH (last_gs b [m] gs) (last_position b [m] gs p) (last_height [m] h) src ls ds) as (l' & d' & E & K). exists l', d'. split; [exact E|]. cbn [existsb]. rewrite R. exact K.
Qed.
Lemma path_app g layers dms ms ns p : path_moves g layers dms (ms ++ ns) p = let* q := path_moves g layers dms ms p in path_moves g layers dms ns q.
Proof. revert p. induction ms as [|m ms IH]; intro p; [reflexivity|]. cbn [app path_moves]. destruct (path_move g layers dms m p); [apply IH|reflexivity]. Qed.
Lemma build_eq g layers dms b gs p h : build g layers dms (shape b gs p h) = Ok (mkPath (shape b gs p h) h (map (edges g p h) layers) (map (edges g p h) dms)).
Proof. unfold build. rewrite shape_height. cbn [bind]. unfold recalc. cbn [p_conf p_src]. rewrite shape_position. reflexivity. Qed.

Lemma two_nz : qz 2 <> 0.
Proof. intro E. discriminate (f_equal (fun q => Qnum (this q)) E). Qed.
Lemma edges_middle g pos src a : px g <> 0 -> middle (edges g pos src a) = (scrn g / qz 2 + asec g * fst pos * a / px g, scrn g / qz 2 + asec g * snd pos * a / px g).
Proof. intro P. pose proof two_nz as T. unfold edges, middle. assert (T2 : qz 2 = 1 + 1) by (apply Qc_is_canon; reflexivity). f_equal; rewrite T2 in *; field; auto. Qed.
Lemma edges_width g pos src a : px g <> 0 -> width (edges g pos src a) = (beam g * cone src a / px g, beam g * cone src a / px g).
Proof. intro P. pose proof two_nz as T. unfold edges, width, cone. assert (T2 : qz 2 = 1 + 1) by (apply Qc_is_canon; reflexivity). rewrite T2 in *. destruct (Qc_eq_dec src 0); f_equal; field; auto. Qed.
Lemma piece_middle g tn pos r a s : piece g tn pos r a = Some s -> middle s = (scrn g / qz 2 + tn (asec g * fst pos) * a / px g, scrn g / qz 2 + tn (asec g * snd pos) * a / px g).
Proof.
  pose proof two_nz as T. assert (T2 : qz 2 = 1 + 1) by (apply Qc_is_canon; reflexivity). unfold piece. set (f := match r with None => 1 | Some r0 => qz 2 * r0 / pupil g end). clearbody f. intro E.
  assert (E' : s = (scrn g / qz 2 + tn (asec g * fst pos) * a / px g - f * coord g, scrn g / qz 2 + tn (asec g * fst pos) * a / px g + f * coord g, scrn g / qz 2 + tn (asec g * snd pos) * a / px g - f * coord g, scrn g / qz 2 + tn (asec g * snd pos) * a / px g + f * coord g)).
  { destruct r as [r|]; [destruct (Qc_eq_dec r 0); [discriminate E|]|]; injection E as <-; reflexivity. }
  subst s. unfold middle. generalize (tn (asec g * fst pos) * a / px g) (tn (asec g * snd pos) * a / px g). intros u v. rewrite T2 in *. f_equal; field; auto.
Qed.
Lemma some_inj {A} (x y : A) : Some x = Some y -> x = y. Proof. congruence. Qed.
Lemma sub_add x y : x - y + y = x. Proof. ring. Qed.
Lemma cone_pos h a : 0 < a -> (h = 0 \/ a < h) -> cone h a <> 0.
Proof.
  intros A H. unfold cone. destruct (Qc_eq_dec h 0) as [|N]; [intro E; discriminate (f_equal (fun q => Qnum (this q)) E)|]. destruct H as [->|H]; [contradiction N; reflexivity|].
  intro E. assert (h = a). { replace h with (h * (a / h + (1 - a / h))) by (field; exact N). rewrite E. field. exact N. } subst h. exact (Qclt_not_eq _ _ H eq_refl).
Qed.
Lemma cone_inj h k a : a <> 0 -> cone h a = cone k a -> h = k.
Proof.
  intros A E. unfold cone in E. destruct (Qc_eq_dec h 0) as [->|N], (Qc_eq_dec k 0) as [->|M]; [reflexivity| | |].
  - exfalso. apply A. replace a with (k * (1 - (1 - a / k))) by (field; exact M). rewrite <- E. ring.
  - exfalso. apply A. replace a with (h * (1 - (1 - a / h))) by (field; exact N). rewrite E. ring.
  - assert (Q : a / h = a / k). { replace (a / h) with (1 - (1 - a / h)) by ring. rewrite E. ring. }
    assert (R : a * k = a * h). { replace (a * k) with (a / h * h * k) by (field; exact N). rewrite Q. field. exact M. }
    assert (Z : a * (h - k) = 0) by (replace (a * (h - k)) with (a * h - a * k) by ring; rewrite R; ring).
    destruct (Qcmult_integral _ _ Z) as [|W]; [contradiction|]. replace h with (h - k + k) by ring. rewrite W. ring.
Qed.
Lemma piece_width g tn pos h a : tel g = pupil g * px g -> px g <> 0 -> pupil g <> 0 -> 0 < a -> (h = 0 \/ a < h) ->
  (exists s, piece g tn pos (Some (meta_pupil g h a h / px g)) a = Some s /\ width s = (qz 2 * coord g * cone h a, qz 2 * coord g * cone h a)) /\
  (h = 0 -> exists s, piece g tn pos None a = Some s /\ width s = (qz 2 * coord g * cone h a, qz 2 * coord g * cone h a)).
Proof.
  intros T P U A H. pose proof two_nz as T0. assert (T2 : qz 2 = 1 + 1) by (apply Qc_is_canon; reflexivity).
  assert (R : meta_pupil g h a h / px g = pupil g * cone h a / qz 2).
  { unfold meta_pupil, cone. rewrite T. rewrite T2 in *. destruct (Qc_eq_dec h 0) as [|N]; [field; auto|]. destruct H as [->|H]; [contradiction N; reflexivity|]. destruct (Qclt_le_dec a h) as [|L]; [field; auto|].
    exfalso. exact (Qclt_not_le _ _ H L). }
  assert (NZ : pupil g * cone h a / qz 2 <> 0).
  { intro E. assert (E2 : pupil g * cone h a = 0) by (replace (pupil g * cone h a) with (pupil g * cone h a / qz 2 * qz 2) by (field; exact T0); rewrite E; ring). destruct (Qcmult_integral _ _ E2) as [|W]; [contradiction|]. exact (cone_pos h a A H W). }
  split.
  - rewrite R. unfold piece. destruct (Qc_eq_dec (pupil g * cone h a / qz 2) 0) as [|_]; [contradiction|]. eexists. split; [reflexivity|]. unfold width. rewrite T2 in *. f_equal; field; auto.
  - intros ->. unfold piece. eexists. split; [reflexivity|]. unfold width, cone. destruct (Qc_eq_dec 0 0) as [_|N]; [|contradiction N; reflexivity]. rewrite T2. f_equal; ring.
Qed.

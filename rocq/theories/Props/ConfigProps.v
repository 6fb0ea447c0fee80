(** C50-C54: configuration loading, derived sizes and re-derivation. *)
From Coq Require Import String.
From Verif.Base Require Import Vec.
From Verif.Model Require Import Config.
From Verif.Spec Require Import ConfigSpec.
From Verif.Proofs Require Import ConfigProofs.
Open Scope string_scope.
Open Scope list_scope.
Open Scope Z_scope.

(** C50: for each of the eight kinds of configuration object and every dictionary, loading succeeds exactly when no required
    parameter is missing and otherwise raises ConfigurationError; given values are used, missing optional parameters take the
    default of the table, and nothing else is set (unknown keys are ignored). *)
Theorem C50_partial :
  forall (k : cls) (d : pdict), In k all_cls ->
    ((forall p, In p (required k) -> d p <> None) ->
     exists o, load_params k None d = Ok o /\
       (forall p, In p (required k) -> o p = d p) /\
       (forall p dflt, In (p, dflt) (optional k) -> o p = match d p with Some x => Some x | None => Some dflt end) /\
       (forall p, ~ In p (required k) -> ~ In p (map fst (optional k)) -> o p = None)) /\
    ((exists p, In p (required k) /\ d p = None) -> load_params k None d = Err ConfigurationError).
Proof. exact load_yaml. Qed.
Print Assumptions C50_partial.
Example C50_instance :
  let d := fun p => if String.eqb p "telDiam" then Some (num 8 1) else if String.eqb p "colour" then Some (VStr "red") else None in
  (exists o, load_params tel_cls None d = Ok o /\ o "telDiam" = Some (num 8 1) /\ o "obsDiam" = Some (num 0 1) /\ o "colour" = None) /\
  load_params tel_cls None (fun _ => None) = Err ConfigurationError.
Proof. split; [eexists; repeat split; reflexivity | reflexivity]. Qed.

(** C50, list-style (python) files: object number n takes entry n of every given parameter; a missing required
    parameter, or one with too few entries (or that cannot be indexed), raises ConfigurationError. *)
Theorem C50_lists :
  forall (k : cls) (n : nat) (d : pdict), In k all_cls ->
    ((forall p, In p (required k) -> exists v x, d p = Some v /\ has_entry v n x) ->
     (forall p v dflt, In (p, dflt) (optional k) -> d p = Some v -> exists x, has_entry v n x) ->
     exists o, load_params k (Some n) d = Ok o /\
       (forall p v, d p = Some v -> In p (required k) \/ In p (map fst (optional k)) -> exists x, o p = Some x /\ has_entry v n x) /\
       (forall p dflt, In (p, dflt) (optional k) -> d p = None -> o p = Some dflt)) /\
    ((exists p, In p (required k) /\ d p = None) \/
     (exists p v, (In p (required k) \/ In p (map fst (optional k))) /\ d p = Some v /\ forall x, ~ has_entry v n x) ->
     load_params k (Some n) d = Err ConfigurationError).
Proof. exact load_python. Qed.
Print Assumptions C50_lists.
Example C50_lists_instance :
  let d := fun p => if String.eqb p "type" then Some (VList [VStr "Piezo"; VStr "TT"]) else None in
  (exists o, load_params dm_cls (Some 1%nat) d = Ok o /\ o "type" = Some (VStr "TT")) /\ load_params dm_cls (Some 2%nat) d = Err ConfigurationError.
Proof. split; [eexists; repeat split; reflexivity | reflexivity]. Qed.

(** C50, documentation: the default one gets for a documented optional parameter is the documented one except for the eight
    parameters of [wrong_defaults]; for those it is always something else. *)
Theorem C50_defaults_partial :
  forall t k r o, In (t, (k, (r, o))) doc_tables -> forall p v, In (p, v) o -> ~ In (t, p) wrong_defaults ->
    forall d c, load_params k None d = Ok c -> d p = None -> c p = Some v.
Proof.
  intros t k r o H p v Hp N d c E Hd. destruct (doc_defaults t k r o H p v Hp) as (A & _).
  eapply load_default; [eapply doc_in_all, H | exact E | apply lookup_in, A, N | exact Hd].
Qed.
Print Assumptions C50_defaults_partial.
Theorem C50_defaults_refuted :
  forall t k r o, In (t, (k, (r, o))) doc_tables -> forall p v, In (p, v) o -> In (t, p) wrong_defaults ->
    forall d c, load_params k None d = Ok c -> d p = None -> c p <> Some v.
Proof.
  intros t k r o H p v Hp I d c E Hd. destruct (doc_defaults t k r o H p v Hp) as (_ & A). destruct (A I) as (w & L & Nw).
  rewrite (load_default k d c p w (doc_in_all _ _ _ _ H) E (lookup_in _ _ _ L) Hd). congruence.
Qed.
Print Assumptions C50_defaults_refuted.
(** ... and a parameter documented as required is enforced, except the four of [not_required], which may be left out. *)
Theorem C50_required_refuted :
  forall t k r o, In (t, (k, (r, o))) doc_tables -> forall p, In p r ->
    (~ In (t, p) not_required -> forall d, d p = None -> load_params k None d = Err ConfigurationError) /\
    (In (t, p) not_required -> exists d c, d p = None /\ load_params k None d = Ok c).
Proof.
  intros t k r o H p Hp. pose proof (doc_in_all _ _ _ _ H) as Hk. destruct (doc_required t k r o H p Hp) as (A & B). split.
  - intros N d Hd. apply (load_yaml k d Hk). exists p. split; [apply A, N | exact Hd].
  - intros I. apply (load_without k p Hk), B, I.
Qed.
Print Assumptions C50_required_refuted.
(** simOversize is documented to default to 1.2 and is 1.02. *)
Example C50_defaults_instance :
  let d := fun p => if in_dec string_dec p ["pupilSize"; "nIters"; "loopTime"] then Some (num 64 1) else None in
  exists c, load_params sim_cls None d = Ok c /\ c "simOversize" = Some (num 102 100) /\
    (exists k r o, In ("Sim", (k, (r, o))) doc_tables /\ In ("simOversize", num 12 10) o).
Proof.
  eexists. split; [reflexivity|]. split; [reflexivity|]. do 3 eexists. split; [left; reflexivity|].
  do 10 right. left. reflexivity.
Qed.

(** C51: an assignment to a declared parameter succeeds, is read back and changes nothing else; to any other name it
    raises ConfigurationError and leaves the object as it was. *)
Theorem C51_attributes :
  forall (k : cls) (o : pdict) (name : string) (v : val),
    (declared k name ->
      fst (set_attr k o name v) = Ok tt /\ snd (set_attr k o name v) name = Some v /\
      forall n, n <> name -> snd (set_attr k o name v) n = o n) /\
    (~ declared k name -> set_attr k o name v = (Err ConfigurationError, o)).
Proof. intros k o name v. split; [apply set_attr_ok | apply set_attr_err]. Qed.
Print Assumptions C51_attributes.
Example C51_instance :
  declared sim_cls "loopDelay" /\ ~ declared sim_cls "loopdelay" /\ declared wfs_cls "pxlsPerSubap2" /\
  fst (set_attr sim_cls (fun _ => None) "loopdelay" (num 1 1)) = Err ConfigurationError.
Proof.
  rewrite <- !allowed_iff. repeat split; try (vm_compute; reflexivity). vm_compute. discriminate.
Qed.

(** C52: sizes.  [hmax] is the largest listed layer height. *)
Theorem C52_sizes :
  forall (pupil : Z) (over diam hmax : Qc) (gs : list ((Qc * Qc) * option elongation)) (sci : list (Qc * Qc)) (phys : bool),
    0 < pupil -> (0 < diam)%Qc -> (0 <= hmax)%Qc ->
    let pad := sim_pad pupil over in let sim := sim_size pupil over in let scrn := scrn_size pupil over diam hmax gs sci phys in
    1 <= pad /\ sim = pupil + 2 * pad /\ (1 < pad -> (qc_abs (qz pad - qz pupil * (over - 1) / qz 2) <= qfrac 1 2)%Qc) /\
    scrn mod 2 = 0 /\ sim <= scrn /\ (phys = true -> 2 * sim <= scrn) /\ (pxl_scale pupil diam * diam)%Qc = qz pupil.
Proof.
  intros pupil over diam hmax gs sci phys Hp Hd Hh pad sim scrn.
  destruct (sim_size_spec pupil over) as (A & B).
  split; [exact A|]. split; [exact B|]. split; [apply sim_pad_near|]. split; [apply scrn_even|].
  split; [apply scrn_ge_sim; auto|]. split; [|apply pxl_consistent; intros ->; apply (Qclt_not_eq _ _ Hd); reflexivity].
  intros ->. pose proof (scrn_ge_sim pupil over diam hmax gs sci false Hp Hd Hh) as G. subst sim scrn.
  unfold scrn_size in *. cbv zeta in *. lia.
Qed.
Print Assumptions C52_sizes.
Example C52_instance :
  sim_size 128 (qfrac 102 100) = 130 /\ sim_size 100 (qfrac 12 10) = 120 /\
  scrn_size 128 (qfrac 102 100) (qz 8) (qz 10000) [((qz 30, qz (-20)), None)] [] false = 178.
Proof. repeat split; vm_compute; reflexivity. Qed.

(** C52: the screens are no larger than the furthest target asks for: within two pixels of the pupil moved to both sides. *)
Theorem C52_no_larger :
  forall (pupil : Z) (over diam hmax : Qc) (gs : list ((Qc * Qc) * option elongation)) (sci : list (Qc * Qc)) (phys : bool) (m : Qc),
    0 < pupil -> (0 < diam)%Qc -> (0 <= hmax)%Qc -> (0 <= m)%Qc ->
    (forall p e, In (p, e) gs -> e = None /\ (qc_abs (fst p) <= m)%Qc /\ (qc_abs (snd p) <= m)%Qc) ->
    (forall p, In p sci -> (qc_abs (fst p) <= m)%Qc /\ (qc_abs (snd p) <= m)%Qc) ->
    (qz (scrn_size pupil over diam hmax gs sci phys) <=
     (if phys then qz 2 else 1) * (qz (sim_size pupil over) + qz 2 * (m * ASEC2RAD * hmax * pxl_scale pupil diam) + qz 2))%Qc.
Proof. exact scrn_no_larger. Qed.
Print Assumptions C52_no_larger.
(** No off-axis target: at most two pixels more than the pupil. *)
Example C52_no_larger_instance : scrn_size 128 (qfrac 102 100) (qz 8) (qz 10000) [] [] false = 130.
Proof. vm_compute. reflexivity. Qed.

(** C53: every beam (of full width, or narrowed by the cone effect, 0 <= k <= 1) towards a coordinate x arcseconds off axis falls
    within the screen at every height up to the highest layer, when |x| is at most one of the coordinates that enter the maximum: those
    of the guide stars, made positive, and those of the science targets as they are. *)
Theorem C53_partial :
  forall (pupil : Z) (over diam hmax : Qc) (gs : list ((Qc * Qc) * option elongation)) (sci : list (Qc * Qc)) (phys : bool) (h x k : Qc),
    0 < pupil -> (0 < diam)%Qc -> (0 <= h)%Qc -> (h <= hmax)%Qc -> (0 <= k)%Qc -> (k <= 1)%Qc ->
    (exists p, In (p, None) gs /\ (coord x p \/ coord (- x)%Qc p)) \/ (exists y p, In p sci /\ coord y p /\ (qc_abs x <= y)%Qc) ->
    beam_inside (scrn_size pupil over diam hmax gs sci phys) (sim_size pupil over) (pxl_scale pupil diam) (x * ASEC2RAD * h) k.
Proof.
  intros pupil over diam hmax gs sci phys h x k Hp Hd H0 H1 K0 K1 T.
  assert (Y : exists y, In y (flat (map (gs_entry diam) gs ++ sci)) /\ (qc_abs x <= y)%Qc).
  { destruct T as [((a & b) & I & C) | (y & p & I & C & L)].
    - exists (qc_abs x). split; [|apply Qcle_refl]. apply (flat_in _ (qc_abs a, qc_abs b)).
      + apply in_or_app. left. apply in_map_iff. exists ((a, b), None). auto.
      + unfold coord in *. cbn [fst snd] in *. rewrite <- (qc_abs_opp x).
        destruct C as [[-> | ->] | [E | E]]; rewrite ?E, ?qc_abs_opp; auto.
    - exists y. split; auto. apply (flat_in _ p); auto. apply in_or_app. auto. }
  destruct Y as (y & I & L). eapply scrn_covers; eauto.
Qed.
Print Assumptions C53_partial.
Example C53_instance :
  let gs := [((qz (-30), qz 5), None)] in
  (exists p, In (p, None) gs /\ coord (qz (-30)) p) /\
  scrn_size 128 (qfrac 102 100) (qz 8) (qz 10000) gs [] false = 178.
Proof.
  cbv zeta. split; [|vm_compute; reflexivity]. exists (qz (-30), qz 5). split; [left; reflexivity | left; reflexivity].
Qed.

(** C53, refuted: a science camera at (-a, 0), alone, whose beam moves by more than half a pixel at the highest layer leaves the screen, for
    every pupil, telescope, oversizing and height: science positions enter the maximum with their sign. *)
Theorem C53_refuted :
  forall (pupil : Z) (over diam hmax a : Qc), 0 < pupil -> (0 < diam)%Qc -> (0 < hmax)%Qc -> (0 < a)%Qc ->
    (1 < qz 2 * (a * ASEC2RAD * hmax * pxl_scale pupil diam))%Qc ->
    ~ beam_inside (scrn_size pupil over diam hmax [] [((- a)%Qc, 0%Qc)] false) (sim_size pupil over) (pxl_scale pupil diam) (- a * ASEC2RAD * hmax) 1.
Proof. exact science_escapes. Qed.
Print Assumptions C53_refuted.
Example C53_refuted_instance : (1 < qz 2 * (qz 30 * ASEC2RAD * qz 10000 * pxl_scale 128 (qz 8)))%Qc.
Proof. vm_compute. reflexivity. Qed.
(** C53, refuted for elongated guide stars: one launched on axis and placed at (-a, b), where b and a - 2b move the beam by more than a
    pixel at the highest layer, gets a screen that does not hold its own beam. *)
Theorem C53_elongated_refuted :
  forall (pupil : Z) (over diam hmax a b : Qc) (e : elongation), 0 < pupil -> (0 < diam)%Qc -> (0 < hmax)%Qc ->
    el_depth e <> 0%Qc -> el_launch e = 0%Qc ->
    (1 < b * ASEC2RAD * hmax * pxl_scale pupil diam)%Qc -> (1 < (a - qz 2 * b) * ASEC2RAD * hmax * pxl_scale pupil diam)%Qc ->
    ~ beam_inside (scrn_size pupil over diam hmax [(((- a)%Qc, b), Some e)] [] false) (sim_size pupil over) (pxl_scale pupil diam) (- a * ASEC2RAD * hmax) 1.
Proof. exact elongated_escapes. Qed.
Print Assumptions C53_elongated_refuted.
Example C53_elongated_refuted_instance :
  (1 < qz 5 * ASEC2RAD * qz 10000 * pxl_scale 128 (qz 8))%Qc /\ (1 < (qz 30 - qz 2 * qz 5) * ASEC2RAD * qz 10000 * pxl_scale 128 (qz 8))%Qc.
Proof. split; vm_compute; reflexivity. Qed.
(** C53, partial: an elongated guide star with coordinates that are not negative: the beams of all its layers, dh metres from the middle
    one, stay inside, for every launch position within the configured distance.  Missing: negative coordinates. *)
Theorem C53_elongated_partial :
  forall (pupil : Z) (over diam hmax : Qc) (gs : list ((Qc * Qc) * option elongation)) (sci : list (Qc * Qc)) (phys : bool)
         (h x y : Qc) (e : elongation) (c dh v k : Qc),
    0 < pupil -> (0 < diam)%Qc -> (0 <= h)%Qc -> (h <= hmax)%Qc -> (0 <= k)%Qc -> (k <= 1)%Qc ->
    In ((x, y), Some e) gs -> (0 <= x)%Qc -> (0 <= y)%Qc -> coord c (x, y) ->
    (0 < el_depth e)%Qc -> (el_depth e < qz 2 * el_height e)%Qc ->
    (qc_abs dh <= el_depth e / qz 2)%Qc -> (qc_abs v <= el_launch e * diam / qz 2)%Qc ->
    beam_inside (scrn_size pupil over diam hmax gs sci phys) (sim_size pupil over) (pxl_scale pupil diam)
      ((c - dh * v / (el_height e * (el_height e + dh)) * RAD2ASEC) * ASEC2RAD * h) k.
Proof. exact elongated_covered. Qed.
Print Assumptions C53_elongated_partial.
Example C53_elongated_partial_instance :
  let e := mkElong (qz 10000) (qz 90000) 1 in
  (0 < el_depth e)%Qc /\ (el_depth e < qz 2 * el_height e)%Qc /\ (qc_abs (qz (-5000)) <= el_depth e / qz 2)%Qc /\
  (qc_abs (qz 4) <= el_launch e * qz 8 / qz 2)%Qc.
Proof. repeat split; vm_compute; (reflexivity || discriminate). Qed.

(** C54: recomputing the derived parameters twice changes nothing. *)
Theorem C54_idempotent :
  forall c c' : cfg, Forall (fun s => s_pxls s <> 0%Qc) (c_scis c) -> calc_params c = Ok c' -> calc_params c' = Ok c'.
Proof. exact calc_idem. Qed.
Print Assumptions C54_idempotent.
(** C54, partial: when every parameter with a derived default was given, recomputing after any edit is loading the edited values. *)
Theorem C54_partial :
  forall (c c' : cfg) (edit : cfg -> cfg), fully_given c -> calc_params c = Ok c' -> calc_params (edit c') = calc_params (edit c).
Proof. intros c c' edit F E. rewrite (calc_full c F) in E. injection E as <-. reflexivity. Qed.
Print Assumptions C54_partial.
(** C54, refuted: a defaulted exposure time, mirror diameter or outer scale keeps the value derived from the old loop time,
    telescope diameter or number of layers when these are edited. *)
Theorem C54_exposure_refuted :
  forall (c c' c2 c3 : cfg) (w : wcfg) (t : Qc), In w (c_wfss c) -> w_exposure w = None -> c_loop c <> 0%Qc -> t <> c_loop c ->
    calc_params c = Ok c' -> calc_params (set_loop t c') = Ok c2 -> calc_params (set_loop t c) = Ok c3 -> c_wfss c2 <> c_wfss c3.
Proof. exact exposure_stale. Qed.
Print Assumptions C54_exposure_refuted.
Theorem C54_diameter_refuted :
  forall (c c' c2 c3 : cfg) (D : Qc), In None (c_dms c) -> D <> c_diam c ->
    calc_params c = Ok c' -> calc_params (set_diam D c') = Ok c2 -> calc_params (set_diam D c) = Ok c3 -> c_dms c2 <> c_dms c3.
Proof. exact diameter_stale. Qed.
Print Assumptions C54_diameter_refuted.
Theorem C54_layers_refuted :
  forall (c c' c2 c3 : cfg) (n : nat), c_L0 c = None -> n <> c_scrns c ->
    calc_params c = Ok c' -> calc_params (set_scrns n c') = Ok c2 -> calc_params (set_scrns n c) = Ok c3 -> c_L0 c2 <> c_L0 c3.
Proof. exact layers_stale. Qed.
Print Assumptions C54_layers_refuted.
(** ... and an edited science field of view is undone: it goes back to the old pixel scale times the number of pixels. *)
Theorem C54_fov_refuted :
  forall (s s' : scfg) (f g : Qc), s_pxls s <> 0%Qc -> s_scale s = None -> s_fov s = Some f -> g <> f -> calc_sci s = Ok s' ->
    calc_sci (set_fov g s') = Ok s'.
Proof. exact fov_undone. Qed.
Print Assumptions C54_fov_refuted.
Example C54_instance :
  let c := mkCfg (qfrac 1 400) (qz 8) 1 None [mkW None 8 false] [None] [mkS None (Some (qz 2)) (qz 64)] in
  exists c', calc_params c = Ok c' /\ c_dms c' = [Some (qz 8)] /\ c_L0 c' = Some [qz 10000000000] /\
    fully_given c' /\ exists c2, calc_params (set_loop (qfrac 1 500) c') = Ok c2 /\ c_wfss c2 = [mkW (Some (qfrac 1 400)) 8 false].
Proof.
  cbv zeta. eexists. split; [reflexivity|]. split; [reflexivity|]. split; [reflexivity|]. split.
  - unfold fully_given. cbn [c_L0 c_wfss c_dms c_scis calc_scis map]. split; [discriminate|]. split; [|split].
    + repeat constructor; cbn; [|discriminate]. eexists. split; [reflexivity|]. qc_neq.
    + repeat constructor. discriminate.
    + repeat constructor. exists (qz 2 / qz 64)%Qc. cbn. split; [reflexivity|]. split; [|qc_neq]. f_equal. qc_compute.
  - eexists. split; [reflexivity|]. cbn [c_wfss map set_loop calc_wfs w_exposure w_nx w_stop c_loop]. reflexivity.
Qed.

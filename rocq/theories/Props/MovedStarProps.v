(** Property theorem C208: moving a guide star. *)
From Verif.Base Require Import Vec.
From Verif.Model Require Import MovedStar.
From Verif.Spec Require Import MovedStarSpec.
From Verif.Proofs Require Import MovedStarProofs.
Local Open Scope Qc_scope.

(** C208: whatever is set, nothing raises, and the position and the height of a light path, current or legacy, read back as last set. *)
Theorem C208_reads_back :
  forall (g : scene) (layers dms : list Qc) (b : bool) (p : Qc * Qc) (h : Qc) (ms : list move),
    (exists l0 l1, build g layers dms (configured b p h) = Ok l0 /\ path_moves g layers dms ms l0 = Ok l1 /\
       get_position (p_conf l1) = Ok (last_position b ms p p) /\ get_height (p_conf l1) = Ok (last_height ms h)) /\
    (exists q0 q1, legacy_build g layers (configured b p h) = Ok q0 /\ legacy_moves ms q0 = Ok q1 /\
       get_position (l_conf q1) = Ok (last_position b ms p p) /\ get_height (l_conf q1) = Ok (last_height ms h)).
Proof.
  intros g layers dms b p h ms. rewrite shape_start. split.
  - rewrite build_eq. destruct (path_all g layers dms b ms p p h h (map (edges g p h) layers) (map (edges g p h) dms)) as (ls & ds & E & _). eexists _, _. split; [reflexivity|]. split; [exact E|].
    cbn [p_conf]. rewrite shape_position, shape_height. split; reflexivity.
  - unfold legacy_build. rewrite shape_height. cbn [bind]. eexists _, _. split; [reflexivity|]. rewrite legacy_all. split; [reflexivity|]. cbn [l_conf]. rewrite shape_position, shape_height. split; reflexivity.
Qed.
Print Assumptions C208_reads_back.

(** C208: but a position set on the light path of a sensor lasts only until its configuration is calculated again, and its GSPosition, which lasers and sodium layers take, is not moved. *)
Theorem C208_forgotten_refuted :
  forall (g : scene) (layers dms : list Qc) (p q : Qc * Qc) (h : Qc),
    exists l0 l1 l2, build g layers dms (configured true p h) = Ok l0 /\ path_moves g layers dms [SetPosition q] l0 = Ok l1 /\ path_moves g layers dms [CalcParams] l1 = Ok l2 /\
      get_position (p_conf l1) = Ok q /\ c_gs_position (p_conf l1) = Some p /\ get_position (p_conf l2) = Ok p.
Proof. intros. eexists _, _, _. rewrite shape_start, build_eq. repeat split. Qed.
Print Assumptions C208_forgotten_refuted.

(** C208: a current light path goes on reading what it read when it was built, whatever is set; one that is built anew from the same configuration reads something else. *)
Theorem C208_current_refuted :
  forall (g : scene) (layers dms : list Qc) (b : bool) (p : Qc * Qc) (h : Qc) (ms : list move),
    asec g <> 0 -> px g <> 0 -> (exists a, In a layers /\ a <> 0) -> existsb is_recalc ms = false -> last_position b ms p p <> p ->
    exists l0 l1 anew, build g layers dms (configured b p h) = Ok l0 /\ path_moves g layers dms ms l0 = Ok l1 /\ build g layers dms (p_conf l1) = Ok anew /\
      reads l1 = reads l0 /\ fst (reads anew) <> fst (reads l1).
Proof.
  intros g layers dms b p h ms A P (a & IA & NA) R N. rewrite shape_start, build_eq. destruct (path_all g layers dms b ms p p h h (map (edges g p h) layers) (map (edges g p h) dms)) as (ls & ds & E & K). destruct (K R) as [-> ->].
  eexists _, _, _. split; [reflexivity|]. split; [exact E|]. cbn [p_conf]. rewrite build_eq. split; [reflexivity|]. unfold reads. cbn [p_layers p_dms fst]. split; [reflexivity|]. intro Q. apply N.
  assert (M : edges g (last_position b ms p p) (last_height ms h) a = edges g p h a).
  { apply In_nth_error in IA. destruct IA as [k Hk]. apply (f_equal (fun l => nth_error l k)) in Q. rewrite !nth_error_map, Hk in Q. exact (some_inj _ _ Q). }
  apply (f_equal middle) in M. rewrite !edges_middle in M by exact P. pose proof (f_equal fst M) as M1. pose proof (f_equal snd M) as M2. cbn [fst snd] in M1, M2.
  assert (C : forall u v, scrn g / qz 2 + asec g * u * a / px g = scrn g / qz 2 + asec g * v * a / px g -> u = v).
  { generalize (scrn g / qz 2). intros B u v H. assert (H2 : asec g * u * a = asec g * v * a). { replace (asec g * u * a) with ((B + asec g * u * a / px g - B) * px g) by (field; exact P). rewrite H. field. exact P. }
    replace u with (asec g * u * a / (asec g * a)) by (field; auto). rewrite H2. field. auto. }
  destruct p as [p1 p2]. rewrite (surjective_pairing (last_position b ms (p1, p2) (p1, p2))). f_equal; [exact (C _ _ M1)|exact (C _ _ M2)].
Qed.
Print Assumptions C208_current_refuted.

(** C208: after calcInitParams it looks to the new position, at every altitude, but still with the cone of the height it was built with. *)
Theorem C208_height_refuted :
  forall (g : scene) (layers dms : list Qc) (b : bool) (p : Qc * Qc) (h : Qc) (ms : list move), px g <> 0 ->
    exists l0 l1, build g layers dms (configured b p h) = Ok l0 /\ path_moves g layers dms (ms ++ [Recalc]) l0 = Ok l1 /\
      let pos := last_position b ms p p in
      (forall k a s, (nth_error layers k = Some a /\ nth_error (fst (reads l1)) k = Some s) \/ (nth_error dms k = Some a /\ nth_error (snd (reads l1)) k = Some s) ->
        middle s = (scrn g / qz 2 + asec g * fst pos * a / px g, scrn g / qz 2 + asec g * snd pos * a / px g) /\ width s = (beam g * cone h a / px g, beam g * cone h a / px g)) /\
      length (fst (reads l1)) = length layers /\ length (snd (reads l1)) = length dms /\ get_height (p_conf l1) = Ok (last_height ms h).
Proof.
  intros g layers dms b p h ms P. rewrite shape_start, build_eq. destruct (path_all g layers dms b ms p p h h (map (edges g p h) layers) (map (edges g p h) dms)) as (ls & ds & E & _).
  eexists _, _. split; [reflexivity|]. rewrite path_app, E. cbn [bind path_moves]. unfold path_move. cbn [conf_move bind p_conf p_src p_layers p_dms]. unfold recalc. cbn [p_conf p_src]. rewrite shape_position. cbn [bind]. split; [reflexivity|].
  cbv zeta. unfold reads. cbn [p_layers p_dms p_conf fst snd]. rewrite !map_length, shape_height. split; [|repeat split]. intros k a s H. rewrite !nth_error_map in H.
  assert (S : s = edges g (last_position b ms p p) h a) by (destruct H as [[H1 H2]|[H1 H2]]; rewrite H1 in H2; symmetry; exact (some_inj _ _ H2)). subst s. rewrite edges_middle, edges_width by exact P. split; reflexivity.
Qed.
Print Assumptions C208_height_refuted.

(** C208: every frame of a legacy light path reads what lies towards the position as it is then. *)
Theorem C208_legacy_partial :
  forall (g : scene) (tn : Qc -> Qc) (layers dms : list Qc) (b : bool) (p : Qc * Qc) (h : Qc) (ms : list move),
    exists q0 q1 rl rd, legacy_build g layers (configured b p h) = Ok q0 /\ legacy_moves ms q0 = Ok q1 /\ legacy_reads g tn layers dms q1 = Ok (rl, rd) /\
      length rl = length layers /\ length rd = length dms /\
      let pos := last_position b ms p p in
      forall k a s, (nth_error layers k = Some a /\ nth_error rl k = Some (Some s)) \/ (nth_error dms k = Some a /\ nth_error rd k = Some (Some s)) ->
        middle s = (scrn g / qz 2 + tn (asec g * fst pos) * a / px g, scrn g / qz 2 + tn (asec g * snd pos) * a / px g).
Proof.
  intros g tn layers dms b p h ms. rewrite shape_start. unfold legacy_build. rewrite shape_height. cbn [bind]. eexists _, _, _, _. split; [reflexivity|]. rewrite legacy_all. split; [reflexivity|].
  unfold legacy_reads. cbn [l_conf l_radii]. rewrite shape_position, shape_height. cbn [bind]. split; [reflexivity|]. split; [|split; [apply map_length|]].
  - destruct (Qc_eq_dec h 0); rewrite map_length; [reflexivity|]. rewrite combine_length, map_length, Nat.min_id. reflexivity.
  - intros k a s [[H1 H2]|[H1 H2]].
    + destruct (Qc_eq_dec h 0).
      * rewrite nth_error_map, H1 in H2. apply some_inj in H2. exact (piece_middle _ _ _ _ _ _ H2).
      * rewrite nth_error_map in H2. destruct (nth_error (combine _ layers) k) as [[r a']|] eqn:C; [|discriminate H2]. apply some_inj in H2. cbn [fst snd] in H2.
        assert (a' = a). { apply (f_equal (option_map snd)) in C. rewrite <- nth_error_map in C.
          assert (SC : forall (l : list Qc) (m : list Qc), length l = length m -> map snd (combine l m) = m) by (induction l as [|x l IH]; destruct m; cbn; intro L; try discriminate L; [reflexivity|f_equal; apply IH; injection L as L; exact L]).
          rewrite SC in C by apply map_length. rewrite H1 in C. injection C as ->. reflexivity. }
        subst a'. exact (piece_middle _ _ _ _ _ _ H2).
    + rewrite nth_error_map, H1 in H2. apply some_inj in H2. exact (piece_middle _ _ _ _ _ _ H2).
Qed.
Print Assumptions C208_legacy_partial.

(** C208: but its cone through the screens is that of the height it was built with, while that through the mirrors is the one of the height as it is: a mirror covers the same part of the
    turbulence at its altitude if and only if the height is again what it was. *)
Theorem C208_cone_refuted :
  forall (g : scene) (tn : Qc -> Qc) (layers dms : list Qc) (b : bool) (p : Qc * Qc) (h : Qc) (ms : list move) (i j : nat) (a : Qc),
    tel g = pupil g * px g -> px g <> 0 -> pupil g <> 0 -> coord g <> 0 -> nth_error layers i = Some a -> nth_error dms j = Some a -> 0 < a -> (h = 0 \/ a < h) ->
    let h' := last_height ms h in (h' = 0 \/ a < h') ->
    exists q0 q1 rl rd s m, legacy_build g layers (configured b p h) = Ok q0 /\ legacy_moves ms q0 = Ok q1 /\ legacy_reads g tn layers dms q1 = Ok (rl, rd) /\
      nth_error rl i = Some (Some s) /\ nth_error rd j = Some (Some m) /\ middle s = middle m /\
      width s = (qz 2 * coord g * cone h a, qz 2 * coord g * cone h a) /\ width m = (qz 2 * coord g * cone h' a, qz 2 * coord g * cone h' a) /\ (s = m <-> h' = h).
Proof.
  intros g tn layers dms b p h ms i j a T P U Z LI DJ A H h' H'. rewrite shape_start. unfold legacy_build. rewrite shape_height. cbn [bind].
  set (pos := last_position b ms p p). destruct (piece_width g tn pos h a T P U A H) as [(s1 & E1 & W1) K]. destruct (piece_width g tn pos h' a T P U A H') as [(m & E2 & W2) _].
  assert (S : exists s, nth_error (match (if Qc_eq_dec h 0 then None else Some (map (fun x => meta_pupil g h x h / px g) layers)) with None => map (piece g tn pos None) layers
      | Some rs => map (fun q => piece g tn pos (Some (fst q)) (snd q)) (combine rs layers) end) i = Some (Some s) /\ width s = (qz 2 * coord g * cone h a, qz 2 * coord g * cone h a) /\
      middle s = (scrn g / qz 2 + tn (asec g * fst pos) * a / px g, scrn g / qz 2 + tn (asec g * snd pos) * a / px g)).
  { destruct (Qc_eq_dec h 0) as [Z0|N].
    - destruct (K Z0) as (s & E & W). exists s. rewrite nth_error_map, LI. cbn [option_map]. rewrite E. split; [reflexivity|]. split; [exact W|exact (piece_middle _ _ _ _ _ _ E)].
    - exists s1. rewrite nth_error_map. assert (C : forall (f : Qc -> Qc) l k x, nth_error l k = Some x -> nth_error (combine (map f l) l) k = Some (f x, x)).
      { induction l as [|y l IH]; intros [|k] x Q; try discriminate Q; [injection Q as ->; reflexivity|exact (IH k x Q)]. }
      rewrite (C _ _ _ _ LI). cbn [option_map fst snd]. rewrite E1. split; [reflexivity|]. split; [exact W1|exact (piece_middle _ _ _ _ _ _ E1)]. }
  destruct S as (s & ES & WS & MS). pose proof (piece_middle _ _ _ _ _ _ E2) as MM. eexists _, _, _, _, s, m. split; [reflexivity|]. rewrite legacy_all. split; [reflexivity|]. unfold legacy_reads. cbn [l_conf l_radii].
  rewrite shape_position, shape_height. cbn [bind]. split; [reflexivity|]. fold pos h'. split; [exact ES|]. split; [rewrite nth_error_map, DJ; cbn [option_map]; rewrite E2; reflexivity|].
  split; [rewrite MS, MM; reflexivity|]. split; [exact WS|]. split; [exact W2|]. pose proof two_nz as T0. assert (T2 : qz 2 = 1 + 1) by (apply Qc_is_canon; reflexivity). split.
  - intros ->. rewrite WS in W2. apply (f_equal fst) in W2. cbn [fst] in W2. apply (cone_inj h' h a); [intro Y; rewrite Y in A; exact (Qclt_not_eq _ _ A eq_refl)|].
    replace (cone h' a) with (qz 2 * coord g * cone h' a / (qz 2 * coord g)) by (field; auto). rewrite <- W2. field. auto.
  - intro Y. rewrite Y in W2. assert (EX : forall u v : square, middle u = middle v -> width u = width v -> u = v).
    { intros [[[x1 x2] y1] y2] [[[u1 u2] v1] v2] M W. unfold middle, width in *. pose proof (f_equal fst M) as M1. pose proof (f_equal snd M) as M2. pose proof (f_equal fst W) as V1. pose proof (f_equal snd W) as V2. cbn [fst snd] in M1, M2, V1, V2. clear M W. rewrite T2 in *.
      assert (Q : forall e f e' f', (e + f) / (1 + 1) = (e' + f') / (1 + 1) -> f - e = f' - e' -> e = e' /\ f = f').
      { intros e f e' f' Q1 Q2. split; [replace e with ((e + f) / (1 + 1) - (f - e) / (1 + 1)) by (field; exact T0)|replace f with ((e + f) / (1 + 1) + (f - e) / (1 + 1)) by (field; exact T0)]; rewrite Q1, Q2; field; exact T0. }
      destruct (Q _ _ _ _ M1 V1) as [-> ->]. destruct (Q _ _ _ _ M2 V2) as [-> ->]. reflexivity. }
    apply EX; [rewrite MS, MM; reflexivity|rewrite WS, W2; reflexivity].
Qed.
Print Assumptions C208_cone_refuted.

(** A telescope of 8 m with 64 pixels, a guide star at 90 km that is moved to 10'' and lowered to 80 km, a layer and a mirror at 10 km: the hypotheses of the theorems hold, and this is what
    a current and a legacy path read. *)
Example C208_instance :
  let g := mkScene (qfrac 1 200000) (qz 8) (qfrac 1 8) (qz 128) (qz 8) (qz 64) (qz 32) in
  let ms := [SetPosition (qz 10, 0); SetHeight (qz 80000)] in
  (asec g <> 0 /\ px g <> 0 /\ last_position true ms (0, 0) (0, 0) <> (0, 0) /\ tel g = pupil g * px g /\ pupil g <> 0 /\ coord g <> 0 /\ 0 < qz 10000 /\ qz 10000 < qz 90000 /\ qz 10000 < last_height ms (qz 90000)) /\
  match (let* l := build g [qz 10000] [qz 10000] (configured true (0, 0) (qz 90000)) in path_moves g [qz 10000] [qz 10000] ms l),
        (let* q := legacy_build g [qz 10000] (configured true (0, 0) (qz 90000)) in let* q := legacy_moves ms q in legacy_reads g (fun x => x) [qz 10000] [qz 10000] q) with
  | Ok l, Ok (rl, rd) =>
      let show s := let '(x1, x2, y1, y2) := s in map (fun q => (Qnum (this q), Qden (this q))) [x1; x2; y1; y2] in
      map show (fst (reads l)) = [[(320%Z, 9%positive); (832%Z, 9%positive); (320%Z, 9%positive); (832%Z, 9%positive)]] /\
      map (option_map show) rl = [Some [(356%Z, 9%positive); (868%Z, 9%positive); (320%Z, 9%positive); (832%Z, 9%positive)]] /\
      map (option_map show) rd = [Some [(40%Z, 1%positive); (96%Z, 1%positive); (36%Z, 1%positive); (92%Z, 1%positive)]]
  | _, _ => False
  end.
Proof.
  cbv zeta. split; [|vm_compute; repeat split; reflexivity].
  assert (D : forall x y : Qc, (if Qc_eq_dec x y then true else false) = false -> x <> y) by (intros x y; destruct (Qc_eq_dec x y); [discriminate|auto]).
  repeat split; try (apply D; vm_compute; reflexivity); try (apply Qc_is_canon; vm_compute; reflexivity); try (vm_compute; reflexivity).
  intro E. apply (f_equal fst) in E. revert E. apply D. vm_compute. reflexivity.
Qed.

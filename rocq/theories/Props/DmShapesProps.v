(** C111-C114: the influence functions of the mirrors. *)
From Verif.Base Require Import Vec PyFacts.
From Verif.Model Require Import Recon Numerics Dm DmShapes.
From Verif.Spec Require Import DmSpec DmShapesSpec.
From Verif.Proofs Require Import DmProofs DmShapesProofs.

(** ** C111  FastPiezo is a fast Piezo *)
Theorem C111_fast_piezo_agrees : forall spl n nx scrn ival flags css,
  linear_spline spl -> (0 < n)%nat -> 0 < nx -> 0 <= scrn -> Z.even nx = true -> Z.even scrn = true ->
  let dms := piezo_size nx (Z.of_nat n) in
  let coords := keep flags (piezo_coords n) in
  dms <> scrn -> coords <> [] -> Forall (fun cs => length cs = length coords) css ->
  exists sh, piezo_shapes spl n dms scrn ival = Ok sh /\
    forall t cs o1 o2, nth_error css t = Some cs ->
      nth_error (dm_history scrn 0 (keep flags sh) (arr_zero scrn) css) t = Some o1 ->
      nth_error (fast_history spl n dms scrn ival 0 coords (arr_zero scrn) css) t = Some o2 ->
      exists r1 r2, o1 = Ok r1 /\ o2 = Ok r2 /\
        nrow r1 = scrn /\ ncol r1 = scrn /\ nrow r2 = scrn /\ ncol r2 = scrn /\
        (forall i j, 0 <= i < scrn -> 0 <= j < scrn -> at2 r1 i j = (at2 r2 i j - average scrn (at2 r2))%Qc) /\
        (dms < scrn -> average scrn (at2 r2) = 0%Qc).
Proof.
  intros spl n nx scrn ival flags css HL Hn Hx Hs E1 E2 dms coords Hne Hk HF.
  assert (Hd : 0 < dms). { unfold dms, piezo_size. pose proof (round_div_nonneg nx (Z.of_nat n) ltac:(lia) ltac:(lia)). lia. }
  assert (HE : Z.even (dms - scrn) = true).
  { unfold dms, piezo_size. rewrite Z.even_sub, Z.even_add, Z.even_mul, E1, E2. reflexivity. }
  destruct (stack_and_fast spl HL n dms scrn ival ltac:(lia) Hs HE flags css Hne Hk HF) as (sh & Esh & H).
  exists sh. split; [exact Esh|]. intros t cs o1 o2 Ht H1 H2.
  destruct (H t cs o1 o2 Ht H1 H2) as (r1 & r2 & A & B & C1 & C2 & C3 & C4 & _ & D & E). exists r1, r2.
  do 7 (split; [auto|]). intros Hlt. apply E. lia.
Qed.
Print Assumptions C111_fast_piezo_agrees.

(** Nine actuators of which five are in use, on a mirror that is larger than the screen (nx 6, so 10 with the
    margin, seen in 8). *)
Definition flags5 : list bool := [false; true; false; true; true; true; false; true; false].
Example C111_instance :
  linear_spline hat_spline /\ even_spline hat_spline /\
  piezo_size 6 3 = 10 /\ length (keep flags5 (piezo_coords 3)) = 5%nat /\
  exists sh r1 r2, piezo_shapes hat_spline 3 10 8 1 = Ok sh /\
    nth_error (dm_history 8 0 (keep flags5 sh) (arr_zero 8) [[1; 0; qz 2; 0; 0]%Qc]) 0 = Some (Ok r1) /\
    nth_error (fast_history hat_spline 3 10 8 1 0 (keep flags5 (piezo_coords 3)) (arr_zero 8) [[1; 0; qz 2; 0; 0]%Qc]) 0 = Some (Ok r2) /\
    at2 r1 3 3 <> at2 r1 0 0 /\ at2 r2 3 3 <> at2 r1 3 3.
Proof.
  split; [exact hat_linear|]. split; [exact hat_mirror|]. do 2 (split; [reflexivity|]).
  do 3 eexists. split; [reflexivity|]. split; [reflexivity|]. split; [reflexivity|].
  split; apply qc_neq_b; vm_compute; reflexivity.
Qed.

(** ** C112  Tip-tilt commands are in arcsec *)
(** What a command does: a tilt of the same sign convention along one axis only, but too large by the factor
    pupil/(nx-1), where nx is the number of elements across the mirror. *)
Theorem C112_tip_tilt_arcsec_partial : forall nx scrn asec tel ival pupil css t a b out,
  2 <= nx -> 0 <= scrn -> Z.even (nx - scrn) = true -> asec <> 0%Qc -> tel <> 0%Qc -> 0 < pupil ->
  Forall (fun cs => length cs = 2%nat) css -> nth_error css t = Some [a; b] ->
  nth_error (dm_history scrn 0 (tt_shapes nx asec tel ival) (arr_zero scrn) css) t = Some out ->
  exists r, out = Ok r /\ nrow r = scrn /\ ncol r = scrn /\
    (forall i j, 0 <= i < scrn -> 0 <= j -> j + 1 < scrn ->
       0 <= i + (nx - scrn) / 2 < nx -> 0 <= j + (nx - scrn) / 2 -> j + 1 + (nx - scrn) / 2 < nx ->
       tilt_arcsec asec tel pupil (at2 r i (j + 1) - at2 r i j) = (- (a * ival * (qz pupil / qz (nx - 1))))%Qc) /\
    (forall i j, 0 <= j < scrn -> 0 <= i -> i + 1 < scrn ->
       0 <= j + (nx - scrn) / 2 < nx -> 0 <= i + (nx - scrn) / 2 -> i + 1 + (nx - scrn) / 2 < nx ->
       tilt_arcsec asec tel pupil (at2 r (i + 1) j - at2 r i j) = (- (b * ival * (qz pupil / qz (nx - 1))))%Qc).
Proof. exact tt_tilt. Qed.
Print Assumptions C112_tip_tilt_arcsec_partial.

(** So no mirror the size of the pupil gives the commanded tilt, and a mirror twice that size about half of it. *)
Theorem C112_tip_tilt_arcsec_refuted : forall nx scrn asec tel ival pupil css t a b out i j,
  2 <= nx -> 0 <= scrn -> Z.even (nx - scrn) = true -> asec <> 0%Qc -> tel <> 0%Qc -> 2 <= pupil ->
  Forall (fun cs => length cs = 2%nat) css -> nth_error css t = Some [a; b] ->
  nth_error (dm_history scrn 0 (tt_shapes nx asec tel ival) (arr_zero scrn) css) t = Some out ->
  (nx = pupil \/ nx = 2 * pupil) -> (a * ival)%Qc <> 0%Qc ->
  0 <= i < scrn -> 0 <= j -> j + 1 < scrn ->
  0 <= i + (nx - scrn) / 2 < nx -> 0 <= j + (nx - scrn) / 2 -> j + 1 + (nx - scrn) / 2 < nx ->
  exists r, out = Ok r /\
    tilt_arcsec asec tel pupil (at2 r i (j + 1) - at2 r i j) <> (- (a * ival))%Qc /\
    (nx = 2 * pupil -> (tilt_arcsec asec tel pupil (at2 r i (j + 1) - at2 r i j) * (qz 2 - 1 / qz pupil) = - (a * ival))%Qc).
Proof.
  intros nx scrn asec tel ival pupil css t a b out i j Hn Hs HE Ha Ht Hp HF Hc Ho Hor Hai Hi Hj Hj' Hih Hjh Hjh'.
  destruct (tt_tilt nx scrn asec tel ival pupil css t a b out Hn Hs HE Ha Ht ltac:(lia) HF Hc Ho) as (r & E & _ & _ & H & _).
  exists r. split; [exact E|]. rewrite (H i j) by auto.
  assert (Qn : qz (nx - 1) <> 0%Qc) by (apply qz_neq0; lia).
  assert (Qp : qz pupil <> 0%Qc) by (apply qz_neq0; lia). split.
  - intros C.
    assert (G : (a * ival * (qz pupil - qz (nx - 1)))%Qc = 0%Qc).
    { replace (a * ival * (qz pupil - qz (nx - 1)))%Qc
        with (qz (nx - 1) * (- (a * ival) - - (a * ival * (qz pupil / qz (nx - 1)))))%Qc by (field; auto).
      rewrite C. ring. }
    apply Qcmult_integral in G as [G|G]; [contradiction|]. rewrite <- qz_sub in G. revert G. apply qz_neq0. lia.
  - intros ->. replace (qz (2 * pupil - 1)) with (qz 2 * qz pupil - 1)%Qc by (rewrite qz_sub, qz_mul, qz_1; reflexivity).
    rewrite qz_sub, qz_mul, qz_1 in Qn. field. split; auto.
Qed.
Print Assumptions C112_tip_tilt_arcsec_refuted.

(** Eight elements across pupil and mirror, ten across the screen: a command of one arcsec tilts by 8/7 arcsec. *)
Example C112_instance :
  exists r, nth_error (dm_history 10 0 (tt_shapes 8 (Q2Qc (1 # 1000)) (qz 8) 1) (arr_zero 10) [[1; 0]%Qc]) 0 = Some (Ok r) /\
    tilt_arcsec (Q2Qc (1 # 1000)) (qz 8) 8 (at2 r 4 5 - at2 r 4 4) = Q2Qc (-8 # 7) /\
    tilt_arcsec (Q2Qc (1 # 1000)) (qz 8) 8 (at2 r 5 4 - at2 r 4 4) = 0%Qc.
Proof. eexists. split; [reflexivity|]. split; apply Qc_is_canon; vm_compute; reflexivity. Qed.

(** ** C113  Actuators are placed symmetrically *)
Theorem C113_piezo_mirror_partial : forall spl n nx scrn ival css t t' cs,
  linear_spline spl -> even_spline spl -> (0 < n)%nat -> 0 < nx -> 0 <= scrn -> Z.even nx = true -> Z.even scrn = true ->
  let dms := piezo_size nx (Z.of_nat n) in
  Forall (fun cs => length cs = (n * n)%nat) css -> nth_error css t = Some cs ->
  let fast k := nth_error (fast_history spl n dms scrn ival 0 (piezo_coords n) (arr_zero scrn) css) k in
  (nth_error css t' = Some (mirror_x n cs) -> exists r r', fast t = Some (Ok r) /\ fast t' = Some (Ok r') /\
     forall i j, 0 <= i < scrn -> 0 <= j < scrn -> at2 r' i j = at2 r (scrn - 1 - i) j) /\
  (nth_error css t' = Some (mirror_y n cs) -> exists r r', fast t = Some (Ok r) /\ fast t' = Some (Ok r') /\
     forall i j, 0 <= i < scrn -> 0 <= j < scrn -> at2 r' i j = at2 r i (scrn - 1 - j)) /\
  (dms <> scrn -> exists sh, piezo_shapes spl n dms scrn ival = Ok sh /\
     let stack k := nth_error (dm_history scrn 0 sh (arr_zero scrn) css) k in
     (nth_error css t' = Some (mirror_x n cs) -> exists r r', stack t = Some (Ok r) /\ stack t' = Some (Ok r') /\
        forall i j, 0 <= i < scrn -> 0 <= j < scrn -> at2 r' i j = at2 r (scrn - 1 - i) j) /\
     (nth_error css t' = Some (mirror_y n cs) -> exists r r', stack t = Some (Ok r) /\ stack t' = Some (Ok r') /\
        forall i j, 0 <= i < scrn -> 0 <= j < scrn -> at2 r' i j = at2 r i (scrn - 1 - j))).
Proof.
  intros spl n nx scrn ival css t t' cs HL HV Hn Hx Hs E1 E2 dms HF Ht fast.
  assert (Hd : 2 <= dms).
  { unfold dms, piezo_size. pose proof (round_div_nonneg nx (Z.of_nat n) ltac:(lia) ltac:(lia)).
    apply Z.even_spec in E1 as [q ->]. lia. }
  assert (HE : Z.even (dms - scrn) = true).
  { unfold dms, piezo_size. rewrite Z.even_sub, Z.even_add, Z.even_mul, E1, E2. reflexivity. }
  assert (HF' : Forall (fun cs : list Qc => length cs = length (piezo_coords n)) css) by (rewrite piezo_coords_len; exact HF).
  pose proof (fast_history_ok spl HL n dms scrn ival ltac:(lia) Hs HE (piezo_coords n) (coords_nodup n) css _ (arr_zero_inv dms scrn) HF') as FH.
  destruct (nth_some (fast_history spl n dms scrn ival 0 (piezo_coords n) (arr_zero scrn) css) t) as (o & Eo).
  { rewrite <- (f2_length _ _ _ FH). exact (nth_lt _ _ _ Ht). }
  destruct (fast_mirror spl HL HV n dms scrn ival Hd Hs HE css t t' cs o Ht HF Eo) as [MX MY].
  split; [|split].
  - intros Ht'. destruct (MX Ht') as (r & r' & -> & E' & H). exists r, r'. auto.
  - intros Ht'. destruct (MY Ht') as (r & r' & -> & E' & H). exists r, r'. auto.
  - intros Hne. exact (stack_mirror spl n dms scrn ival css t t' cs HL HV Hn Hd Hs HE Hne HF Ht).
Qed.
Print Assumptions C113_piezo_mirror_partial.

(** GaussStack, on a mirror the size of the pupil: the actuator opposite to one in x has the influence function
    of that one reflected about element pupil/2, not about the middle (pupil-1)/2, and for a bump with one
    highest point the two differ. *)
Theorem C113_gauss_mirror_refuted : forall bump pupil nacts c s,
  2 <= nacts -> 1 <= pupil ->
  (forall x y, bump x y = bump (- x)%Qc y) -> (forall x y, x <> 0%Qc -> (bump x y < bump 0 y)%Qc) ->
  gauss_shape bump pupil pupil nacts c = Ok s ->
  exists s', gauss_shape bump pupil pupil nacts (nacts - 1 - fst c, snd c) = Ok s' /\
    (forall i j, at2 s' i j = at2 s i (pupil - j)) /\
    (fst c = 0 -> forall i, (at2 s' i (pupil - 1) < at2 s i 0)%Qc).
Proof.
  intros bump pupil nacts c s Hn Hp He Hpk Hs. destruct (gauss_shift bump pupil nacts c s Hn He Hs) as (s' & E & H).
  exists s'. split; [exact E|]. split; [exact H|]. intros H0 i. rewrite H.
  unfold gauss_shape, gauss_centre in Hs. destruct (Z.eqb_spec nacts 1); [lia|]. cbn [bind] in Hs. injection Hs as <-.
  cbn [at2]. rewrite H0. replace (pupil - (pupil - 1)) with 1 by lia. rewrite qz_0, qz_1.
  replace (0 * (qz pupil / qz (nacts - 1)) - 0)%Qc with 0%Qc by ring. apply Hpk.
  replace (0 * (qz pupil / qz (nacts - 1)) - 1)%Qc with (- (1))%Qc by ring. apply qc_neq_b. reflexivity.
Qed.
Print Assumptions C113_gauss_mirror_refuted.

Definition bump0 (x y : Qc) : Qc := (- (x * x) - y * y)%Qc.
Example C113_instance :
  mirror_x 2 [1; qz 2; qz 3; qz 4]%Qc = [qz 3; qz 4; 1; qz 2]%Qc /\
  mirror_y 2 [1; qz 2; qz 3; qz 4]%Qc = [qz 2; 1; qz 4; qz 3]%Qc /\
  (exists r r', fast_history hat_spline 2 8 6 1 0 (piezo_coords 2) (arr_zero 6) [[1; 0; 0; 0]%Qc; mirror_x 2 [1; 0; 0; 0]%Qc] = [Ok r; Ok r'] /\
     at2 r 1 1 <> at2 r 4 1 /\ at2 r' 4 1 = at2 r 1 1) /\
  (forall x y, bump0 x y = bump0 (- x)%Qc y) /\ (forall x y, x <> 0%Qc -> (bump0 x y < bump0 0 y)%Qc) /\
  exists s, gauss_shape bump0 8 8 3 (0, 1) = Ok s /\ at2 s 0 0 <> at2 s 0 7.
Proof.
  split; [reflexivity|]. split; [reflexivity|]. split; [|split; [|split]].
  - do 2 eexists. split; [reflexivity|]. split; [apply qc_neq_b; vm_compute; reflexivity|].
    apply Qc_is_canon. vm_compute. reflexivity.
  - intros. unfold bump0. ring.
  - intros x y Hx. unfold bump0.
    assert (P : (0 < x * x)%Qc).
    { destruct (Qc_dec x 0) as [[H|H]|H]; [| |contradiction].
      - replace (x * x)%Qc with ((- x) * (- x))%Qc by ring.
        assert (0 < - x)%Qc by qclra. revert H0. generalize (- x)%Qc. intros z Hz.
        replace 0%Qc with (0 * z)%Qc by ring. apply Qcmult_lt_compat_r; auto.
      - replace 0%Qc with (0 * x)%Qc at 1 by ring. apply Qcmult_lt_compat_r; auto. }
    replace (- (0 * 0) - y * y)%Qc with (- (y * y))%Qc by ring.
    revert P. generalize (x * x)%Qc (y * y)%Qc. intros u v P. qclra.
  - eexists. split; [reflexivity|]. apply qc_neq_b. vm_compute. reflexivity.
Qed.

(** ** C114  Every mirror can be built with any number of actuators *)
Theorem C114_build_partial : forall k nx nacts scrn order, 1 <= nacts ->
  ((exists e, dm_build k nx nacts scrn order = Err e) <->
     (exists f, k = CustomShapes f /\ f < nacts) \/ (k = KarhunenLoeve /\ 1000 < nacts) \/
     (k = Piezo /\ (nacts + 2 <= order \/ piezo_size nx nacts = scrn)) \/ (k = GaussStack /\ nacts = 1)) /\
  (forall m, dm_build k nx nacts scrn order = Ok m ->
     match k with TT => m = 2 | CustomShapes _ | KarhunenLoeve | ZernikeDM => m = nacts | _ => m = nacts * nacts end).
Proof.
  intros k nx nacts scrn order Hn. destruct k; cbn [dm_build].
  - destruct (Z.ltb_spec in_file nacts) as [C|C]; (split; [split|]).
    + intros _. left. eauto.
    + intros _. eauto.
    + discriminate.
    + intros [e He]. discriminate.
    + intros [(f & E & H)|[(E & _)|[(E & _)|(E & _)]]]; try discriminate. injection E as <-. lia.
    + intros m E. injection E as <-. reflexivity.
  - destruct (Z.leb_spec nacts 1000) as [C|C]; (split; [split|]).
    + intros [e He]. discriminate.
    + intros [(f & E & H)|[(E & H)|[(E & _)|(E & _)]]]; try discriminate. lia.
    + intros m E. injection E as <-. reflexivity.
    + intros _. right. left. auto.
    + intros _. eauto.
    + discriminate.
  - split; [split|].
    + intros [e He]. discriminate.
    + intros [(f & E & H)|[(E & H)|[(E & _)|(E & _)]]]; discriminate.
    + intros m E. injection E as <-. reflexivity.
  - destruct (Z.leb_spec (nacts + 2) order) as [C|C]; [|destruct (Z.eqb_spec (piezo_size nx nacts) scrn) as [D|D]]; (split; [split|]).
    + intros _. right. right. left. auto.
    + intros _. eauto.
    + discriminate.
    + intros _. right. right. left. auto.
    + intros _. eauto.
    + discriminate.
    + intros [e He]. discriminate.
    + intros [(f & E & H)|[(E & H)|[(E & H)|(E & _)]]]; try discriminate. lia.
    + intros m E. injection E as <-. reflexivity.
  - destruct (Z.eqb_spec nacts 1) as [C|C]; (split; [split|]).
    + intros _. right. right. right. auto.
    + intros _. eauto.
    + discriminate.
    + intros [e He]. discriminate.
    + intros [(f & E & H)|[(E & H)|[(E & _)|(E & H)]]]; try discriminate. lia.
    + intros m E. injection E as <-. reflexivity.
  - split; [split|].
    + intros [e He]. discriminate.
    + intros [(f & E & H)|[(E & H)|[(E & _)|(E & _)]]]; discriminate.
    + intros m E. injection E as <-. reflexivity.
  - split; [split|].
    + intros [e He]. discriminate.
    + intros [(f & E & H)|[(E & H)|[(E & _)|(E & _)]]]; discriminate.
    + intros m E. injection E as <-. reflexivity.
Qed.
Print Assumptions C114_build_partial.

(** Among the mirrors that cannot be built: Karhunen-Loeve modes beyond 1000 for any geometry, one Gaussian
    actuator, and for every even nx and every actuator count the stack whose mirror just fills the screen. *)
Theorem C114_build_refuted :
  (forall nx nacts scrn order, 1000 < nacts -> dm_build KarhunenLoeve nx nacts scrn order = Err AttributeError) /\
  (forall nx scrn order, dm_build GaussStack nx 1 scrn order = Err ZeroDivisionError) /\
  (forall nx nacts order, order < nacts + 2 -> dm_build Piezo nx nacts (piezo_size nx nacts) order = Err AttributeError /\
     dm_build FastPiezo nx nacts (piezo_size nx nacts) order = Ok (nacts * nacts)) /\
  (forall spl n scrn ival, (0 < n)%nat -> piezo_shapes spl n scrn scrn ival = Err AttributeError).
Proof.
  split; [|split; [|split]].
  - intros. cbn [dm_build]. destruct (Z.leb_spec nacts 1000); [lia|reflexivity].
  - reflexivity.
  - intros. cbn [dm_build]. destruct (Z.leb_spec (nacts + 2) order); [lia|]. rewrite Z.eqb_refl. auto.
  - intros spl n scrn ival Hn. unfold piezo_shapes. destruct n as [|n]; [lia|].
    cbn [piezo_coords flat_map map seq mapM app bind piezo_cut]. unfold piezo_cut. rewrite Z.eqb_refl. reflexivity.
Qed.
Print Assumptions C114_build_refuted.

Example C114_instance :
  dm_build Piezo 128 9 176 3 = Ok 81 /\ dm_build KarhunenLoeve 128 1001 176 3 = Err AttributeError /\ piezo_size 128 8 = 160.
Proof. repeat split. Qed.

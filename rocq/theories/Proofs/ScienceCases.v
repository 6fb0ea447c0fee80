From Coq Require Import Reals.
From Coquelicot Require Import Complex.
From Verif.Base Require Import Vec CSum CSumFacts PyFacts.
From Verif.Model Require Import Sh Science.
From Verif.Spec Require Import ScienceSpec.
From Verif.Proofs Require Import ScienceProofs ScienceFourier ScienceStrehl.
From Coq Require Import Lra Lia.
Open Scope R_scope.

(** * Long exposures *)
Lemma run_ok n : forall raws acc, Forall (fun r => 0 < img_sum n r) raws -> 0 <= img_sum n acc ->
  length (snd (sci_run n raws acc)) = length raws /\
  (forall i j, fst (sci_run n raws acc) i j = acc i j + img_total raws i j) /\
  forall m r, nth_error raws m = Some r ->
    exists d l, nth_error (snd (sci_run n raws acc)) m = Some (Some d, Some l) /\ img_sum n d = 1 /\ (forall i j, d i j = r i j / img_sum n r) /\
      img_sum n l = 1 /\ let sofar := fun i j => acc i j + img_total (firstn (S m) raws) i j in (forall i j, l i j = sofar i j / img_sum n sofar).
Proof.
  induction raws as [|r raws IH]; intros acc HF HA.
  - cbn. split; [reflexivity|]. split; [intros; lra|]. intros m r H. destruct m; discriminate.
  - inversion HF; subst. set (acc' := fun i j => acc i j + r i j).
    assert (HA' : img_sum n acc' = img_sum n acc + img_sum n r) by apply img_sum_add.
    destruct (IH acc' H2 ltac:(lra)) as (A & B & C). cbn [sci_run sci_expose]. fold acc'.
    destruct (sci_run n raws acc') as (a', os) eqn:E. cbn [fst snd] in *.
    split; [cbn; congruence|]. split.
    + intros i j. rewrite B. unfold acc'. cbn [img_total fold_right]. unfold img_total. ring.
    + intros m r' Hm. destruct m as [|m].
      * cbn in Hm. injection Hm as <-.
        destruct (normalised_some n r ltac:(lra)) as (d & -> & D1 & D2). destruct (normalised_some n acc' ltac:(lra)) as (l & -> & L1 & L2).
        exists d, l. split; [reflexivity|]. split; [exact D1|]. split; [exact D2|]. split; [exact L1|]. cbv zeta. intros i j. rewrite L2.
        assert (Q : forall i j, acc' i j = acc i j + img_total (firstn 1 (r :: raws)) i j) by (intros; unfold acc'; cbn; ring).
        rewrite (img_sum_ext n _ _ Q), Q. reflexivity.
      * cbn in Hm. destruct (C m r' Hm) as (d & l & C1 & C2 & C3 & C4 & C5). exists d, l. split; [exact C1|]. split; [exact C2|]. split; [exact C3|]. split; [exact C4|].
        cbv zeta in *. intros i j. rewrite C5.
        assert (Q : forall i j, acc' i j + img_total (firstn (S m) raws) i j = acc i j + img_total (firstn (S (S m)) (r :: raws)) i j).
        { intros. unfold acc'. rewrite (firstn_cons (S m) r raws). unfold img_total at 2. cbn [fold_right]. fold (img_total (firstn (S m) raws)). unfold img_total. ring. }
        rewrite (img_sum_ext n _ _ Q), Q. reflexivity.
Qed.

(** * Wavefront error *)
Lemma total_ext n d e : (forall i j, (0 <= i < n)%Z -> (0 <= j < n)%Z -> d i j = e i j) -> total n d = total n e.
Proof. intros H. apply rsum_ext. intros i Hi. apply rsum_ext. intros j Hj. apply H; auto. Qed.
Lemma total_scale n c d : total n (fun i j => c * d i j) = c * total n d.
Proof. apply img_sum_scale. Qed.
Lemma total_add n d e : total n (fun i j => d i j + e i j) = total n d + total n e.
Proof. apply img_sum_add. Qed.
Lemma total_nonneg n d : (forall i j, (0 <= i < n)%Z -> (0 <= j < n)%Z -> 0 <= d i j) -> 0 <= total n d.
Proof. intros H. apply rsum_nonneg. intros i Hi. apply rsum_nonneg. intros j Hj. apply H; auto. Qed.
Lemma mean_lin n mask phase a c : total n mask <> 0 -> pupil_mean n mask (fun i j => a * phase i j + c) = a * pupil_mean n mask phase + c.
Proof.
  intros H. unfold pupil_mean. rewrite (total_ext n _ (fun i j => a * (mask i j * phase i j) + c * mask i j)) by (intros; ring).
  rewrite total_add, !total_scale. field. auto.
Qed.
Lemma var_lin n mask phase a c : total n mask <> 0 -> pupil_var n mask (fun i j => a * phase i j + c) = a * a * pupil_var n mask phase.
Proof.
  intros H. unfold pupil_var. rewrite mean_lin by auto.
  rewrite (total_ext n _ (fun i j => a * a * (mask i j * ((phase i j - pupil_mean n mask phase) * (phase i j - pupil_mean n mask phase))))) by (intros; ring).
  rewrite total_scale. field. auto.
Qed.
Lemma wfe_var n mask phase s : binary n mask -> 0 < total n mask -> s <> 0 ->
  wfe false n mask phase s = Some (sqrt (pupil_var n mask (fun i j => / s * phase i j + 0))) /\ 0 <= pupil_var n mask (fun i j => / s * phase i j + 0).
Proof.
  intros B T S. unfold wfe. change (img_sum n mask) with (total n mask). destruct (Req_EM_T (total n mask) 0); [lra|]. split.
  - f_equal. f_equal. change (img_sum n) with (total n). unfold pupil_var. f_equal. apply total_ext. intros i j Hi Hj.
    assert (M : total n (fun i j => phase i j * mask i j / s) / total n mask = pupil_mean n mask (fun i j => / s * phase i j + 0)).
    { unfold pupil_mean. f_equal. apply total_ext. intros. field. auto. }
    rewrite M. destruct (B i j Hi Hj) as [E|E]; rewrite E; field; auto.
  - unfold pupil_var. apply Rmult_le_pos; [|left; apply Rinv_0_lt_compat; auto]. apply total_nonneg. intros i j Hi Hj. destruct (B i j Hi Hj) as [E|E]; rewrite E; [lra|].
    rewrite Rmult_1_l. apply Rle_0_sqr.
Qed.
Lemma pupil_var_ext n mask p q : (forall i j, p i j = q i j) -> pupil_var n mask p = pupil_var n mask q.
Proof.
  intros H. assert (M : pupil_mean n mask p = pupil_mean n mask q) by (unfold pupil_mean; f_equal; apply total_ext; intros; rewrite H; reflexivity).
  unfold pupil_var. f_equal. apply total_ext. intros. rewrite M, H. reflexivity.
Qed.
Lemma wfe_laws n mask phase s : binary n mask -> 0 < total n mask -> s <> 0 ->
  exists w, wfe false n mask phase s = Some w /\ 0 <= w /\ w * w = pupil_var n mask (fun i j => phase i j / s) /\
    (forall c, wfe false n mask (fun i j => phase i j + c) s = Some w) /\
    (forall a, wfe false n mask (fun i j => a * phase i j) s = Some (Rabs a * w)) /\
    (forall c, wfe false n mask (fun _ _ => c) s = Some 0).
Proof.
  intros B T S. destruct (wfe_var n mask phase s B T S) as (E & P). assert (T' : total n mask <> 0) by lra.
  set (V := pupil_var n mask (fun i j => / s * phase i j + 0)) in *. exists (sqrt V).
  assert (PV : V = / s * / s * pupil_var n mask phase) by (apply var_lin; auto).
  split; [exact E|]. split; [apply sqrt_pos|]. split.
  { rewrite sqrt_sqrt by auto. apply pupil_var_ext. intros. field. auto. }
  split; [|split].
  - intros c. destruct (wfe_var n mask (fun i j => phase i j + c) s B T S) as (-> & _). do 2 f_equal.
    rewrite (var_lin n mask (fun i j => phase i j + c) (/ s) 0) by auto. rewrite PV. f_equal.
    rewrite (pupil_var_ext n mask _ (fun i j => 1 * phase i j + c)) by (intros; ring). rewrite var_lin by auto. ring.
  - intros a. destruct (wfe_var n mask (fun i j => a * phase i j) s B T S) as (-> & _). f_equal.
    rewrite (var_lin n mask (fun i j => a * phase i j) (/ s) 0) by auto.
    rewrite (pupil_var_ext n mask _ (fun i j => a * phase i j + 0)) by (intros; ring). rewrite var_lin by auto.
    replace (/ s * / s * (a * a * pupil_var n mask phase)) with (Rsqr a * V) by (rewrite PV; unfold Rsqr; ring).
    rewrite sqrt_mult by (auto; apply Rle_0_sqr). rewrite sqrt_Rsqr_abs. reflexivity.
  - intros c. destruct (wfe_var n mask (fun _ _ => c) s B T S) as (-> & _). f_equal.
    rewrite (var_lin n mask (fun _ _ => c) (/ s) 0) by auto.
    rewrite (pupil_var_ext n mask _ (fun i j => 0 * phase i j + c)) by (intros; ring). rewrite var_lin by auto.
    replace (/ s * / s * (0 * 0 * pupil_var n mask phase)) with 0 by ring. apply sqrt_0.
Qed.

(** * Cameras where the Strehl ratio misbehaves *)
Lemma far_field_sep F P X Y u v : (0 < P)%Z ->
  far_field F P (fun a b => X a * Y b)%C u v =
  (csum F (fun a => X a * cis (- (2 * PI * IZR (u * a) / IZR P))) * csum F (fun b => Y b * cis (- (2 * PI * IZR (v * b) / IZR P))))%C.
Proof.
  intros HP. unfold far_field. rewrite <- csum_scale_r. apply csum_ext. intros a Ha. rewrite <- csum_scale. apply csum_ext. intros b Hb. rewrite cis_plus_ix by auto. ring.
Qed.
Lemma far_field_ext F P e e' u v : (forall a b, (0 <= a < F)%Z -> (0 <= b < F)%Z -> e a b = e' a b) -> far_field F P e u v = far_field F P e' u v.
Proof. intros H. apply csum_ext. intros a Ha. apply csum_ext. intros b Hb. rewrite H by auto. reflexivity. Qed.
Lemma cis_arg a b : a = b -> cis a = cis b.
Proof. intros ->. reflexivity. Qed.
Lemma csum_3 f : csum 3 f = (f 0%Z + f 1%Z + f 2%Z)%C.
Proof. unfold csum. change (Z.to_nat 3) with 3%nat. cbn [csumn]. change (Z.of_nat 0) with 0%Z. change (Z.of_nat 1) with 1%Z. change (Z.of_nat 2) with 2%Z. ring. Qed.
Lemma csum_4 f : csum 4 f = (f 0%Z + f 1%Z + f 2%Z + f 3%Z)%C.
Proof. unfold csum. change (Z.to_nat 4) with 4%nat. cbn [csumn]. change (Z.of_nat 0) with 0%Z. change (Z.of_nat 1) with 1%Z. change (Z.of_nat 2) with 2%Z. change (Z.of_nat 3) with 3%Z. ring. Qed.
Lemma rsum_2 f : rsum 2 f = f 0%Z + f 1%Z.
Proof. unfold rsum. change (Z.to_nat 2) with 2%nat. cbn [rsumn]. change (Z.of_nat 0) with 0%Z. change (Z.of_nat 1) with 1%Z. ring. Qed.
Lemma three_terms t : cnorm2 (cis 0 + cis t + cis (2 * t))%C = (1 + 2 * cos t) * (1 + 2 * cos t).
Proof.
  replace (cis 0 + cis t + cis (2 * t))%C with (cis t * (cis (- t) + RtoC 1 + cis t))%C.
  - rewrite cnorm2_mul, cis_norm. unfold cnorm2, cis, RtoC, Cplus. cbn [fst snd]. rewrite cos_neg, sin_neg. ring.
  - rewrite cis_0. replace (2 * t) with (t + t) by ring. rewrite cis_add.
    transitivity (cis t * cis (- t) + cis t + cis t * cis t)%C; [ring|]. rewrite <- cis_add, Rplus_opp_r, cis_0. ring.
Qed.
(** one axis of the small camera: 3 elements, transform of length 4, tilted by t per element *)
Definition axis3 (t : R) (u : Z) : R := (1 + 2 * cos (t - PI / 2 * IZR u)) * (1 + 2 * cos (t - PI / 2 * IZR u)).
Lemma axis3_ok t u : cnorm2 (csum 3 (fun a => cis (t * IZR a) * cis (- (2 * PI * IZR (u * a) / IZR 4))))%C = axis3 t u.
Proof.
  unfold axis3. rewrite <- three_terms, csum_3. f_equal. rewrite <- !cis_add. f_equal; [f_equal|]; apply cis_arg; rewrite mult_IZR; field.
Qed.
Definition small_cam : cam := mkCam (mkGeom 1 3 7 2 2 4 0 4) 2 (fun _ _ => 1).
Lemma small_camera : camera small_cam.
Proof.
  exists 2%Z, 1%Z, 2%Z, (qz 3), 5%nat, 4%Z. repeat split; try reflexivity.
Qed.
Lemma small_facts : kfacts small_cam 2.
Proof. constructor; cbn; lia. Qed.
Lemma small_raw t i j : (0 <= i < 2)%Z -> (0 <= j < 2)%Z ->
  sci_raw small_cam (fun a _ => t * IZR a) i j =
  (axis3 t (2 * i - 2) + axis3 t (2 * i - 1)) * (axis3 0 (2 * j - 2) + axis3 0 (2 * j - 1)).
Proof.
  intros Hi Hj. unfold sci_raw. cbn [k_geom small_cam g_os]. cbv zeta.
  assert (I : forall p q, (0 <= p < 4)%Z -> (0 <= q < 4)%Z -> sci_intensity small_cam (fun a _ => t * IZR a) p q = axis3 t (p - 2) * axis3 0 (q - 2)).
  { intros p q Hp Hq. rewrite (intensity_far small_cam 2) by (try apply small_facts; cbn; lia). cbn [small_cam k_geom g_fov g_fft g_crop k_mask].
    rewrite (far_field_ext 3 4 _ (fun a b => cis (t * IZR a) * cis (0 * IZR b))%C).
    2:{ intros a b _ _. unfold sci_field. rewrite Rmult_0_l, cis_0. ring. }
    rewrite (far_field_sep 3 4 (fun a => cis (t * IZR a)) (fun b => cis (0 * IZR b))) by lia.
    rewrite cnorm2_mul, !axis3_ok. rewrite !Z.add_0_r. reflexivity. }
  rewrite !rsum_2. rewrite !I by lia.
  replace (i * 2 + 0 - 2)%Z with (2 * i - 2)%Z by lia. replace (i * 2 + 1 - 2)%Z with (2 * i - 1)%Z by lia.
  replace (j * 2 + 0 - 2)%Z with (2 * j - 2)%Z by lia. replace (j * 2 + 1 - 2)%Z with (2 * j - 1)%Z by lia. ring.
Qed.
Lemma small_lit : lit small_cam.
Proof. exists 0%Z, 0%Z. cbn. repeat split; try lia. lra. Qed.
Lemma small_sum t : img_sum 2 (sci_raw small_cam (fun a _ => t * IZR a)) = 144.
Proof.
  pose proof (raw_energy small_cam (fun a _ => t * IZR a) small_camera eq_refl eq_refl) as E. cbn [small_cam k_nx k_geom g_fft g_fov k_mask] in E.
  etransitivity; [exact E|]. unfold total. rewrite (rsum_ext 3 _ (fun _ => 3)). { rewrite rsum_const by lia. lra. } intros i Hi. rewrite rsum_const by lia. lra.
Qed.
Lemma axis3_flat : axis3 0 (-2) = 1 /\ axis3 0 (-1) = 1 /\ axis3 0 0 = 9 /\ axis3 0 1 = 1.
Proof.
  unfold axis3. repeat split.
  - replace (0 - PI / 2 * -2) with PI by field. rewrite cos_PI. ring.
  - replace (0 - PI / 2 * -1) with (PI / 2) by field. rewrite cos_PI2. ring.
  - replace (0 - PI / 2 * 0) with 0 by field. rewrite cos_0. ring.
  - replace (0 - PI / 2 * 1) with (- (PI / 2)) by field. rewrite cos_neg, cos_PI2. ring.
Qed.
Lemma small_psf_max : psf_max small_cam = Some (100 / 144).
Proof.
  unfold psf_max. cbn [small_cam k_nx].
  assert (E : forall i j, sci_raw small_cam (fun _ _ => 0) i j = sci_raw small_cam (fun a _ => 0 * IZR a) i j).
  { intros i j. unfold sci_raw. apply rsum_ext. intros x _. apply rsum_ext. intros y _. unfold sci_intensity. f_equal. apply focus_ext. intros. unfold sci_field. rewrite Rmult_0_l. reflexivity. }
  fold small_cam. assert (S : img_sum 2 (sci_raw small_cam (fun _ _ => 0)) = 144) by (rewrite (img_sum_ext _ _ _ E); apply small_sum).
  destruct (normalised_some 2 (sci_raw small_cam (fun _ _ => 0)) ltac:(rewrite S; lra)) as (v & -> & _ & Hv). cbn [option_map]. f_equal.
  assert (V : forall i j, (0 <= i < 2)%Z -> (0 <= j < 2)%Z -> v i j = (axis3 0 (2 * i - 2) + axis3 0 (2 * i - 1)) * (axis3 0 (2 * j - 2) + axis3 0 (2 * j - 1)) / 144)
    by (intros; rewrite Hv, S, E, small_raw by auto; reflexivity).
  destruct axis3_flat as (A1 & A2 & A3 & A4).
  apply Rle_antisym.
  - apply img_max_le; [lia|]. intros i j Hi Hj. rewrite V by auto. assert (i = 0 \/ i = 1)%Z as [-> | ->] by lia; assert (j = 0 \/ j = 1)%Z as [-> | ->] by lia;
      change (2 * 0 - 2)%Z with (-2)%Z; change (2 * 0 - 1)%Z with (-1)%Z; change (2 * 1 - 2)%Z with 0%Z; change (2 * 1 - 1)%Z with 1%Z; rewrite ?A1, ?A2, ?A3, ?A4; lra.
  - eapply Rle_trans; [|apply (img_max_ge 2 v 1 1); lia]. rewrite V by lia. change (2 * 1 - 2)%Z with 0%Z; change (2 * 1 - 1)%Z with 1%Z. rewrite A3, A4. lra.
Qed.
Lemma strehl_above_one : exists phase s t, inst_strehl small_cam true phase = Some s /\ 1 < s /\ inst_strehl small_cam false phase = Some t /\ 1 < t.
Proof.
  set (al := acos (4 / 5)). exists (fun a _ => al * IZR a).
  assert (Ca : cos al = 4 / 5) by (apply cos_acos; lra).
  assert (Sa : sin al = 3 / 5).
  { unfold al. rewrite sin_acos by lra. replace (1 - (4 / 5)²) with ((3 / 5) * (3 / 5)) by (unfold Rsqr; field). apply sqrt_square. lra. }
  unfold inst_strehl, strehl_of. rewrite small_psf_max. cbn [small_cam k_nx]. fold small_cam.
  destruct (normalised_some 2 (sci_raw small_cam (fun a _ => al * IZR a)) ltac:(rewrite small_sum; lra)) as (v & -> & _ & Hv). cbn [option_map].
  assert (V : v 1%Z 1%Z = 116 / 144).
  { rewrite Hv, small_sum, small_raw by lia. change (2 * 1 - 2)%Z with 0%Z; change (2 * 1 - 1)%Z with 1%Z. destruct axis3_flat as (_ & _ & -> & ->).
    unfold axis3. replace (al - PI / 2 * 0) with al by field. replace (al - PI / 2 * 1) with (- (PI / 2 - al)) by field. rewrite cos_neg, cos_shift, Ca, Sa. field. }
  eexists _, _. split; [reflexivity|]. change (2 / 2)%Z with 1%Z. split; [rewrite V; lra|]. split; [reflexivity|].
  assert (M : 116 / 144 <= img_max 2 v) by (rewrite <- V; apply img_max_ge; lia).
  apply (Rmult_lt_reg_r (100 / 144)); [lra|]. unfold Rdiv at 2. rewrite (Rmult_assoc (img_max 2 v)), Rinv_l by lra. lra.
Qed.
(** two holes *)
Definition slit_cam : cam := mkCam (mkGeom 1 4 8 2 2 8 0 8) 4 (fun a b => if ((b =? 0) && ((a =? 0) || (a =? 3)))%Z%bool then 1 else 0).
Lemma slit_camera : camera slit_cam.
Proof. exists 3%Z, 1%Z, 2%Z, (qz 4), 5%nat, 8%Z. repeat split; reflexivity. Qed.
Lemma slit_facts : kfacts slit_cam 4.
Proof. constructor; cbn; lia. Qed.
Lemma slit_lit : lit slit_cam /\ mask_nonneg slit_cam.
Proof.
  split; [exists 0%Z, 0%Z; cbn; repeat split; try lia; lra|]. intros a b _ _. cbn. destruct (_ && _)%bool; lra.
Qed.
Lemma slit_intensity p q : (0 <= p < 8)%Z -> (0 <= q < 8)%Z -> sci_intensity slit_cam (fun _ _ => 0) p q = 2 + 2 * cos (3 * PI / 4 * IZR (p - 4)).
Proof.
  intros Hp Hq. rewrite (intensity_far slit_cam 4) by (try apply slit_facts; cbn; lia). cbn [slit_cam k_geom g_fov g_fft g_crop k_mask]. rewrite !Z.add_0_r.
  rewrite (far_field_ext 4 8 _ (fun a b => (if ((a =? 0) || (a =? 3))%Z%bool then RtoC 1 else RtoC 0) * (if (b =? 0)%Z then RtoC 1 else RtoC 0))%C).
  2:{ intros a b _ _. unfold sci_field. rewrite cis_0. destruct (b =? 0)%Z, ((a =? 0) || (a =? 3))%Z%bool; cbn [andb]; ring. }
  rewrite (far_field_sep 4 8 (fun a => if ((a =? 0) || (a =? 3))%Z%bool then RtoC 1 else RtoC 0) (fun b => if (b =? 0)%Z then RtoC 1 else RtoC 0)) by lia.
  rewrite !csum_4. cbn [Z.eqb Pos.eqb orb]. rewrite !Z.mul_0_r. replace (- (2 * PI * 0 / IZR 8)) with 0 by field. rewrite cis_0.
  set (u := (p - 4)%Z). replace (- (2 * PI * IZR (u * 3) / IZR 8)) with (- (3 * PI / 4 * IZR u)) by (rewrite mult_IZR; field).
  set (t := 3 * PI / 4 * IZR u).
  match goal with |- cnorm2 ?z = _ => replace z with (RtoC 1 + cis (- t))%C by ring end.
  unfold cnorm2, cis, RtoC, Cplus. cbn [fst snd]. rewrite cos_neg, sin_neg. pose proof (sin2_cos2 t) as Q. unfold Rsqr in Q. nra.
Qed.
Lemma slit_raw i j : (0 <= i < 4)%Z -> (0 <= j < 4)%Z ->
  sci_raw slit_cam (fun _ _ => 0) i j = 2 * (4 + 2 * cos (3 * PI / 4 * IZR (2 * i - 4)) + 2 * cos (3 * PI / 4 * IZR (2 * i - 3))).
Proof.
  intros Hi Hj. unfold sci_raw. cbn [k_geom slit_cam g_os]. fold slit_cam. cbv zeta. rewrite !rsum_2. rewrite !slit_intensity by lia.
  replace (i * 2 + 0 - 4)%Z with (2 * i - 4)%Z by lia. replace (i * 2 + 1 - 4)%Z with (2 * i - 3)%Z by lia. ring.
Qed.
Lemma slit_below_one : exists s, inst_strehl slit_cam true (fun _ _ => 0) = Some s /\ s < 1.
Proof.
  pose proof (never_dark slit_cam (fun _ _ => 0) slit_camera eq_refl (proj1 slit_lit)) as ND.
  unfold inst_strehl, strehl_of, psf_max. change (k_nx slit_cam) with 4%Z in *.
  destruct (normalised_some 4 (sci_raw slit_cam (fun _ _ => 0)) ltac:(lra)) as (v & -> & _ & Hv). cbn [option_map]. eexists. split; [reflexivity|].
  change (4 / 2)%Z with 2%Z.
  assert (A : v 2%Z 2%Z < v 3%Z 2%Z).
  { rewrite !Hv. apply Rmult_lt_compat_r; [apply Rinv_0_lt_compat; auto|]. rewrite !slit_raw by lia.
    change (2 * 2 - 4)%Z with 0%Z. change (2 * 2 - 3)%Z with 1%Z. change (2 * 3 - 4)%Z with 2%Z. change (2 * 3 - 3)%Z with 3%Z.
    replace (3 * PI / 4 * 0) with 0 by field. rewrite cos_0.
    replace (3 * PI / 4 * 1) with (PI - PI / 4) by field. 
    replace (3 * PI / 4 * 2) with (3 * (PI / 2)) by field. replace (3 * PI / 4 * 3) with (PI / 4 + 2 * PI) by field.
    rewrite (cos_plus (PI / 4) (2 * PI)), cos_2PI, sin_2PI, cos_3PI2, Rtrigo_facts.cos_pi_minus, cos_PI4.
    assert (Q : 1 / sqrt 2 * (1 / sqrt 2) = 1 / 2) by (assert (sqrt 2 * sqrt 2 = 2) by (apply sqrt_sqrt; lra); assert (sqrt 2 <> 0) by (intros X; rewrite X in *; lra); replace (1 / sqrt 2 * (1 / sqrt 2)) with (1 / (sqrt 2 * sqrt 2)) by (field; auto); rewrite H; reflexivity).
    assert (0 < 1 / sqrt 2) by (apply Rdiv_lt_0_compat; [lra | apply sqrt_lt_R0; lra]). assert (1 / 2 < 1 / sqrt 2) by nra. lra. }
  assert (B : v 3%Z 2%Z <= img_max 4 v) by (apply img_max_ge; lia).
  assert (P : 0 < v 2%Z 2%Z).
  { rewrite Hv. apply Rdiv_lt_0_compat; auto. rewrite slit_raw by lia. change (2 * 2 - 4)%Z with 0%Z. change (2 * 2 - 3)%Z with 1%Z. replace (3 * PI / 4 * 0) with 0 by field. rewrite cos_0.
    pose proof (COS_bound (3 * PI / 4 * 1)). lra. }
  apply (Rmult_lt_reg_r (img_max 4 v)); [lra|]. unfold Rdiv. rewrite Rmult_assoc, Rinv_l by lra. lra.
Qed.
(** * Odd transform sizes *)
Definition odd_cam : cam := mkCam (mkGeom 1 2 6 2 1 3 0 3) 3 (fun a b => if (a =? b)%Z then 1 else 0).
Lemma odd_camera : camera odd_cam.
Proof. exists 1%Z, 1%Z, 1%Z, (qz 2), 5%nat, 3%Z. repeat split; reflexivity. Qed.
Lemma csum_2 f : csum 2 f = (f 0%Z + f 1%Z)%C.
Proof. unfold csum. change (Z.to_nat 2) with 2%nat. cbn [csumn]. change (Z.of_nat 0) with 0%Z. change (Z.of_nat 1) with 1%Z. ring. Qed.
Lemma cos_third : cos (PI / 3 + PI) = - / 2.
Proof. rewrite neg_cos, cos_PI3. field. Qed.
Lemma odd_placed i j : (0 <= i < 3)%Z -> (0 <= j < 3)%Z ->
  fftshift_inplace 3 (sci_place 3 2 (sci_field (k_mask odd_cam) (fun _ _ => 0))) i j = RtoC (if ((i =? j) && (i <? 2))%Z%bool then 1 else 0).
Proof.
  intros Hi Hj. assert (i = 0 \/ i = 1 \/ i = 2)%Z as [-> | [-> | ->]] by lia; assert (j = 0 \/ j = 1 \/ j = 2)%Z as [-> | [-> | ->]] by lia;
    unfold fftshift_inplace, swap_half, sci_place, sci_field, slot_start, slot_end;
    repeat match goal with |- context [if ?b then _ else _] => let v := eval vm_compute in b in change b with v; cbv iota end;
    try reflexivity; rewrite cis_0;
    match goal with |- context [k_mask odd_cam ?a ?b] => let v := eval vm_compute in (a =? b)%Z in change (k_mask odd_cam a b) with (if v then 1 else 0); cbv iota end; ring.
Qed.
Lemma odd_wrong :
  sci_intensity odd_cam (fun _ _ => 0) 0 2 = 1 /\ cnorm2 (far_field 2 3 (sci_field (k_mask odd_cam) (fun _ _ => 0)) (0 - 1) (2 - 1)) = 4.
Proof.
  split.
  - unfold sci_intensity, sci_focus. change (g_fft (k_geom odd_cam)) with 3%Z. change (g_fov (k_geom odd_cam)) with 2%Z. change (g_crop (k_geom odd_cam)) with 0%Z. cbv zeta.
    unfold fftshift_inplace at 1. change ((0 + 0 <? 2 * (3 / 2)) && (2 + 0 <? 2 * (3 / 2)))%Z%bool with false. cbv iota.
    change (0 + 0)%Z with 0%Z. change (2 + 0)%Z with 2%Z. unfold dft2.
    rewrite (csum_ext 3 _ (fun i => csum 3 (fun j => RtoC (if ((i =? j) && (i <? 2))%Z%bool then 1 else 0) * cis (- (2 * PI * IZR (2 * j) / IZR 3))) * cis (- (2 * PI * IZR (0 * i) / IZR 3)))%C).
    2:{ intros i Hi. f_equal. apply csum_ext. intros j Hj. rewrite odd_placed by auto. reflexivity. }
    rewrite !csum_3. cbn [Z.eqb Z.ltb Z.compare Pos.eqb Pos.compare Pos.compare_cont andb]. rewrite !Z.mul_0_l. change (2 * 0)%Z with 0%Z. change (2 * 1)%Z with 2%Z. change (2 * 2)%Z with 4%Z.
    replace (- (2 * PI * 0 / IZR 3)) with 0 by field. rewrite cis_0. replace (- (2 * PI * IZR 2 / IZR 3)) with (- (PI / 3 + PI)) by field.
    match goal with |- cnorm2 ?z = _ => replace z with (RtoC 1 + cis (- (PI / 3 + PI)))%C by ring end.
    unfold cnorm2, cis, RtoC, Cplus. cbn [fst snd]. rewrite cos_neg, sin_neg, cos_third.
    pose proof (sin2_cos2 (PI / 3 + PI)) as Q. rewrite cos_third in Q. unfold Rsqr in Q. nra.
  - unfold far_field. rewrite !csum_2. unfold sci_field. rewrite cis_0. cbn [odd_cam k_mask Z.eqb Pos.eqb].
    change ((0 - 1) * 0 + (2 - 1) * 0)%Z with 0%Z. change ((0 - 1) * 1 + (2 - 1) * 1)%Z with 0%Z. replace (- (2 * PI * 0 / IZR 3)) with 0 by field. rewrite cis_0.
    match goal with |- cnorm2 ?z = _ => replace z with (RtoC 2) by (unfold RtoC, Cplus, Cmult; cbn [fst snd]; f_equal; ring) end. rewrite cnorm2_R. ring.
Qed.

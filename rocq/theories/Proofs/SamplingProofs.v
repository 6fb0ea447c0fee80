From Coq Require Import ZArith QArith Reals Qreals.
From Coquelicot Require Import Complex.
From Verif.Base Require Import Vec CSum CSumFacts.
From Verif.Model Require Import Sh Science Numerics LgsReal ShOptics.
From Verif.Spec Require Import ScienceSpec ShOpticsSpec.
From Verif.Proofs Require Import ScienceProofs ScienceStrehl ShOpticsProofs.
From Flocq Require Import Core.
From Verif.Model Require Import Sampling.
From Verif.Spec Require Import SamplingSpec.
From Coq Require Import Lra Lia.
Open Scope R_scope.

Lemma qr_eq q : qr (Q2Qc q) = Q2R q.
Proof. unfold qr. cbn. apply Qeq_eqR, Qred_correct. Qed.
Lemma qr_qz z : qr (qz z) = IZR z.
Proof. unfold qz. rewrite qr_eq. unfold Q2R. cbn. field. Qed.
Lemma qr_add x y : qr (x + y)%Qc = qr x + qr y.
Proof. unfold Qcplus. rewrite qr_eq. apply Q2R_plus. Qed.
Lemma qr_mul x y : qr (x * y)%Qc = qr x * qr y.
Proof. unfold Qcmult. rewrite qr_eq. apply Q2R_mult. Qed.
Lemma qr_inv x : x <> 0%Qc -> qr (/ x)%Qc = / qr x.
Proof. intros H. unfold Qcinv. rewrite qr_eq. apply Q2R_inv. intros E. apply H. apply Qc_is_canon. exact E. Qed.
Lemma qr_div x y : y <> 0%Qc -> qr (x / y)%Qc = qr x / qr y.
Proof. intros H. unfold Qcdiv. rewrite qr_mul, qr_inv by auto. reflexivity. Qed.

Lemma bilin_tilt data x y c p q : bilin (fun i j => data i j + (c + p * IZR i + q * IZR j)) x y = bilin data x y + (c + p * qr x + q * qr y).
Proof. unfold bilin. cbv zeta. rewrite !plus_IZR. ring. Qed.
Lemma bilin_ext f g x y : (forall i j, f i j = g i j) -> bilin f x y = bilin g x y.
Proof. intros H. unfold bilin. now rewrite !H. Qed.

Lemma coord_R pupil pad F k : (0 < pupil)%Z -> (1 < pad)%Z -> (1 < F)%Z -> (0 <= k < F)%Z ->
  qr (phase_coord pupil pad (pupil + 2 * pad) F k) = IZR pad + IZR k * IZR pupil / IZR (F - 1).
Proof.
  intros Hp Hpad HF Hk. pose proof (coord_differ pupil pad F k Hp Hpad HF Hk) as D.
  assert (E : phase_coord pupil pad (pupil + 2 * pad) F k = (mask_coord pupil pad F k + qz k / qz (F - 1))%Qc).
  { rewrite <- D. ring. }
  assert (N : qz (F - 1) <> 0%Qc). { intros H. change 0%Qc with (qz 0) in H. apply qz_inj in H. lia. }
  rewrite E. unfold mask_coord. destruct (Z.eqb_spec F 1); [lia|]. rewrite !qr_add, !qr_div, qr_mul, !qr_qz by auto.
  rewrite (minus_IZR pupil 1). field. apply not_0_IZR. lia.
Qed.

(** the far field of a tilted aperture *)
Lemma far_tilt F P e c u v m n : (0 < P)%Z ->
  cnorm2 (far_field F P (fun a b => (e a b * cis (c + 2 * PI * IZR (m * a + n * b) / IZR P))%C) u v) = cnorm2 (far_field F P e (u - m) (v - n)).
Proof.
  intros HP.
  assert (E : far_field F P (fun a b => (e a b * cis (c + 2 * PI * IZR (m * a + n * b) / IZR P))%C) u v = (cis c * far_field F P e (u - m) (v - n))%C).
  { unfold far_field. rewrite <- csum_scale. apply csum_ext. intros a Ha. rewrite <- csum_scale. apply csum_ext. intros b Hb.
    transitivity (e a b * (cis (c + 2 * PI * IZR (m * a + n * b) / IZR P) * cis (- (2 * PI * IZR (u * a + v * b) / IZR P))))%C; [ring|].
    transitivity (e a b * (cis c * cis (- (2 * PI * IZR ((u - m) * a + (v - n) * b) / IZR P))))%C; [|ring]. rewrite <- !cis_add. f_equal. f_equal.
    rewrite !plus_IZR, !mult_IZR, !minus_IZR. field. apply not_0_IZR. lia. }
  rewrite E, cnorm2_mul, cis_norm. ring.
Qed.
Lemma far_ext F P e e' u v : (forall a b, (0 <= a < F)%Z -> (0 <= b < F)%Z -> e a b = e' a b) -> far_field F P e u v = far_field F P e' u v.
Proof. intros H. unfold far_field. apply csum_ext. intros a Ha. apply csum_ext. intros b Hb. now rewrite H. Qed.

Lemma intensity_tilt k h phase phase' c m n i j : kfacts k h ->
  (forall a b, (0 <= a < g_fov (k_geom k))%Z -> (0 <= b < g_fov (k_geom k))%Z -> phase' a b = phase a b + (c + 2 * PI * IZR (m * a + n * b) / IZR (g_fft (k_geom k)))) ->
  let N := (k_nx k * g_os (k_geom k))%Z in (0 <= i < N)%Z -> (0 <= j < N)%Z -> (0 <= i - m < N)%Z -> (0 <= j - n < N)%Z ->
  sci_intensity k phase' i j = sci_intensity k phase (i - m) (j - n).
Proof.
  intros K H N Hi Hj Hm Hn. rewrite !(intensity_far k h) by auto. destruct K.
  rewrite (far_ext _ _ _ (fun a b => (sci_field (k_mask k) phase a b * cis (c + 2 * PI * IZR (m * a + n * b) / IZR (g_fft (k_geom k))))%C)).
  - rewrite far_tilt by lia. f_equal. f_equal; lia.
  - intros a b Ha Hb. unfold sci_field. rewrite H by auto. rewrite cis_add. ring.
Qed.
Lemma camera_is k pupil pad waves D lambda fov : camera_of k pupil pad waves D lambda fov -> camera k.
Proof.
  intros (A & B & C & W & _ & _ & _ & _ & os & fuel & n & G & H). exists pupil, pad, os, waves, fuel, n.
  split; [exact A|]. split; [clear - B; lia|]. split; [exact C|]. split; [exact W|]. split; [exact G|]. exact H.
Qed.
Lemma camera_sizes k pupil pad waves D lambda fov : camera_of k pupil pad waves D lambda fov ->
  let g := k_geom k in (1 < g_fov g /\ 0 < g_factor g /\ g_fft g = k_nx k * g_os g * g_factor g /\ g_fov g = qc_round waves * g_factor g)%Z.
Proof.
  intros (A & B & C & W & _ & _ & _ & _ & os & fuel & n & G & H). cbv zeta.
  assert (B' : (0 < pad)%Z) by lia.
  destruct (geometry_ok _ _ _ _ _ _ _ A B' C W G) as (G1 & G2 & G3 & G4 & G5 & G6 & G7 & G8 & G9 & G10 & G11 & G12 & G13).
  repeat split; lia.
Qed.
Lemma raw_tilt k h phase phase' c m n i j : kfacts k h ->
  (forall a b, (0 <= a < g_fov (k_geom k))%Z -> (0 <= b < g_fov (k_geom k))%Z ->
     phase' a b = phase a b + (c + 2 * PI * IZR (m * g_os (k_geom k) * a + n * g_os (k_geom k) * b) / IZR (g_fft (k_geom k)))) ->
  (0 <= i < k_nx k)%Z -> (0 <= j < k_nx k)%Z -> (0 <= i - m < k_nx k)%Z -> (0 <= j - n < k_nx k)%Z ->
  sci_raw k phase' i j = sci_raw k phase (i - m) (j - n).
Proof.
  intros K H Hi Hj Hm Hn. unfold sci_raw. cbv zeta. pose proof (kf_os _ _ K) as O. set (b := g_os (k_geom k)) in *.
  apply rsum_ext. intros x Hx. apply rsum_ext. intros y Hy.
  rewrite (intensity_tilt k h phase phase' c (m * b) (n * b) _ _ K H) by (fold b; nia). f_equal; ring.
Qed.
Lemma image_displaced k pupil pad waves D lambda fov los m n : camera_of k pupil pad waves D lambda fov ->
  let s := true_scale k D lambda in
  displaced (k_nx k) m n (sci_image k pupil pad los) (sci_image k pupil pad (tilted_phase lambda (D / IZR pupil) (IZR m * s) (IZR n * s) los)).
Proof.
  intros HC s i j Hi Hj Hm Hn. pose proof (camera_sizes _ _ _ _ _ _ _ HC) as (S1 & S2 & S3 & _). cbv zeta in *.
  pose proof HC as (A & B & C & W & HD & HL & _ & Ev & _). destruct (camera_facts k (camera_is _ _ _ _ _ _ _ HC) Ev) as (h & K).
  unfold sci_image. set (F := g_fov (k_geom k)) in *. set (t := 2 * PI / lambda * (D / IZR pupil) * s).
  apply (raw_tilt k h _ _ (t * (IZR m + IZR n) * IZR pad)); auto. fold F.
  intros a b Ha Hb. unfold sci_phase.
  rewrite (bilin_ext _ (fun p q => los p q + (0 + (t * IZR m) * IZR p + (t * IZR n) * IZR q))).
  2:{ intros p q. unfold tilted_phase, tilt_phase, t. unfold Rdiv. ring. }
  rewrite bilin_tilt. rewrite !coord_R by auto. f_equal. rewrite S3.
  assert (NP : IZR pupil <> 0) by (apply not_0_IZR; lia). assert (NF : IZR (F - 1) <> 0) by (apply not_0_IZR; lia).
  assert (Nx : IZR (k_nx k) <> 0) by (apply not_0_IZR; lia). assert (No : IZR (g_os (k_geom k)) <> 0) by (apply not_0_IZR; pose proof (kf_os _ _ K); lia).
  assert (Nf : IZR (g_factor (k_geom k)) <> 0) by (apply not_0_IZR; lia).
  unfold t, s, true_scale. fold F. rewrite <- minus_IZR with (n := F) (m := 1%Z). rewrite !plus_IZR, !mult_IZR. field. repeat split; auto; lra.
Qed.
Lemma scale_general k pupil pad waves D lambda fov : camera_of k pupil pad waves D lambda fov ->
  true_scale k D lambda = configured_scale k fov * ((IZR (qc_round waves) - / IZR (g_factor (k_geom k))) / qr waves).
Proof.
  intros HC. pose proof (camera_sizes _ _ _ _ _ _ _ HC) as (S1 & S2 & _ & S4). cbv zeta in *.
  destruct HC as (A & B & C & W & HD & HL & HW & _).
  assert (PW : 0 < qr waves). { unfold qr. replace 0 with (Q2R 0) by (unfold Q2R; cbn; field). apply Qlt_Rlt. exact W. }
  assert (Nx : IZR (k_nx k) <> 0) by (apply not_0_IZR; lia). assert (Nf : IZR (g_factor (k_geom k)) <> 0) by (apply not_0_IZR; lia).
  unfold true_scale, configured_scale. assert (EF : fov = qr waves * lambda / D) by (rewrite HW; field; lra).
  rewrite EF, S4, mult_IZR. field. repeat split; auto; lra.
Qed.
Lemma whole_scale k pupil pad waves D lambda fov q : camera_of k pupil pad waves D lambda fov -> waves = qz q ->
  (IZR (g_fov (k_geom k)) - 1) * configured_scale k fov = IZR (g_fov (k_geom k)) * true_scale k D lambda.
Proof.
  intros HC E. rewrite (scale_general _ _ _ _ _ _ _ HC). pose proof (camera_sizes _ _ _ _ _ _ _ HC) as (S1 & S2 & _ & S4). cbv zeta in *.
  subst waves. rewrite qc_round_qz in *. rewrite qr_qz. 
  assert (Nf : IZR (g_factor (k_geom k)) <> 0) by (apply not_0_IZR; lia).
  assert (Nq : IZR q <> 0) by (apply not_0_IZR; intros Z; subst q; lia).
  rewrite S4, mult_IZR. field. auto.
Qed.
Lemma overshoot k pupil pad waves D lambda fov los q m n : camera_of k pupil pad waves D lambda fov -> waves = qz q ->
  let F := g_fov (k_geom k) in let s := configured_scale k fov in
  displaced (k_nx k) (F * m) (F * n) (sci_image k pupil pad los)
    (sci_image k pupil pad (tilted_phase lambda (D / IZR pupil) (IZR ((F - 1) * m) * s) (IZR ((F - 1) * n) * s) los)).
Proof.
  intros HC E F s. pose proof (whole_scale _ _ _ _ _ _ _ _ HC E) as W. fold F s in W.
  replace (IZR ((F - 1) * m) * s) with (IZR (F * m) * true_scale k D lambda).
  2:{ rewrite !mult_IZR, minus_IZR. transitivity (IZR m * (IZR F * true_scale k D lambda)); [ring|]. rewrite <- W. ring. }
  replace (IZR ((F - 1) * n) * s) with (IZR (F * n) * true_scale k D lambda).
  2:{ rewrite !mult_IZR, minus_IZR. transitivity (IZR n * (IZR F * true_scale k D lambda)); [ring|]. rewrite <- W. ring. }
  apply (image_displaced k pupil pad waves D lambda fov los (F * m) (F * n) HC).
Qed.

(** ** The two axes *)
Lemma bilin_T data x y : bilin (fun p q => data q p) y x = bilin data x y.
Proof. unfold bilin. cbv zeta. ring. Qed.
Lemma dft2_T n f u v : dft2 n (fun a b => f b a) v u = dft2 n f u v.
Proof.
  unfold dft2. erewrite csum_ext; [|intros i Hi; symmetry; apply csum_scale_r]. rewrite csum_swap. apply csum_ext. intros a Ha.
  rewrite <- csum_scale_r. apply csum_ext. intros b Hb. ring.
Qed.
Lemma shift_T n f i j : Science.fftshift_inplace n (fun a b => f b a) j i = Science.fftshift_inplace n f i j.
Proof. unfold Science.fftshift_inplace. rewrite andb_comm. reflexivity. Qed.
Lemma place_T P F e i j : sci_place P F (fun a b => e b a) i j = sci_place P F e j i.
Proof. unfold sci_place. cbv zeta. destruct (_ <=? i)%Z, (i <? _)%Z, (_ <=? j)%Z, (j <? _)%Z; reflexivity. Qed.
Lemma focus_T P F e i j : sci_focus P F (fun a b => e b a) j i = sci_focus P F e i j.
Proof.
  unfold sci_focus. rewrite <- (shift_T P _ i j). unfold Science.fftshift_inplace at 1 3.
  assert (E : forall u v, dft2 P (Science.fftshift_inplace P (sci_place P F (fun a b => e b a))) u v = dft2 P (Science.fftshift_inplace P (sci_place P F e)) v u).
  { intros u v. rewrite <- (dft2_T P _ v u). apply dft2_ext. intros a b _ _. unfold Science.fftshift_inplace. rewrite andb_comm. destruct (_ && _)%bool; apply place_T. }
  now rewrite !E.
Qed.
Lemma raw_T k phase i j : sci_raw (with_mask k (fun a b => k_mask k b a)) (fun a b => phase b a) j i = sci_raw k phase i j.
Proof.
  unfold sci_raw. cbv zeta. change (k_geom (with_mask k (fun a b => k_mask k b a))) with (k_geom k).
  rewrite rsum_swap. apply rsum_ext. intros x Hx. apply rsum_ext. intros y Hy. unfold sci_intensity. cbv zeta. cbn [with_mask k_geom k_mask].
  f_equal. etransitivity; [|apply focus_T]. reflexivity.
Qed.
Lemma raw_ext k h phase phase' i j : kfacts k h -> 
  (forall a b, (0 <= a < g_fov (k_geom k))%Z -> (0 <= b < g_fov (k_geom k))%Z -> phase' a b = phase a b) ->
  (0 <= i < k_nx k)%Z -> (0 <= j < k_nx k)%Z -> sci_raw k phase' i j = sci_raw k phase i j.
Proof.
  intros K H Hi Hj. rewrite (raw_tilt k h phase phase' 0 0 0 i j K); [now rewrite !Z.sub_0_r| |lia..].
  intros a b Ha Hb. rewrite H by auto. rewrite !Z.mul_0_l. cbn. unfold Rdiv. ring.
Qed.
Lemma focus_ext P F e e' i j : (forall a b, e' a b = e a b) -> sci_focus P F e' i j = sci_focus P F e i j.
Proof.
  intros H. unfold sci_focus. unfold Science.fftshift_inplace at 1 3.
  assert (E : forall u v, dft2 P (Science.fftshift_inplace P (sci_place P F e')) u v = dft2 P (Science.fftshift_inplace P (sci_place P F e)) u v).
  { intros u v. apply dft2_ext. intros a b _ _. unfold Science.fftshift_inplace, sci_place. now rewrite !H. }
  now rewrite !E.
Qed.
Lemma image_exchanged k pupil pad los i j :
  sci_image (with_mask k (fun a b => k_mask k b a)) pupil pad (fun p q => los q p) j i = sci_image k pupil pad los i j.
Proof.
  unfold sci_image. rewrite <- (raw_T k _ i j). unfold sci_raw. cbv zeta. apply rsum_ext. intros x _. apply rsum_ext. intros y _.
  unfold sci_intensity. cbv zeta. f_equal. apply focus_ext. intros a b. unfold sci_field, sci_phase. now rewrite bilin_T.
Qed.

(** ** Shack-Hartmann *)
Lemma zoom_R n N i : (1 <= N)%Z -> qr (zoom_point n N i) = IZR i * IZR (n - 1) / (IZR N - 99999999 / 100000000).
Proof.
  intros HN. unfold zoom_point.
  assert (E : qr (qz N - qfrac 99999999 100000000)%Qc = IZR N - 99999999 / 100000000).
  { unfold Qcminus. rewrite qr_add, qr_qz. unfold Rminus. f_equal.
    replace (- qfrac 99999999 100000000)%Qc with (Q2Qc (-99999999 # 100000000)) by (apply Qc_is_canon; vm_compute; reflexivity).
    rewrite qr_eq. unfold Q2R. cbn. field. }
  apply IZR_le in HN.
  rewrite qr_div, qr_mul, !qr_qz, E; [reflexivity|].
  intros Z. rewrite Z in E. unfold qr in E. cbn in E. unfold Q2R in E. cbn in E. lra.
Qed.
Lemma sh_field_tilt o n N step los m k u v : usable o -> (1 < n)%Z -> (1 <= N)%Z -> 0 < step ->
  let s := true_spot_scale o step n N in let s' := s_lambda o * IZR (ZnearestE (s_d o * s_fov o / s_lambda o)) / (s_d o * IZR (s_px o)) in
  sh_field n N (tilted_phase (s_lambda o) step (IZR m * s) (IZR k * s) los) u v = tilted o (IZR m * s') (IZR k * s') (sh_field n N los) u v.
Proof.
  intros U Hn HN Hs s s'. pose proof (usable_facts o U) as (_ & _ & _ & _ & HW). pose proof U as (Ud & Ul & _ & Uo & Up & _).
  unfold sh_field, efield, tilted. rewrite <- cis_add. f_equal. set (t := 2 * PI / s_lambda o * step * s).
  rewrite (bilin_ext _ (fun p q => los p q + (0 + (t * IZR m) * IZR p + (t * IZR k) * IZR q))).
  2:{ intros p q. unfold tilted_phase, tilt_phase, t. ring. }
  rewrite bilin_tilt, !zoom_R by auto. f_equal. unfold tilt_phase, t, s, s', true_spot_scale. rewrite (interp_R o). fold (waves o).
  assert (N1 : IZR (n - 1) <> 0) by (apply not_0_IZR; lia). assert (N2 : IZR (ZnearestE (waves o)) <> 0) by (apply not_0_IZR; lia).
  assert (N3 : IZR (s_px o) <> 0) by (apply not_0_IZR; lia). assert (N4 : IZR (s_over o) <> 0) by (apply not_0_IZR; lia).
  apply IZR_le in HN. field. repeat split; auto; lra.
Qed.
Lemma same_image o e e' mask fill x y : usable o -> (forall u v, e' u v = e u v) -> forall a b, sub_image o e' mask fill x y a b = sub_image o e mask fill x y a b.
Proof.
  intros U H a b. unfold sub_image, binned. f_equal. apply rsum_ext. intros s Hs. apply rsum_ext. intros t Ht. unfold spot. f_equal.
  unfold ft_shift. apply dft2_ext. intros i j Hi Hj. unfold fft_input. now rewrite H.
Qed.
Lemma spots_displaced o n N step los mask fill x y m k : usable o -> (1 < n)%Z -> (1 <= N)%Z -> 0 < step ->
  let s := true_spot_scale o step n N in
  same_on (n_over o) (sub_image o (sh_field n N (tilted_phase (s_lambda o) step (IZR m * s) (IZR k * s) los)) mask fill x y)
          (moved (n_over o) m k (sub_image o (sh_field n N los) mask fill x y)).
Proof.
  intros U Hn HN Hs s a b Ha Hb. erewrite same_image; [|exact U|intros u v; apply (sh_field_tilt o n N step los m k u v U Hn HN Hs)].
  apply (tilt_moves o (sh_field n N los) mask fill x y m k U); auto.
Qed.
Lemma spot_scale o D nsub pupil n N q : usable o -> 0 < D -> (0 < nsub)%Z -> (0 < pupil)%Z -> (1 < n)%Z -> (1 <= N)%Z ->
  s_d o = D / IZR nsub -> waves o = IZR q -> (N * pupil = nsub * nx_interp o * n)%Z ->
  true_spot_scale o (D / IZR pupil) n N = pixel_scale o * ((1 - 99999999 / 100000000 / IZR N) / (1 - / IZR n)).
Proof.
  intros U HD H1 H2 Hn HN Ed Ew EN. pose proof U as (Ud & Ul & _ & Uo & Up & _). pose proof (usable_facts o U) as (_ & _ & _ & _ & HW).
  assert (Eq : IZR (ZnearestE (waves o)) = IZR q) by (rewrite (Znearest_imp _ (waves o) q) by (rewrite Ew, Rminus_diag_eq, Rabs_R0 by reflexivity; lra); reflexivity).
  pose proof (f_equal IZR EN) as EN'. rewrite !mult_IZR, interp_R, Eq in EN'.
  assert (Nq : IZR q <> 0) by (rewrite <- Eq; apply not_0_IZR; lia).
  assert (N1 : IZR n - 1 <> 0) by (apply IZR_lt in Hn; lra). assert (N1' : IZR n <> 0) by (apply IZR_lt in Hn; lra).
  assert (N3 : IZR (s_px o) <> 0) by (apply not_0_IZR; lia). assert (N4 : IZR (s_over o) <> 0) by (apply not_0_IZR; lia).
  assert (N5 : IZR nsub <> 0) by (apply not_0_IZR; lia). assert (N6 : IZR pupil <> 0) by (apply not_0_IZR; lia).
  assert (N7 : IZR N <> 0) by (apply not_0_IZR; lia).
  assert (Ef : s_fov o = IZR q * s_lambda o * IZR nsub / D).
  { unfold waves in Ew. rewrite Ed in Ew. rewrite <- Ew. field. repeat split; auto; lra. }
  unfold true_spot_scale, pixel_scale. rewrite Ef, minus_IZR.
  assert (EP : IZR pupil = IZR nsub * (IZR q * IZR (s_over o)) * IZR n / IZR N) by (rewrite <- EN'; field; auto).
  rewrite EP. field. repeat split; auto; try lra.
Qed.

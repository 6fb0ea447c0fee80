(** Lower bounds of the Strehl ratio. *)
From Coq Require Import Reals.
From Coquelicot Require Import Complex.
From Verif.Base Require Import Vec CSum CSumFacts.
From Verif.Model Require Import Sh Science.
From Verif.Spec Require Import ScienceSpec.
From Verif.Spec Require Import StrehlSpec.
From Verif.Proofs Require Import ScienceProofs ScienceFourier ScienceStrehl.
From Coq Require Import Lra Lia.
Local Open Scope R_scope.

(** ** Cosines *)
Lemma sin_abs x : sin x * sin x <= x * x.
Proof.
  assert (P : forall y, 0 < y -> sin y * sin y <= y * y).
  { intros y Hy. pose proof (sin_lt_x y Hy). pose proof (SIN_bound y) as [B1 B2].
    destruct (Rle_dec 0 (sin y)) as [Hs|Hs]; [nra|]. 
    destruct (Rle_dec y 1) as [H1|H1].
    - exfalso. apply Hs. apply sin_ge_0; [lra|]. pose proof PI2_1. pose proof PI_RGT_0. lra.
    - nra. }
  destruct (Rtotal_order x 0) as [H|[->|H]]; [|rewrite sin_0; lra|apply P; lra].
  pose proof (P (- x) ltac:(lra)) as Q. rewrite sin_neg in Q. lra.
Qed.
Lemma cos_ge x : 1 - x * x / 2 <= cos x.
Proof.
  replace x with (2 * (x / 2)) at 3 by field. rewrite cos_2a_sin. pose proof (sin_abs (x / 2)). lra.
Qed.
Lemma cis_close a b : cnorm2 (cis a - cis b)%C <= (a - b) * (a - b).
Proof.
  unfold cnorm2, cis, Cminus, Cplus, Copp. cbn [fst snd].
  pose proof (cos_ge (a - b)) as H. rewrite cos_minus in H. pose proof (sin2_cos2 a) as A. pose proof (sin2_cos2 b) as B. unfold Rsqr in A, B. nra.
Qed.

(** ** Sums over the aperture *)
Lemma total_add n f g : total n (fun i j => f i j + g i j) = total n f + total n g.
Proof. unfold total. rewrite <- rsum_add. apply rsum_ext. intros i _. apply rsum_add. Qed.
Lemma total_scale n c f : total n (fun i j => c * f i j) = c * total n f.
Proof. unfold total. rewrite <- rsum_scale. apply rsum_ext. intros i _. apply rsum_scale. Qed.
Lemma total_ext n f g : (forall i j, (0 <= i < n)%Z -> (0 <= j < n)%Z -> f i j = g i j) -> total n f = total n g.
Proof. intros H. apply rsum_ext. intros i Hi. apply rsum_ext. intros j Hj. auto. Qed.
Lemma total_le n f g : (forall i j, (0 <= i < n)%Z -> (0 <= j < n)%Z -> f i j <= g i j) -> total n f <= total n g.
Proof. intros H. apply rsum_le. intros i Hi. apply rsum_le. intros j Hj. auto. Qed.
Lemma total_nonneg n f : (forall i j, (0 <= i < n)%Z -> (0 <= j < n)%Z -> 0 <= f i j) -> 0 <= total n f.
Proof. intros H. apply rsum_nonneg. intros i Hi. apply rsum_nonneg. intros j Hj. auto. Qed.
Lemma csum_parts n f : csum n f = (rsum n (fun i => fst (f i)), rsum n (fun i => snd (f i))).
Proof.
  unfold csum, rsum. induction (Z.to_nat n) as [|m IH]; [reflexivity|]. cbn [csumn rsumn]. rewrite IH. reflexivity.
Qed.
Lemma csum2_parts n f : csum n (fun a => csum n (f a)) = (total n (fun a b => fst (f a b)), total n (fun a b => snd (f a b))).
Proof.
  rewrite csum_parts. unfold total. f_equal; apply rsum_ext; intros i _; rewrite csum_parts; reflexivity.
Qed.
Lemma field_parts mask phase a b : sci_field mask phase a b = (mask a b * cos (phase a b), mask a b * sin (phase a b)).
Proof. unfold sci_field, cis, RtoC, Cmult. cbn [fst snd]. f_equal; ring. Qed.

(** the coherent sum of the aperture *)
Definition amplitude (F : Z) (mask phase : image) : C := csum F (fun a => csum F (fun b => sci_field mask phase a b)).
Lemma amplitude_parts F mask phase : amplitude F mask phase = (total F (fun a b => mask a b * cos (phase a b)), total F (fun a b => mask a b * sin (phase a b))).
Proof.
  unfold amplitude. etransitivity; [apply (csum2_parts F (fun a b => sci_field mask phase a b))|]. f_equal; apply total_ext; intros; rewrite field_parts; reflexivity.
Qed.
Lemma amplitude_cos F mask phase c : total F (fun a b => mask a b * cos (phase a b - c)) * total F (fun a b => mask a b * cos (phase a b - c)) <= cnorm2 (amplitude F mask phase).
Proof.
  rewrite amplitude_parts. unfold cnorm2. cbn [fst snd].
  assert (E : total F (fun a b => mask a b * cos (phase a b - c)) = cos c * total F (fun a b => mask a b * cos (phase a b)) + sin c * total F (fun a b => mask a b * sin (phase a b))).
  { rewrite <- !total_scale, <- total_add. apply total_ext. intros. rewrite cos_minus. ring. }
  rewrite E. set (x := total F _). set (y := total F _). pose proof (sin2_cos2 c) as S. unfold Rsqr in S.
  assert (N : (cos c * x + sin c * y) * (cos c * x + sin c * y) + (sin c * x - cos c * y) * (sin c * x - cos c * y) = (x * x + y * y) * (sin c * sin c + cos c * cos c)) by ring.
  rewrite S in N. pose proof (Rle_0_sqr (sin c * x - cos c * y)) as Q. unfold Rsqr in Q. lra.
Qed.
(** Marechal's bound, about any phase [c] *)
Lemma marechal F mask phase c : (forall a b, (0 <= a < F)%Z -> (0 <= b < F)%Z -> 0 <= mask a b) -> 0 < total F mask ->
  1 - total F (fun a b => mask a b * ((phase a b - c) * (phase a b - c))) / total F mask <= cnorm2 (amplitude F mask phase) / (total F mask * total F mask).
Proof.
  intros M T. set (V := total F (fun a b => mask a b * ((phase a b - c) * (phase a b - c)))). set (S := total F mask) in *.
  set (x := total F (fun a b => mask a b * cos (phase a b - c))).
  assert (H : S - V / 2 <= x).
  { replace (S - V / 2) with (total F (fun a b => mask a b + - (1 / 2) * (mask a b * ((phase a b - c) * (phase a b - c))))).
    - apply total_le. intros a b Ha Hb. pose proof (cos_ge (phase a b - c)). pose proof (M a b Ha Hb). nra.
    - rewrite total_add, total_scale. fold S V. field. }
  pose proof (amplitude_cos F mask phase c) as A. fold x in A.
  apply (Rmult_le_reg_r (S * S)); [nra|]. unfold Rdiv at 2. rewrite Rmult_assoc, Rinv_l by nra. rewrite Rmult_1_r.
  replace ((1 - V / S) * (S * S)) with (S * (S - V)) by (field; lra).
  destruct (Rle_dec 0 (S - V / 2)) as [P|P]; [|pose proof (cnorm2_nonneg (amplitude F mask phase)); nra].
  assert ((S - V / 2) * (S - V / 2) <= x * x) by nra. nra.
Qed.
(** ** Close phases *)
Lemma amplitude_close F mask p q B : (forall a b, (0 <= a < F)%Z -> (0 <= b < F)%Z -> 0 <= mask a b) ->
  (forall a b, (0 <= a < F)%Z -> (0 <= b < F)%Z -> Rabs (p a b - q a b) <= B) ->
  Rabs (sqrt (cnorm2 (amplitude F mask p)) - sqrt (cnorm2 (amplitude F mask q))) <= B * total F mask.
Proof.
  intros M H.
  assert (SM : forall z, sqrt (cnorm2 z) = Cmod z) by (intros z; rewrite cnorm2_mod; apply sqrt_square, Cmod_ge_0).
  rewrite !SM.
  assert (D : Cmod (amplitude F mask p - amplitude F mask q)%C <= B * total F mask).
  { replace (amplitude F mask p - amplitude F mask q)%C with (csum F (fun a => csum F (fun b => RtoC (mask a b) * (cis (p a b) - cis (q a b)))))%C.
    - rewrite <- total_scale. eapply Rle_trans; [apply cmod_csum|]. apply rsum_le. intros a Ha. eapply Rle_trans; [apply cmod_csum|]. apply rsum_le. intros b Hb.
      rewrite Cmod_mult, Cmod_R, Rabs_pos_eq by (apply M; auto). rewrite (Rmult_comm B). apply Rmult_le_compat_l; [apply M; auto|].
      pose proof (cis_close (p a b) (q a b)) as C. rewrite cnorm2_mod in C. pose proof (Cmod_ge_0 (cis (p a b) - cis (q a b))%C) as G. specialize (H a b Ha Hb).
      pose proof (Rabs_pos (p a b - q a b)). assert (E : (p a b - q a b) * (p a b - q a b) = Rabs (p a b - q a b) * Rabs (p a b - q a b)).
      { rewrite <- Rabs_mult. symmetry. apply Rabs_pos_eq. pose proof (Rle_0_sqr (p a b - q a b)) as Q. exact Q. }
      rewrite E in C. nra.
    - unfold amplitude, Cminus. replace (- csum F (fun a => csum F (fun b => sci_field mask q a b)))%C with (- RtoC 1 * csum F (fun a => csum F (fun b => sci_field mask q a b)))%C by ring.
      rewrite <- csum_scale, <- csum_add. apply csum_ext. intros a _. rewrite <- csum_scale, <- csum_add. apply csum_ext. intros b _. unfold sci_field. ring. }
  set (x := amplitude F mask p) in *. set (y := amplitude F mask q) in *.
  pose proof (Cmod_triangle (x - y)%C y) as T1. replace (x - y + y)%C with x in T1 by ring.
  
  pose proof (Cmod_triangle x (- (x - y))%C) as T3. rewrite Cmod_opp in T3. replace (x + - (x - y))%C with y in T3 by ring.
  apply Rabs_le. lra.
Qed.

(** ** The camera *)
Lemma rsum_part P s n f : (0 <= s)%Z -> (0 <= n)%Z -> (s + n <= P)%Z -> (forall i, (0 <= i < P)%Z -> 0 <= f i) -> rsum n (fun i => f (i + s)%Z) <= rsum P f.
Proof.
  intros Hs Hn HP H. replace P with (s + (n + (P - s - n)))%Z by lia. rewrite !rsum_split by lia.
  assert (0 <= rsum s f) by (apply rsum_nonneg; intros; apply H; lia).
  assert (0 <= rsum (P - s - n) (fun i => f (s + (n + i))%Z)) by (apply rsum_nonneg; intros; apply H; lia).
  replace (rsum n (fun i => f (i + s)%Z)) with (rsum n (fun i => f (s + i)%Z)) by (apply rsum_ext; intros; f_equal; lia). lra.
Qed.
Lemma focal_light k phase : camera k -> Z.even (g_fft (k_geom k)) = true ->
  total (g_fft (k_geom k)) (fun i j => cnorm2 (sci_focus (g_fft (k_geom k)) (g_fov (k_geom k)) (sci_field (k_mask k) phase) i j))
  = IZR (g_fft (k_geom k)) * IZR (g_fft (k_geom k)) * total (g_fov (k_geom k)) (fun a b => k_mask k a b * k_mask k a b).
Proof.
  intros C Ev. destruct (camera_facts k C Ev) as (h & K). pose proof K as [Kn Ko Kf Kp Kh Kl Kc K0]. rewrite Kp, focus_energy by lia.
  f_equal. apply total_ext. intros. apply field_energy.
Qed.
Lemma raw_at_most k phase : camera k -> Z.even (g_fft (k_geom k)) = true ->
  img_sum (k_nx k) (sci_raw k phase) <= IZR (g_fft (k_geom k)) * IZR (g_fft (k_geom k)) * total (g_fov (k_geom k)) (fun a b => k_mask k a b * k_mask k a b).
Proof.
  intros C Ev. destruct (camera_facts k C Ev) as (h & K). pose proof K as [Kn Ko Kf Kp Kh Kl Kc K0].
  rewrite raw_total by auto. set (P0 := (k_nx k * g_os (k_geom k))%Z) in *.
  assert (E : total (2 * h) (fun i j => cnorm2 (sci_focus (2 * h) (g_fov (k_geom k)) (sci_field (k_mask k) phase) i j))
    = IZR (g_fft (k_geom k)) * IZR (g_fft (k_geom k)) * total (g_fov (k_geom k)) (fun a b => k_mask k a b * k_mask k a b)).
  { rewrite focus_energy by lia. rewrite Kp. f_equal. apply total_ext. intros. apply field_energy. }
  rewrite <- E. unfold total. set (I := fun i j => cnorm2 (sci_focus (2 * h) (g_fov (k_geom k)) (sci_field (k_mask k) phase) i j)).
  eapply Rle_trans; [|apply (rsum_part (2 * h) (g_crop (k_geom k)) P0 (fun i => rsum (2 * h) (I i))); try lia; intros; apply rsum_nonneg; intros; apply cnorm2_nonneg].
  apply rsum_le. intros i Hi. eapply Rle_trans; [|apply (rsum_part (2 * h) (g_crop (k_geom k)) P0 (I (i + g_crop (k_geom k))%Z)); try lia; intros; apply cnorm2_nonneg].
  apply rsum_le. intros j Hj. unfold I, sci_intensity. rewrite Kp. apply Rle_refl.
Qed.
Lemma strehl_cropped k phase : camera k -> Z.even (g_fft (k_geom k)) = true -> lit k -> mask_nonneg k -> g_os (k_geom k) = 1%Z ->
  let F := g_fov (k_geom k) in
  exists s t, inst_strehl k true phase = Some s /\ inst_strehl k false phase = Some t /\ s <= t /\
    cnorm2 (amplitude F (k_mask k) phase) / (total F (k_mask k) * total F (k_mask k)) * caught k <= s /\ 0 < caught k <= 1.
Proof.
  intros C Ev L M O F. destruct (camera_facts k C Ev) as (h & K). pose proof (never_dark k (fun _ _ => 0) C Ev L) as ND. pose proof (never_dark k phase C Ev L) as NDp.
  pose proof K as [Kn Ko Kf Kp Kh Kl Kc K0]. pose proof (lit_total k M L) as LT. fold F in LT.
  unfold inst_strehl, strehl_of, psf_max.
  destruct (normalised_some (k_nx k) (sci_raw k (fun _ _ => 0)) ltac:(lra)) as (v & -> & _ & Hv).
  destruct (normalised_some (k_nx k) (sci_raw k phase) ltac:(lra)) as (w & -> & _ & Hw). cbn [option_map].
  rewrite (flat_max k h v) by auto. fold F. eexists _, _. split; [reflexivity|]. split; [reflexivity|].
  set (T := total F (k_mask k)) in *. set (S0 := img_sum (k_nx k) (sci_raw k (fun _ _ => 0))) in *. set (S1 := img_sum (k_nx k) (sci_raw k phase)) in *.
  assert (Q : 0 < T * T / S0) by (apply Rdiv_lt_0_compat; [nra | auto]).
  set (A := IZR (g_fft (k_geom k)) * IZR (g_fft (k_geom k)) * total F (fun a b => k_mask k a b * k_mask k a b)).
  assert (A0 : S0 <= A) by (apply raw_at_most; auto). assert (A1 : S1 <= A) by (apply raw_at_most; auto).
  split; [|split].
  - apply Rmult_le_compat_r; [left; apply Rinv_0_lt_compat; auto|]. apply img_max_ge; split; try apply Z.div_pos; try apply Z.div_lt_upper_bound; lia.
  - rewrite Hw, (centre_raw k h) by auto. fold F. fold (amplitude F (k_mask k) phase). set (c := cnorm2 (amplitude F (k_mask k) phase)). fold S1.
    assert (c0 : 0 <= c) by apply cnorm2_nonneg. unfold caught. cbv zeta. rewrite focal_light by auto. fold S0. fold F. fold A.
    replace (c / S1 / (T * T / S0)) with (c / (T * T) * (S0 / S1)) by (field; repeat split; lra).
    apply Rmult_le_compat_l; [apply Rmult_le_pos; [exact c0|left; apply Rinv_0_lt_compat; nra]|].
    apply Rmult_le_compat_l; [lra|]. apply Rinv_le_contravar; lra.
  - unfold caught. cbv zeta. rewrite focal_light by auto. fold S0. fold F. fold A. split; [apply Rdiv_lt_0_compat; lra|]. apply (Rmult_le_reg_r A); [lra|]. unfold Rdiv. rewrite Rmult_assoc, Rinv_l by lra. lra.
Qed.
Lemma caught_all k : camera k -> Z.even (g_fft (k_geom k)) = true -> lit k -> g_factor (k_geom k) = 1%Z -> caught k = 1.
Proof.
  intros C Ev L F1. pose proof (never_dark k (fun _ _ => 0) C Ev L) as ND. unfold caught. cbv zeta. rewrite focal_light by auto. rewrite raw_energy in * by auto. field. repeat split; intros E; rewrite E in ND; lra.
Qed.
(** ** What the camera reports *)
Lemma strehl_marechal_cropped k phase : camera k -> Z.even (g_fft (k_geom k)) = true -> lit k -> mask_nonneg k -> g_os (k_geom k) = 1%Z ->
  exists s t, inst_strehl k true phase = Some s /\ inst_strehl k false phase = Some t /\
    (1 - pupil_var (g_fov (k_geom k)) (k_mask k) phase) * caught k <= s /\ s <= t /\ 0 < caught k <= 1.
Proof.
  intros C Ev L M O. destruct (strehl_cropped k phase C Ev L M O) as (s & t & S1 & S2 & S3 & S4 & S5). exists s, t. repeat split; auto; try apply S5.
  eapply Rle_trans; [|exact S4]. apply Rmult_le_compat_r; [lra|]. unfold pupil_var. apply marechal; [exact M|apply lit_total; auto].
Qed.
Lemma strehl_marechal k phase : camera k -> Z.even (g_fft (k_geom k)) = true -> lit k -> mask_nonneg k -> g_os (k_geom k) = 1%Z -> g_factor (k_geom k) = 1%Z ->
  exists s t, inst_strehl k true phase = Some s /\ inst_strehl k false phase = Some t /\
    1 - pupil_var (g_fov (k_geom k)) (k_mask k) phase <= s /\ s <= t.
Proof.
  intros C Ev L M O F1. destruct (strehl_marechal_cropped k phase C Ev L M O) as (s & t & S1 & S2 & S3 & S4 & S5). exists s, t. repeat split; auto.
  rewrite caught_all in S3 by auto. lra.
Qed.
Lemma strehl_close k B p q : camera k -> Z.even (g_fft (k_geom k)) = true -> lit k -> mask_nonneg k -> g_os (k_geom k) = 1%Z -> g_factor (k_geom k) = 1%Z ->
  phases_within k B p q ->
  exists s t, inst_strehl k true p = Some s /\ inst_strehl k true q = Some t /\ Rabs (sqrt s - sqrt t) <= B.
Proof.
  intros C Ev L M O F1 H. destruct (strehl_formula k p C Ev L M O F1) as (A & _). destruct (strehl_formula k q C Ev L M O F1) as (A' & _).
  eexists _, _. split; [exact A|]. split; [exact A'|]. set (F := g_fov (k_geom k)) in *. pose proof (lit_total k M L) as T. fold F in T.
  fold (amplitude F (k_mask k) p). fold (amplitude F (k_mask k) q). set (S := total F (k_mask k)) in *.
  rewrite !sqrt_div_alt by nra. rewrite sqrt_square by lra.
  pose proof (amplitude_close F (k_mask k) p q B M H) as K. fold S in K.
  replace (sqrt (cnorm2 (amplitude F (k_mask k) p)) / S - sqrt (cnorm2 (amplitude F (k_mask k) q)) / S)
    with ((sqrt (cnorm2 (amplitude F (k_mask k) p)) - sqrt (cnorm2 (amplitude F (k_mask k) q))) * / S) by (unfold Rdiv; ring).
  rewrite Rabs_mult, (Rabs_pos_eq (/ S)) by (left; apply Rinv_0_lt_compat; lra).
  apply (Rmult_le_reg_r S); [lra|]. rewrite Rmult_assoc, Rinv_l by lra. lra.
Qed.

From Coq Require Import Reals.
From Coquelicot Require Import Complex.
From Verif.Base Require Import Vec CSum CSumFacts PyFacts.
From Verif.Model Require Import Sh Science.
From Verif.Spec Require Import ScienceSpec.
From Verif.Proofs Require Import ScienceProofs ScienceFourier.
From Coq Require Import Lra Lia.
Open Scope R_scope.

(** * Polynomials: as many roots as coefficients only for zero *)
Fixpoint peval (l : list C) (x : C) : C := match l with nil => RtoC 0 | c :: t => (c + x * peval t x)%C end.
Fixpoint sdiv (c : C) (l : list C) (w : C) : list C * C :=
  match l with nil => (nil, c) | c' :: t => let (q, r) := sdiv c' t w in (r :: q, (c + w * r)%C) end.
Lemma sdiv_eval l : forall c w x, let (q, r) := sdiv c l w in peval (c :: l) x = ((x - w) * peval q x + r)%C /\ length q = length l.
Proof.
  induction l as [|c' l IH]; intros c w x; cbn [sdiv]; [cbn; split; [ring | reflexivity]|].
  specialize (IH c' w x). destruct (sdiv c' l w) as (q, r). destruct IH as (E & L). split; [|cbn; congruence].
  change (peval (c :: c' :: l) x) with (c + x * peval (c' :: l) x)%C. rewrite E. cbn [peval]. ring.
Qed.
Lemma sdiv_rem l : forall c w, snd (sdiv c l w) = peval (c :: l) w.
Proof.
  intros c w. pose proof (sdiv_eval l c w w) as H. destruct (sdiv c l w) as (q, r). destruct H as (-> & _). cbn [snd]. ring.
Qed.
Lemma sdiv_zero l : forall c w, Forall (fun z => z = RtoC 0) (fst (sdiv c l w)) -> snd (sdiv c l w) = RtoC 0 -> Forall (fun z => z = RtoC 0) (c :: l).
Proof.
  induction l as [|c' l IH]; intros c w; cbn [sdiv]; [cbn; intros _ ->; constructor; auto|].
  destruct (sdiv c' l w) as (q, r) eqn:E. cbn [fst snd]. intros F R0. inversion F; subst.
  assert (G : Forall (fun z => z = RtoC 0) (c' :: l)) by (apply (IH c' w); rewrite E; auto).
  constructor; auto. rewrite <- R0. ring.
Qed.
Lemma c_integral a b : (a * b)%C = RtoC 0 -> a = RtoC 0 \/ b = RtoC 0.
Proof.
  intros H. assert (E : cnorm2 a * cnorm2 b = 0) by (rewrite <- cnorm2_mul, H, cnorm2_R; ring).
  apply Rmult_integral in E as [E|E]; apply cnorm2_zero in E; auto.
Qed.
Lemma roots_zero : forall n l ws, length l = n -> (n <= length ws)%nat -> NoDup ws -> (forall w, In w ws -> peval l w = RtoC 0) -> Forall (fun z => z = RtoC 0) l.
Proof.
  induction n as [|n IH]; intros l ws Hl Hw Nd Hr; [destruct l; [constructor | discriminate]|].
  destruct l as [|c l]; [discriminate|]. destruct ws as [|w ws]; [cbn in Hw; lia|]. inversion Nd; subst.
  apply (sdiv_zero l c w).
  - apply (IH _ ws).
    + pose proof (sdiv_eval l c w w) as S. destruct (sdiv c l w). cbn [fst]. destruct S as (_ & ->). cbn in Hl. lia.
    + cbn in Hw. lia.
    + auto.
    + intros w' Hw'. pose proof (sdiv_eval l c w w') as S. pose proof (sdiv_rem l c w) as R0. destruct (sdiv c l w) as (q, r). cbn [fst snd] in *.
      destruct S as (S & _). rewrite Hr in S by (right; auto). rewrite R0, Hr in S by (left; auto).
      assert (E : ((w' - w) * peval q w')%C = RtoC 0) by (rewrite <- (Cplus_0_r ((w' - w) * peval q w')%C); symmetry; exact S).
      apply c_integral in E as [E|E]; auto. exfalso. apply H1. replace w with w'; auto.
      replace w' with (w' - w + w)%C by ring. rewrite E. ring.
  - rewrite sdiv_rem. apply Hr. left. auto.
Qed.
Fixpoint cpown (w : C) (n : nat) : C := match n with O => RtoC 1 | S m => (w * cpown w m)%C end.
Lemma csumn_shift n f : csumn (S n) f = (f 0%Z + csumn n (fun i => f (1 + i)%Z))%C.
Proof. change (S n) with (1 + n)%nat. rewrite csumn_split. cbn. ring. Qed.
Lemma peval_csumn n : forall (c : Z -> C) w, csumn n (fun b => c b * cpown w (Z.to_nat b))%C = peval (map (fun i => c (Z.of_nat i)) (seq 0 n)) w.
Proof.
  induction n as [|n IH]; intros c w; [reflexivity|]. rewrite csumn_shift. cbn [seq map peval]. rewrite <- seq_shift, map_map.
  replace (map (fun x => c (Z.of_nat (S x))) (seq 0 n)) with (map (fun x => (fun z => c (1 + z)%Z) (Z.of_nat x)) (seq 0 n)) by (apply map_ext; intros; f_equal; lia).
  rewrite <- (IH (fun z => c (1 + z)%Z) w). cbn [Z.to_nat cpown Z.of_nat]. 
  transitivity (c 0%Z + csumn n (fun i => w * (c (1 + i)%Z * cpown w (Z.to_nat i))))%C.
  - f_equal; [ring|]. apply csumn_ext. intros i Hi. replace (Z.to_nat (1 + i)) with (S (Z.to_nat i)) by lia. cbn [cpown]. ring.
  - rewrite csumn_scale. reflexivity.
Qed.
Lemma cis_pow P v b : (0 < P)%Z -> (0 <= b)%Z -> cis (- (2 * PI * IZR (v * b) / IZR P)) = cpown (cis (- (2 * PI * IZR v / IZR P))) (Z.to_nat b).
Proof.
  intros HP Hb. replace b with (Z.of_nat (Z.to_nat b)) at 1 by lia. generalize (Z.to_nat b). clear b Hb. intros n. induction n as [|n IH].
  - change (Z.of_nat 0) with 0%Z. rewrite Z.mul_0_r. replace (- (2 * PI * 0 / IZR P)) with 0 by (field; apply IZR_neq; lia). apply cis_0.
  - replace (v * Z.of_nat (S n))%Z with (v + v * Z.of_nat n)%Z by lia. rewrite cis_plus_ix, IH by auto. reflexivity.
Qed.
Lemma cis_distinct P v v' : (0 < P)%Z -> (0 < v - v' < P)%Z -> cis (- (2 * PI * IZR v / IZR P)) <> cis (- (2 * PI * IZR v' / IZR P)).
Proof.
  intros HP H E. apply (cis_root_neq P (v - v')); auto.
  assert (Rn : IZR P <> 0) by (apply IZR_neq; lia).
  transitivity (cis (2 * PI * IZR v / IZR P) * cis (- (2 * PI * IZR v' / IZR P)))%C.
  - rewrite <- cis_add. f_equal. rewrite minus_IZR. field. auto.
  - rewrite <- E, <- cis_add, Rplus_opp_r. apply cis_0.
Qed.
(** a sum of F terms that vanishes at F consecutive frequencies has no terms *)
Lemma consecutive_zero P F P0 v0 (c : Z -> C) : (0 < P)%Z -> (0 <= F <= P0)%Z -> (P0 <= P)%Z ->
  (forall v, (v0 <= v < v0 + P0)%Z -> csum F (fun b => c b * cis (- (2 * PI * IZR (v * b) / IZR P)))%C = RtoC 0) ->
  forall b, (0 <= b < F)%Z -> c b = RtoC 0.
Proof.
  intros HP HF HP0 H b Hb.
  set (ws := map (fun i => cis (- (2 * PI * IZR (v0 + Z.of_nat i) / IZR P))) (seq 0 (Z.to_nat P0))).
  assert (Fa : Forall (fun z => z = RtoC 0) (map (fun i => c (Z.of_nat i)) (seq 0 (Z.to_nat F)))).
  { apply (roots_zero (Z.to_nat F) _ ws).
    - rewrite map_length, seq_length. reflexivity.
    - unfold ws. rewrite map_length, seq_length. lia.
    - unfold ws. assert (G : forall n s, (Z.of_nat (s + n) <= P0)%Z -> NoDup (map (fun i => cis (- (2 * PI * IZR (v0 + Z.of_nat i) / IZR P))) (seq s n))).
      { induction n as [|n IH]; intros s Hs; cbn [seq map]; constructor; [|apply IH; lia].
        intros Hin. apply in_map_iff in Hin as (i & E & Hi). apply in_seq in Hi. revert E. apply cis_distinct; lia. }
      apply G. lia.
    - intros w Hw. unfold ws in Hw. apply in_map_iff in Hw as (i & <- & Hi). apply in_seq in Hi.
      rewrite <- peval_csumn. rewrite <- (H (v0 + Z.of_nat i)%Z) by lia. unfold csum. apply csumn_ext. intros a Ha. rewrite cis_pow by lia. reflexivity. }
  rewrite Forall_forall in Fa. apply Fa. apply in_map_iff. exists (Z.to_nat b). split; [f_equal; lia | apply in_seq; lia].
Qed.
Lemma far_field_zero P F P0 u0 v0 e : (0 < P)%Z -> (0 <= F <= P0)%Z -> (P0 <= P)%Z ->
  (forall u v, (u0 <= u < u0 + P0)%Z -> (v0 <= v < v0 + P0)%Z -> far_field F P e u v = RtoC 0) ->
  forall a b, (0 <= a < F)%Z -> (0 <= b < F)%Z -> e a b = RtoC 0.
Proof.
  intros HP HF HP0 H a b Ha Hb.
  apply (consecutive_zero P F P0 u0 (fun a => e a b) HP HF HP0); auto. intros u Hu.
  apply (consecutive_zero P F P0 v0 (fun b => csum F (fun a => e a b * cis (- (2 * PI * IZR (u * a) / IZR P)))%C) HP HF HP0); auto.
  intros v Hv. rewrite <- (H u v Hu Hv). unfold far_field. rewrite csum_swap. apply csum_ext. intros b' Hb'. rewrite <- csum_scale_r. apply csum_ext. intros a' Ha'.
  rewrite cis_plus_ix by auto. ring.
Qed.

(** * The camera *)
Record kfacts (k : cam) (h : Z) : Prop := {
  kf_nx : (0 < k_nx k)%Z; kf_os : (0 < g_os (k_geom k))%Z; kf_fov : (0 < g_fov (k_geom k))%Z;
  kf_fft : (g_fft (k_geom k) = 2 * h)%Z; kf_h : (0 < h)%Z;
  kf_le : (g_fov (k_geom k) <= k_nx k * g_os (k_geom k))%Z;
  kf_crop : (2 * g_crop (k_geom k) = g_fft (k_geom k) - k_nx k * g_os (k_geom k))%Z;
  kf_c0 : (0 <= g_crop (k_geom k))%Z }.
Lemma camera_facts k : camera k -> Z.even (g_fft (k_geom k)) = true -> exists h, kfacts k h.
Proof.
  intros (pupil & pad & os & ratio & fuel & n & Hp & Hpad & Hn & Hr & Hg & Hc) Ev.
  destruct (geometry_ok _ _ _ _ _ _ _ Hp Hpad Hn Hr Hg) as (G1 & G2 & G3 & G4 & G5 & _ & _ & _ & G9 & _ & G11 & G12 & G13).
  set (g := k_geom k) in *. apply Z.even_spec in Ev. destruct Ev as (h & Eh). exists h.
  assert (O : (0 < g_os g)%Z) by nia.
  destruct (focal_ok g (g_focus g) G12 G4 ltac:(nia) G13 eq_refl) as (A & B).
  destruct (Z.odd (g_focus g) && Z.even (g_factor g)) eqn:E; [rewrite (B eq_refl) in Hc; discriminate|]. destruct (A eq_refl) as (_ & A2).
  constructor; fold g; try assumption; try nia; try lia.
Qed.
Lemma camera_factor1 k : camera k -> g_factor (k_geom k) = 1%Z -> g_crop (k_geom k) = 0%Z /\ g_fft (k_geom k) = (k_nx k * g_os (k_geom k))%Z.
Proof.
  intros (pupil & pad & os & ratio & fuel & n & Hp & Hpad & Hn & Hr & Hg & Hc) F1.
  destruct (geometry_ok _ _ _ _ _ _ _ Hp Hpad Hn Hr Hg) as (_ & _ & _ & _ & _ & _ & _ & _ & _ & _ & G11 & G12 & G13).
  rewrite F1 in G12. rewrite G13, G12, G11. rewrite Z.mul_1_r, Z.sub_diag. split; reflexivity.
Qed.
Lemma intensity_far k h phase i j : kfacts k h -> (0 <= i < k_nx k * g_os (k_geom k))%Z -> (0 <= j < k_nx k * g_os (k_geom k))%Z ->
  sci_intensity k phase i j = cnorm2 (far_field (g_fov (k_geom k)) (g_fft (k_geom k)) (sci_field (k_mask k) phase) (i + g_crop (k_geom k) - h) (j + g_crop (k_geom k) - h)).
Proof.
  intros K Hi Hj. destruct K. unfold sci_intensity. cbv zeta. rewrite kf_fft0 in *. apply focus_far_field; lia.
Qed.
Lemma raw_total k phase : (0 < k_nx k)%Z -> (0 < g_os (k_geom k))%Z ->
  img_sum (k_nx k) (sci_raw k phase) = total (k_nx k * g_os (k_geom k)) (sci_intensity k phase).
Proof.
  intros Hn Ho. unfold img_sum, sci_raw, total. set (b := g_os (k_geom k)) in *. cbv zeta.
  rewrite <- rsum_blocks by lia. apply rsum_ext. intros i Hi. rewrite rsum_swap. apply rsum_ext. intros x Hx. rewrite <- rsum_blocks by lia. reflexivity.
Qed.
Lemma rsum_1 f : rsum 1 f = f 0%Z.
Proof. unfold rsum. change (Z.to_nat 1) with 1%nat. cbn [rsumn]. apply Rplus_0_l. Qed.
Lemma rsum_zero_all n f : rsum n f = 0 -> (forall i, (0 <= i < n)%Z -> 0 <= f i) -> forall i, (0 <= i < n)%Z -> f i = 0.
Proof.
  intros H P i Hi. destruct (Req_EM_T (f i) 0) as [|N]; auto. exfalso.
  assert (E : rsum n f = rsum i f + (f i + rsum (n - i - 1) (fun j => f (i + (1 + j))%Z))).
  { assert (Q : rsum n f = rsum (i + (1 + (n - i - 1))) f) by (f_equal; lia). rewrite Q, rsum_split, rsum_split by lia. rewrite rsum_1, Z.add_0_r. reflexivity. }
  pose proof (rsum_nonneg i f ltac:(intros; apply P; lia)). pose proof (rsum_nonneg (n - i - 1) (fun j => f (i + (1 + j))%Z) ltac:(intros; apply P; lia)).
  pose proof (P i Hi). lra.
Qed.
(** the field of view is never completely dark *)
Lemma never_dark k phase : camera k -> Z.even (g_fft (k_geom k)) = true -> lit k -> 0 < img_sum (k_nx k) (sci_raw k phase).
Proof.
  intros C Ev (a & b & Ha & Hb & Hm). destruct (camera_facts k C Ev) as (h & K). pose proof K as [Kn Ko Kf Kp Kh Kl Kc K0].
  rewrite raw_total by auto. set (P0 := (k_nx k * g_os (k_geom k))%Z) in *.
  assert (NN : forall i j, 0 <= sci_intensity k phase i j) by (intros; apply cnorm2_nonneg).
  assert (G : 0 <= total P0 (sci_intensity k phase)) by (apply rsum_nonneg; intros; apply rsum_nonneg; intros; apply NN).
  destruct (Req_EM_T (total P0 (sci_intensity k phase)) 0) as [E|E]; [|lra]. exfalso. apply Hm.
  assert (Zr : forall i j, (0 <= i < P0)%Z -> (0 <= j < P0)%Z -> sci_intensity k phase i j = 0).
  { intros i j Hi Hj. pose proof (rsum_zero_all P0 _ E ltac:(intros; apply rsum_nonneg; intros; apply NN) i Hi) as R1. cbv beta in R1.
    apply (rsum_zero_all P0 _ R1 ltac:(intros; apply NN) j Hj). }
  assert (e0 : sci_field (k_mask k) phase a b = RtoC 0).
  { apply (far_field_zero (g_fft (k_geom k)) (g_fov (k_geom k)) P0 (g_crop (k_geom k) - h) (g_crop (k_geom k) - h)); auto; try lia.
    intros u v Hu Hv. apply cnorm2_zero. rewrite <- (Zr (u - (g_crop (k_geom k) - h))%Z (v - (g_crop (k_geom k) - h))%Z) by lia.
    rewrite (intensity_far k h) by (auto; fold P0; lia). f_equal. f_equal; lia. }
  pose proof (field_energy (k_mask k) phase a b) as FE. rewrite e0, cnorm2_R in FE. nra.
Qed.
Lemma flat_strehl k c : (0 < k_nx k)%Z -> img_sum (k_nx k) (sci_raw k (fun _ _ => 0)) <> 0 -> inst_strehl k false (fun _ _ => c) = Some 1.
Proof.
  intros Hn H. unfold inst_strehl, strehl_of, psf_max.
  assert (E : forall i j, sci_raw k (fun _ _ => c) i j = sci_raw k (fun _ _ => 0) i j).
  { intros i j. rewrite <- (raw_piston k (fun _ _ => 0) c). unfold sci_raw. apply rsum_ext. intros x _. apply rsum_ext. intros y _. unfold sci_intensity. f_equal.
    apply focus_ext. intros a b. unfold sci_field. rewrite Rplus_0_l. reflexivity. }
  assert (H' : img_sum (k_nx k) (sci_raw k (fun _ _ => c)) <> 0) by (rewrite (img_sum_ext _ _ _ E); auto).
  destruct (normalised_some _ _ H) as (v & -> & _ & Ev). destruct (normalised_some _ _ H') as (w & -> & _ & Ew). cbn [option_map]. f_equal.
  rewrite (img_max_ext (k_nx k) w v) by (auto; intros; rewrite Ew, Ev, E, (img_sum_ext _ _ _ E); reflexivity).
  unfold Rdiv. rewrite Rinv_r; [reflexivity|]. assert (0 < img_max (k_nx k) v); [|lra].
  assert (S : 0 <= img_sum (k_nx k) (sci_raw k (fun _ _ => 0))) by (apply rsum_nonneg; intros; apply rsum_nonneg; intros; apply raw_nonneg).
  apply img_max_pos; auto.
  - assert (Q : img_sum (k_nx k) v = / img_sum (k_nx k) (sci_raw k (fun _ _ => 0)) * img_sum (k_nx k) (sci_raw k (fun _ _ => 0))).
    { rewrite <- img_sum_scale. apply img_sum_ext. intros. rewrite Ev. unfold Rdiv. ring. }
    rewrite Q, Rinv_l by auto. lra.
  - intros i j. rewrite Ev. apply Rmult_le_pos; [apply raw_nonneg|]. left. apply Rinv_0_lt_compat. lra.
Qed.
(** * Without oversampling *)
Lemma raw_os1 k phase i j : g_os (k_geom k) = 1%Z -> sci_raw k phase i j = sci_intensity k phase i j.
Proof. intros E. unfold sci_raw. rewrite E. cbv zeta. rewrite !rsum_1. f_equal; lia. Qed.
Lemma field_sum F P mask phase : (0 < P)%Z -> far_field F P (sci_field mask phase) 0 0 = csum F (fun a => csum F (fun b => sci_field mask phase a b)).
Proof.
  intros HP. unfold far_field. apply csum_ext. intros a Ha. apply csum_ext. intros b Hb. replace (0 * a + 0 * b)%Z with 0%Z by ring.
  replace (- (2 * PI * 0 / IZR P)) with 0 by (field; apply IZR_neq; lia). rewrite cis_0. ring.
Qed.
Lemma centre_pixel k h : kfacts k h -> g_os (k_geom k) = 1%Z -> (k_nx k / 2 + g_crop (k_geom k) - h = 0)%Z.
Proof.
  intros [Kn Ko Kf Kp Kh Kl Kc K0] O. rewrite O in *. pose proof (Z.div_mod (k_nx k) 2 ltac:(lia)). pose proof (Z.mod_pos_bound (k_nx k) 2 ltac:(lia)). lia.
Qed.
Lemma centre_raw k h phase : kfacts k h -> g_os (k_geom k) = 1%Z ->
  sci_raw k phase (k_nx k / 2) (k_nx k / 2) = cnorm2 (csum (g_fov (k_geom k)) (fun a => csum (g_fov (k_geom k)) (fun b => sci_field (k_mask k) phase a b))).
Proof.
  intros K O. rewrite raw_os1 by auto. pose proof (centre_pixel k h K O) as CP. pose proof K as [Kn Ko Kf Kp Kh Kl Kc K0].
  assert (B : (0 <= k_nx k / 2 < k_nx k)%Z) by (split; [apply Z.div_pos; lia | apply Z.div_lt_upper_bound; lia]).
  rewrite (intensity_far k h) by (auto; rewrite O; lia). rewrite CP. rewrite field_sum by lia. reflexivity.
Qed.
Lemma flat_centre k h : kfacts k h -> g_os (k_geom k) = 1%Z ->
  sci_raw k (fun _ _ => 0) (k_nx k / 2) (k_nx k / 2) = total (g_fov (k_geom k)) (k_mask k) * total (g_fov (k_geom k)) (k_mask k).
Proof.
  intros K O. rewrite (centre_raw k h) by auto. pose proof K as [Kn Ko Kf Kp Kh Kl Kc K0].
  rewrite <- (field_sum _ (g_fft (k_geom k))) by lia. rewrite far_field_flat by lia. apply cnorm2_R.
Qed.
Lemma raw_le k h phase i j : kfacts k h -> mask_nonneg k -> g_os (k_geom k) = 1%Z -> (0 <= i < k_nx k)%Z -> (0 <= j < k_nx k)%Z ->
  sci_raw k phase i j <= total (g_fov (k_geom k)) (k_mask k) * total (g_fov (k_geom k)) (k_mask k).
Proof.
  intros K M O Hi Hj. rewrite raw_os1 by auto. rewrite (intensity_far k h) by (auto; rewrite O; lia). apply far_field_peak. exact M.
Qed.
Lemma lit_total k : mask_nonneg k -> lit k -> 0 < total (g_fov (k_geom k)) (k_mask k).
Proof.
  intros M (a & b & Ha & Hb & Hm). set (F := g_fov (k_geom k)) in *.
  assert (N : 0 <= total F (k_mask k)) by (apply rsum_nonneg; intros; apply rsum_nonneg; intros; apply M; auto).
  destruct (Req_EM_T (total F (k_mask k)) 0) as [E|E]; [|lra]. exfalso. apply Hm.
  pose proof (rsum_zero_all F _ E ltac:(intros; apply rsum_nonneg; intros; apply M; auto) a Ha) as R1. cbv beta in R1.
  apply (rsum_zero_all F _ R1 ltac:(intros; apply M; auto) b Hb).
Qed.
Lemma flat_max k h v : kfacts k h -> mask_nonneg k -> g_os (k_geom k) = 1%Z -> 0 < img_sum (k_nx k) (sci_raw k (fun _ _ => 0)) ->
  (forall i j, v i j = sci_raw k (fun _ _ => 0) i j / img_sum (k_nx k) (sci_raw k (fun _ _ => 0))) ->
  img_max (k_nx k) v = total (g_fov (k_geom k)) (k_mask k) * total (g_fov (k_geom k)) (k_mask k) / img_sum (k_nx k) (sci_raw k (fun _ _ => 0)).
Proof.
  intros K M O S Ev. pose proof K as [Kn Ko Kf Kp Kh Kl Kc K0].
  assert (B : (0 <= k_nx k / 2 < k_nx k)%Z) by (split; [apply Z.div_pos; lia | apply Z.div_lt_upper_bound; lia]).
  apply Rle_antisym.
  - apply img_max_le; auto. intros i j Hi Hj. rewrite Ev. apply Rmult_le_compat_r; [left; apply Rinv_0_lt_compat; auto|]. apply (raw_le k h); auto.
  - rewrite <- (flat_centre k h) by auto. rewrite <- Ev. apply img_max_ge; auto.
Qed.
Lemma flat_strehl_tt k c : camera k -> Z.even (g_fft (k_geom k)) = true -> lit k -> mask_nonneg k -> g_os (k_geom k) = 1%Z ->
  inst_strehl k true (fun _ _ => c) = Some 1.
Proof.
  intros C Ev L M O. destruct (camera_facts k C Ev) as (h & K). pose proof (never_dark k (fun _ _ => 0) C Ev L) as ND. pose proof (never_dark k (fun _ _ => c) C Ev L) as NDc.
  unfold inst_strehl, strehl_of, psf_max.
  destruct (normalised_some (k_nx k) (sci_raw k (fun _ _ => 0)) ltac:(lra)) as (v & -> & _ & Hv).
  destruct (normalised_some (k_nx k) (sci_raw k (fun _ _ => c)) ltac:(lra)) as (w & -> & _ & Hw). cbn [option_map]. f_equal.
  rewrite (flat_max k h v) by auto. rewrite Hw.
  assert (E : forall i j, sci_raw k (fun _ _ => c) i j = sci_raw k (fun _ _ => 0) i j).
  { intros i j. rewrite <- (raw_piston k (fun _ _ => 0) c). unfold sci_raw. apply rsum_ext. intros x _. apply rsum_ext. intros y _. unfold sci_intensity. f_equal.
    apply focus_ext. intros a b. unfold sci_field. rewrite Rplus_0_l. reflexivity. }
  rewrite E, (img_sum_ext _ _ _ E), (flat_centre k h) by auto. pose proof (lit_total k M L). field. split; lra.
Qed.
(** without oversampling and cropping the total light does not depend on the wavefront *)
Lemma raw_energy k phase : camera k -> Z.even (g_fft (k_geom k)) = true -> g_factor (k_geom k) = 1%Z ->
  img_sum (k_nx k) (sci_raw k phase) = IZR (g_fft (k_geom k)) * IZR (g_fft (k_geom k)) * total (g_fov (k_geom k)) (fun a b => k_mask k a b * k_mask k a b).
Proof.
  intros C Ev F1. destruct (camera_facts k C Ev) as (h & K). pose proof K as [Kn Ko Kf Kp Kh Kl Kc K0]. destruct (camera_factor1 k C F1) as (C0 & CP).
  rewrite raw_total by auto. rewrite <- CP. rewrite Kp.
  transitivity (total (2 * h) (fun i j => cnorm2 (sci_focus (2 * h) (g_fov (k_geom k)) (sci_field (k_mask k) phase) i j))).
  - apply rsum_ext. intros i Hi. apply rsum_ext. intros j Hj. unfold sci_intensity. cbv zeta. rewrite Kp, C0, !Z.add_0_r. reflexivity.
  - rewrite focus_energy by lia. f_equal. apply rsum_ext. intros a Ha. apply rsum_ext. intros b Hb. apply field_energy.
Qed.
Lemma strehl_formula k phase : camera k -> Z.even (g_fft (k_geom k)) = true -> lit k -> mask_nonneg k -> g_os (k_geom k) = 1%Z -> g_factor (k_geom k) = 1%Z ->
  let F := g_fov (k_geom k) in
  inst_strehl k true phase = Some (cnorm2 (csum F (fun a => csum F (fun b => sci_field (k_mask k) phase a b))) / (total F (k_mask k) * total F (k_mask k))) /\
  exists s, inst_strehl k false phase = Some s /\ s <= 1.
Proof.
  intros C Ev L M O F1 F. destruct (camera_facts k C Ev) as (h & K). pose proof (never_dark k (fun _ _ => 0) C Ev L) as ND. pose proof (never_dark k phase C Ev L) as NDp.
  pose proof K as [Kn Ko Kf Kp Kh Kl Kc K0]. pose proof (lit_total k M L) as LT. fold F in LT.
  unfold inst_strehl, strehl_of, psf_max.
  destruct (normalised_some (k_nx k) (sci_raw k (fun _ _ => 0)) ltac:(lra)) as (v & -> & _ & Hv).
  destruct (normalised_some (k_nx k) (sci_raw k phase) ltac:(lra)) as (w & -> & _ & Hw). cbn [option_map].
  rewrite (flat_max k h v) by auto. fold F.
  assert (SE : img_sum (k_nx k) (sci_raw k phase) = img_sum (k_nx k) (sci_raw k (fun _ _ => 0))) by (rewrite !raw_energy by auto; reflexivity).
  split.
  - f_equal. rewrite Hw, (centre_raw k h) by auto. fold F. rewrite SE. field. split; lra.
  - eexists. split; [reflexivity|].
    assert (B : img_max (k_nx k) w <= total F (k_mask k) * total F (k_mask k) / img_sum (k_nx k) (sci_raw k (fun _ _ => 0))).
    { apply img_max_le; auto. intros i j Hi Hj. rewrite Hw, SE. apply Rmult_le_compat_r; [left; apply Rinv_0_lt_compat; auto|]. apply (raw_le k h); auto. }
    assert (Q : 0 < total F (k_mask k) * total F (k_mask k) / img_sum (k_nx k) (sci_raw k (fun _ _ => 0))) by (apply Rdiv_lt_0_compat; [nra | auto]).
    apply (Rmult_le_reg_r _ _ _ Q). unfold Rdiv at 1. rewrite Rmult_assoc, Rinv_l by lra. lra.
Qed.
(** a detector of one pixel: Strehl one whatever the wavefront *)
Lemma one_pixel k tt phase : camera k -> Z.even (g_fft (k_geom k)) = true -> lit k -> k_nx k = 1%Z -> inst_strehl k tt phase = Some 1.
Proof.
  intros C Ev L N1. pose proof (never_dark k (fun _ _ => 0) C Ev L) as ND. pose proof (never_dark k phase C Ev L) as NDp. rewrite N1 in *.
  assert (SUM : forall d, img_sum 1 d = d 0%Z 0%Z) by (intros; unfold img_sum; rewrite !rsum_1; reflexivity).
  unfold inst_strehl, strehl_of, psf_max. rewrite N1.
  destruct (normalised_some 1 (sci_raw k (fun _ _ => 0)) ltac:(lra)) as (v & -> & Sv & Hv).
  destruct (normalised_some 1 (sci_raw k phase) ltac:(lra)) as (w & -> & Sw & Hw). cbn [option_map]. rewrite SUM in Sv, Sw.
  assert (MX : forall d, img_max 1 d = d 0%Z 0%Z).
  { intros d. apply Rle_antisym; [apply img_max_le; [lia|]; intros i j Hi Hj; replace i with 0%Z by lia; replace j with 0%Z by lia; apply Rle_refl | apply img_max_ge; lia]. }
  f_equal. rewrite !MX. change (1 / 2)%Z with 0%Z. rewrite Sv, Sw. destruct tt; field.
Qed.

From Coq Require Import Reals Lra Lia.
From Coquelicot Require Import Complex.
From Verif.Base Require Import Vec CSum CSumFacts PyFacts.
From Verif.Model Require Import Sh Science.
From Verif.Spec Require Import ScienceSpec.
From Verif.Proofs Require Import ScienceProofs.
From Coq Require Import Lra Lia.
Open Scope R_scope.

(** * Sums *)
Lemma csumn_split n m f : csumn (n + m) f = (csumn n f + csumn m (fun i => f (Z.of_nat n + i)%Z))%C.
Proof.
  induction m as [|m IH]; cbn; [rewrite Nat.add_0_r; ring|]. rewrite Nat.add_succ_r. cbn. rewrite IH.
  replace (Z.of_nat (n + m)) with (Z.of_nat n + Z.of_nat m)%Z by lia. ring.
Qed.
Lemma csum_split n m f : (0 <= n)%Z -> (0 <= m)%Z -> csum (n + m) f = (csum n f + csum m (fun i => f (n + i)%Z))%C.
Proof. intros Hn Hm. unfold csum. rewrite Z2Nat.inj_add by auto. rewrite csumn_split, Z2Nat.id by auto. reflexivity. Qed.
Lemma csum_cyclic n s f : (0 <= s < n)%Z -> csum n (fun i => f ((i + s) mod n)%Z) = csum n f.
Proof.
  intros H. assert (E : csum n f = csum (s + (n - s)) f) by (f_equal; lia). rewrite E, (csum_split s (n - s) f) by lia. clear E.
  assert (E : forall g, csum n g = csum ((n - s) + s) g) by (intros; f_equal; lia). rewrite E, csum_split by lia. clear E.
  rewrite (csum_ext (n - s) _ (fun i => f (s + i)%Z)), (csum_ext s _ f). { ring. }
  - intros i Hi. f_equal. replace (n - s + i + s)%Z with (i + 1 * n)%Z by lia. rewrite Z.mod_add by lia. apply Z.mod_small. lia.
  - intros i Hi. f_equal. rewrite Z.mod_small by lia. lia.
Qed.
Lemma csum_window P s F f : (0 <= s)%Z -> (0 <= F)%Z -> (s + F <= P)%Z -> (forall i, (0 <= i < P)%Z -> (i < s \/ s + F <= i)%Z -> f i = RtoC 0) ->
  csum P f = csum F (fun a => f (s + a)%Z).
Proof.
  intros H1 H2 H3 Hf. replace P with (s + (F + (P - s - F)))%Z at 1 by lia. rewrite csum_split by lia. rewrite csum_split by lia.
  rewrite (csum_ext s _ (fun _ => RtoC 0)) by (intros; apply Hf; lia). rewrite csum_zero.
  rewrite (csum_ext (P - s - F) _ (fun _ => RtoC 0)) by (intros; apply Hf; lia). rewrite csum_zero. ring.
Qed.
Lemma cis_cong (P a b : Z) : (0 < P)%Z -> ((a - b) mod P = 0)%Z -> cis (- (2 * PI * IZR a / IZR P)) = cis (- (2 * PI * IZR b / IZR P)).
Proof.
  intros HP H. apply Z.mod_divide in H; [|lia]. destruct H as (q & H). assert (Rn : IZR P <> 0) by (apply IZR_neq; lia).
  replace a with (b + q * P)%Z by lia. rewrite plus_IZR, mult_IZR.
  replace (- (2 * PI * (IZR b + IZR q * IZR P) / IZR P)) with (- (2 * PI * IZR b / IZR P) + 2 * PI * IZR (- q)) by (rewrite opp_IZR; field; auto).
  rewrite cis_add, cis_Z. ring.
Qed.
Lemma cis_plus_ix (P a b : Z) : (0 < P)%Z -> cis (- (2 * PI * IZR (a + b) / IZR P)) = (cis (- (2 * PI * IZR a / IZR P)) * cis (- (2 * PI * IZR b / IZR P)))%C.
Proof. intros HP. rewrite <- cis_add. f_equal. rewrite plus_IZR. field. apply IZR_neq. lia. Qed.

(** * The transform as a double sum *)
Definition dft2' (P : Z) (f : Z -> Z -> C) (u v : Z) : C :=
  csum P (fun i => csum P (fun j => f i j * cis (- (2 * PI * IZR (u * i + v * j) / IZR P))))%C.
Lemma dft2_alt P f u v : (0 < P)%Z -> dft2 P f u v = dft2' P f u v.
Proof.
  intros HP. unfold dft2, dft2'. apply csum_ext. intros i Hi. rewrite <- csum_scale_r. apply csum_ext. intros j Hj. rewrite cis_plus_ix by auto. ring.
Qed.
Lemma dft2'_cong P f u v u' v' : (0 < P)%Z -> ((u - u') mod P = 0)%Z -> ((v - v') mod P = 0)%Z -> dft2' P f u v = dft2' P f u' v'.
Proof.
  intros HP Hu Hv. unfold dft2'. apply csum_ext. intros i Hi. apply csum_ext. intros j Hj. f_equal. apply cis_cong; auto.
  replace (u * i + v * j - (u' * i + v' * j))%Z with ((u - u') * i + (v - v') * j)%Z by ring.
  apply Z.mod_divide in Hu; [|lia]. apply Z.mod_divide in Hv; [|lia]. destruct Hu as (a & ->), Hv as (b & ->).
  replace (a * P * i + b * P * j)%Z with ((a * i + b * j) * P)%Z by ring. apply Z.mod_mul. lia.
Qed.
Lemma swap_even h k : (0 <= k < 2 * h)%Z -> swap_half (2 * h) k = ((k + h) mod (2 * h))%Z.
Proof.
  intros H. unfold swap_half. replace (2 * h / 2)%Z with h by (rewrite Z.mul_comm, Z.div_mul; lia).
  destruct (Z.ltb_spec k h); [rewrite Z.mod_small; lia|]. replace (k + h)%Z with (k - h + 1 * (2 * h))%Z by lia. rewrite Z.mod_add by lia. rewrite Z.mod_small; lia.
Qed.
Lemma shift_even h f i j : (0 <= i < 2 * h)%Z -> (0 <= j < 2 * h)%Z -> fftshift_inplace (2 * h) f i j = f ((i + h) mod (2 * h))%Z ((j + h) mod (2 * h))%Z.
Proof.
  intros Hi Hj. unfold fftshift_inplace. replace (2 * h / 2)%Z with h by (rewrite Z.mul_comm, Z.div_mul; lia).
  replace (i <? 2 * h)%Z with true by (symmetry; apply Z.ltb_lt; lia). replace (j <? 2 * h)%Z with true by (symmetry; apply Z.ltb_lt; lia). cbn [andb].
  rewrite !swap_even by auto. reflexivity.
Qed.
(** shifting the input only multiplies by a phase *)
Lemma dft2'_shift h f u v : (0 < h)%Z ->
  dft2' (2 * h) (fftshift_inplace (2 * h) f) u v =
  (cis (- (2 * PI * IZR (- (u * h)) / IZR (2 * h))) * cis (- (2 * PI * IZR (- (v * h)) / IZR (2 * h))) * dft2' (2 * h) f u v)%C.
Proof.
  intros Hh. unfold dft2'. set (P := (2 * h)%Z).
  rewrite (csum_ext P _ (fun i => (fun k => csum P (fun j => f k j * cis (- (2 * PI * IZR (u * (k - h) + v * (j - h)) / IZR P))))%C ((i + h) mod P)%Z)).
  - rewrite (csum_cyclic P h (fun k => csum P (fun j => f k j * cis (- (2 * PI * IZR (u * (k - h) + v * (j - h)) / IZR P))))%C) by (unfold P; lia).
    rewrite <- csum_scale. apply csum_ext. intros k Hk. rewrite <- csum_scale. apply csum_ext. intros j Hj.
    replace (u * (k - h) + v * (j - h))%Z with (- (u * h) + (- (v * h) + (u * k + v * j)))%Z by ring. rewrite !cis_plus_ix by (unfold P; lia). ring.
  - intros i Hi.
    rewrite <- (csum_cyclic P h (fun j => f ((i + h) mod P)%Z j * cis (- (2 * PI * IZR (u * ((i + h) mod P - h) + v * (j - h)) / IZR P)))%C) by (unfold P; lia).
    apply csum_ext. intros j Hj. unfold P at 1. rewrite shift_even by (unfold P in *; lia). f_equal. apply cis_cong; [unfold P; lia|].
    pose proof (Z.div_mod (i + h) P ltac:(unfold P; lia)) as Di. pose proof (Z.div_mod (j + h) P ltac:(unfold P; lia)) as Dj.
    apply Z.mod_divide; [unfold P; lia|]. exists (u * ((i + h) / P) + v * ((j + h) / P))%Z.
    replace ((i + h) mod P)%Z with (i + h - P * ((i + h) / P))%Z by lia. replace ((j + h) mod P)%Z with (j + h - P * ((j + h) / P))%Z by lia. ring.
Qed.
(** placing the aperture somewhere only multiplies by a phase *)
Lemma dft2'_place P F e u v : (0 < P)%Z -> (0 <= F <= P)%Z ->
  dft2' P (sci_place P F e) u v = (cis (- (2 * PI * IZR (u * slot_start P F + v * slot_start P F) / IZR P)) * far_field F P e u v)%C.
Proof.
  intros HP HF. destruct (slot_margin P F ltac:(lia)) as (M1 & M2 & _). pose proof (slot_len P F) as SL.
  set (s := slot_start P F) in *. set (t := slot_end P F) in *. unfold dft2', far_field.
  assert (Out : forall i j, (i < s \/ t <= i \/ j < s \/ t <= j)%Z -> sci_place P F e i j = RtoC 0).
  { intros i j H. unfold sci_place. fold s t. destruct (Z.leb_spec s i), (Z.ltb_spec i t), (Z.leb_spec s j), (Z.ltb_spec j t); cbn [andb]; try reflexivity; lia. }
  rewrite (csum_window P s F) ; try lia.
  2:{ intros i Hi Ho. rewrite (csum_ext P _ (fun _ => RtoC 0)); [apply csum_zero|]. intros j Hj. rewrite Out by lia. ring. }
  rewrite <- csum_scale. apply csum_ext. intros a Ha.
  rewrite (csum_window P s F); try lia.
  2:{ intros j Hj Ho. rewrite Out by lia. ring. }
  rewrite <- csum_scale. apply csum_ext. intros b Hb.
  unfold sci_place. fold s t. replace (s <=? s + a)%Z with true by (symmetry; apply Z.leb_le; lia). replace (s + a <? t)%Z with true by (symmetry; apply Z.ltb_lt; lia).
  replace (s <=? s + b)%Z with true by (symmetry; apply Z.leb_le; lia). replace (s + b <? t)%Z with true by (symmetry; apply Z.ltb_lt; lia). cbn [andb].
  replace (s + a - s)%Z with a by lia. replace (s + b - s)%Z with b by lia.
  replace (u * (s + a) + v * (s + b))%Z with ((u * s + v * s) + (u * a + v * b))%Z by ring. rewrite cis_plus_ix by auto. ring.
Qed.
Lemma mod_diff x h : (0 < h)%Z -> (((x + h) mod (2 * h) - (x - h)) mod (2 * h) = 0)%Z.
Proof. intros H. rewrite Zminus_mod_idemp_l. replace (x + h - (x - h))%Z with (1 * (2 * h))%Z by lia. apply Z.mod_mul. lia. Qed.
(** the focal plane is the far field of the aperture, in order of spatial frequency *)
Lemma focus_far_field h F e i j : (0 < h)%Z -> (0 <= F <= 2 * h)%Z -> (0 <= i < 2 * h)%Z -> (0 <= j < 2 * h)%Z ->
  cnorm2 (sci_focus (2 * h) F e i j) = cnorm2 (far_field F (2 * h) e (i - h) (j - h)).
Proof.
  intros Hh HF Hi Hj. unfold sci_focus. rewrite shift_even by auto. rewrite dft2_alt by lia.
  rewrite (dft2'_cong (2 * h) _ _ _ (i - h) (j - h)); try lia.
  2,3: apply mod_diff; auto.
  rewrite dft2'_shift by auto. rewrite dft2'_place by lia. rewrite !cnorm2_mul, !cis_norm. ring.
Qed.

(** * Triangle inequality *)
Lemma cnorm2_mod z : cnorm2 z = Cmod z * Cmod z.
Proof. unfold cnorm2, Cmod. rewrite sqrt_sqrt; [ring|]. apply Rplus_le_le_0_compat; apply pow2_ge_0. Qed.
Lemma cmod_csumn n f : Cmod (csumn n f) <= rsumn n (fun i => Cmod (f i)).
Proof. induction n as [|n IH]; cbn [csumn rsumn]; [rewrite Cmod_0; apply Rle_refl|]. eapply Rle_trans; [apply Cmod_triangle|]. lra. Qed.
Lemma cmod_csum n f : Cmod (csum n f) <= rsum n (fun i => Cmod (f i)).
Proof. apply cmod_csumn. Qed.
Lemma rsumn_le n f g : (forall i, (0 <= i < Z.of_nat n)%Z -> f i <= g i) -> rsumn n f <= rsumn n g.
Proof. induction n as [|n IH]; intros H; cbn; [lra|]. pose proof (H (Z.of_nat n) ltac:(lia)). specialize (IH ltac:(intros; apply H; lia)). lra. Qed.
Lemma rsum_le n f g : (forall i, (0 <= i < n)%Z -> f i <= g i) -> rsum n f <= rsum n g.
Proof. intros H. unfold rsum. apply rsumn_le. intros i Hi. apply H. lia. Qed.
Lemma cmod_cis t : Cmod (cis t) = 1.
Proof. pose proof (cis_norm t) as H. rewrite cnorm2_mod in H. pose proof (Cmod_ge_0 (cis t)). nra. Qed.
Lemma far_field_le F P e u v : Cmod (far_field F P e u v) <= total F (fun a b => Cmod (e a b)).
Proof.
  unfold far_field, total. eapply Rle_trans; [apply cmod_csum|]. apply rsum_le. intros a Ha. eapply Rle_trans; [apply cmod_csum|]. apply rsum_le. intros b Hb.
  rewrite Cmod_mult, cmod_cis. lra.
Qed.
Lemma field_mod mask phase a b : 0 <= mask a b -> Cmod (sci_field mask phase a b) = mask a b.
Proof. intros H. unfold sci_field. rewrite Cmod_mult, cmod_cis, Cmod_R, Rabs_pos_eq by auto. ring. Qed.
Definition nonneg (F : Z) (mask : image) : Prop := forall a b, (0 <= a < F)%Z -> (0 <= b < F)%Z -> 0 <= mask a b.
Lemma far_field_peak F P mask phase u v : nonneg F mask ->
  cnorm2 (far_field F P (sci_field mask phase) u v) <= total F mask * total F mask.
Proof.
  intros Hm. rewrite cnorm2_mod. pose proof (far_field_le F P (sci_field mask phase) u v) as H.
  assert (E : total F (fun a b => Cmod (sci_field mask phase a b)) = total F mask).
  { apply rsum_ext. intros a Ha. apply rsum_ext. intros b Hb. apply field_mod. apply Hm; auto. }
  rewrite E in H. pose proof (Cmod_ge_0 (far_field F P (sci_field mask phase) u v)). apply Rmult_le_compat; auto.
Qed.
Lemma far_field_flat F P mask : (0 < P)%Z -> far_field F P (sci_field mask (fun _ _ => 0)) 0 0 = RtoC (total F mask).
Proof.
  intros HP. unfold far_field, total. rewrite <- csum_R. apply csum_ext. intros a Ha. rewrite <- csum_R. apply csum_ext. intros b Hb.
  unfold sci_field. rewrite cis_0. replace (0 * a + 0 * b)%Z with 0%Z by ring.
  replace (- (2 * PI * 0 / IZR P)) with 0 by (field; apply IZR_neq; lia). rewrite cis_0. ring.
Qed.

(** * Energy *)
Lemma rsum_even_shift h f : (0 < h)%Z -> rsum (2 * h) (fun i => f (swap_half (2 * h) i)) = rsum (2 * h) f.
Proof.
  intros H. rewrite <- (rsum_cyclic (2 * h) h f) by lia. apply rsum_ext. intros i Hi. rewrite swap_even by lia. reflexivity.
Qed.
Lemma energy_shift h f : (0 < h)%Z -> total (2 * h) (fun i j => cnorm2 (fftshift_inplace (2 * h) f i j)) = total (2 * h) (fun i j => cnorm2 (f i j)).
Proof.
  intros H. unfold total. rewrite <- (rsum_even_shift h (fun i => rsum (2 * h) (fun j => cnorm2 (f i j)))) by auto.
  apply rsum_ext. intros i Hi. rewrite <- (rsum_even_shift h (fun j => cnorm2 (f (swap_half (2 * h) i) j))) by auto. apply rsum_ext. intros j Hj.
  rewrite shift_even by lia. rewrite !swap_even by lia. reflexivity.
Qed.
Lemma rsum_window P s F f : (0 <= s)%Z -> (0 <= F)%Z -> (s + F <= P)%Z -> (forall i, (0 <= i < P)%Z -> (i < s \/ s + F <= i)%Z -> f i = 0) ->
  rsum P f = rsum F (fun a => f (s + a)%Z).
Proof.
  intros H1 H2 H3 Hf. assert (E : rsum P f = rsum (s + (F + (P - s - F))) f) by (f_equal; lia). rewrite E, rsum_split by lia. rewrite rsum_split by lia.
  assert (Z0 : forall n, rsum n (fun _ => 0) = 0) by (intros; apply rsumn_zero).
  rewrite (rsum_ext s _ (fun _ => 0)) by (intros; apply Hf; lia). rewrite Z0.
  rewrite (rsum_ext (P - s - F) _ (fun _ => 0)) by (intros; apply Hf; lia). rewrite Z0. ring.
Qed.
Lemma energy_place P F e : (0 <= F <= P)%Z -> total P (fun i j => cnorm2 (sci_place P F e i j)) = total F (fun a b => cnorm2 (e a b)).
Proof.
  intros HF. destruct (slot_margin P F ltac:(lia)) as (M1 & M2 & _). pose proof (slot_len P F) as SL. unfold total.
  set (s := slot_start P F) in *. set (t := slot_end P F) in *.
  assert (Out : forall i j, (i < s \/ t <= i \/ j < s \/ t <= j)%Z -> cnorm2 (sci_place P F e i j) = 0).
  { intros i j H. unfold sci_place. fold s t. destruct (Z.leb_spec s i), (Z.ltb_spec i t), (Z.leb_spec s j), (Z.ltb_spec j t); cbn [andb]; try lia; rewrite cnorm2_R; ring. }
  rewrite (rsum_window P s F); try lia.
  2:{ intros i Hi Ho. rewrite (rsum_ext P _ (fun _ => 0)); [apply rsumn_zero|]. intros j Hj. apply Out. lia. }
  apply rsum_ext. intros a Ha. rewrite (rsum_window P s F); try lia.
  2:{ intros j Hj Ho. apply Out. lia. }
  apply rsum_ext. intros b Hb.
  unfold sci_place. fold s t. replace (s <=? s + a)%Z with true by (symmetry; apply Z.leb_le; lia). replace (s + a <? t)%Z with true by (symmetry; apply Z.ltb_lt; lia).
  replace (s <=? s + b)%Z with true by (symmetry; apply Z.leb_le; lia). replace (s + b <? t)%Z with true by (symmetry; apply Z.ltb_lt; lia). cbn [andb].
  replace (s + a - s)%Z with a by lia. replace (s + b - s)%Z with b by lia. reflexivity.
Qed.
Lemma focus_energy h F e : (0 < h)%Z -> (0 <= F <= 2 * h)%Z ->
  total (2 * h) (fun i j => cnorm2 (sci_focus (2 * h) F e i j)) = IZR (2 * h) * IZR (2 * h) * total F (fun a b => cnorm2 (e a b)).
Proof.
  intros Hh HF. unfold sci_focus. rewrite energy_shift by auto. unfold total at 1. rewrite dft2_energy by lia. f_equal.
  change (total (2 * h) (fun i j => cnorm2 (fftshift_inplace (2 * h) (sci_place (2 * h) F e) i j)) = total F (fun a b => cnorm2 (e a b))).
  rewrite energy_shift by auto. apply energy_place. auto.
Qed.
Lemma field_energy mask phase a b : cnorm2 (sci_field mask phase a b) = mask a b * mask a b.
Proof. unfold sci_field. rewrite cnorm2_mul, cnorm2_R, cis_norm. ring. Qed.

(** * Piston *)
Lemma focus_hom P F c e i j : sci_focus P F (fun a b => c * e a b)%C i j = (c * sci_focus P F e i j)%C.
Proof.
  unfold sci_focus. assert (S : forall g i j, fftshift_inplace P (fun a b => c * g a b)%C i j = (c * fftshift_inplace P g i j)%C) by (intros; unfold fftshift_inplace; destruct (_ && _)%bool; reflexivity).
  assert (E : forall g h i j, (forall a b, g a b = h a b) -> fftshift_inplace P g i j = fftshift_inplace P h i j) by (intros g h' i' j' H; unfold fftshift_inplace; destruct (_ && _)%bool; apply H).
  rewrite <- S. apply E. intros a b. rewrite <- dft2_hom. apply dft2_ext. intros i' j' _ _. rewrite <- S. apply E. intros a' b'.
  unfold sci_place. destruct (_ && _ && _ && _)%bool; [reflexivity | ring].
Qed.
Lemma focus_ext P F e e' i j : (forall a b, e a b = e' a b) -> sci_focus P F e i j = sci_focus P F e' i j.
Proof.
  intros H. unfold sci_focus. assert (E : forall g h i j, (forall a b, g a b = h a b) -> fftshift_inplace P g i j = fftshift_inplace P h i j) by (intros g h' i' j' H'; unfold fftshift_inplace; destruct (_ && _)%bool; apply H').
  apply E. intros a b. apply dft2_ext. intros i' j' _ _. apply E. intros a' b'. unfold sci_place. destruct (_ && _ && _ && _)%bool; [apply H | reflexivity].
Qed.
Lemma raw_piston k phase c i j : sci_raw k (fun a b => phase a b + c) i j = sci_raw k phase i j.
Proof.
  unfold sci_raw. apply rsum_ext. intros x Hx. apply rsum_ext. intros y Hy. unfold sci_intensity.
  rewrite (focus_ext _ _ _ (fun a b => cis c * sci_field (k_mask k) phase a b)%C).
  - rewrite focus_hom, cnorm2_mul, cis_norm. ring.
  - intros a b. unfold sci_field. rewrite cis_add. ring.
Qed.

(** * Images *)
Lemma img_sum_ext n d d' : (forall i j, d i j = d' i j) -> img_sum n d = img_sum n d'.
Proof. intros H. apply rsum_ext. intros i Hi. apply rsum_ext. intros j Hj. apply H. Qed.
Lemma img_sum_scale n c d : img_sum n (fun i j => c * d i j) = c * img_sum n d.
Proof. unfold img_sum. rewrite <- rsum_scale. apply rsum_ext. intros i Hi. apply rsum_scale. Qed.
Lemma img_sum_add n d e : img_sum n (fun i j => d i j + e i j) = img_sum n d + img_sum n e.
Proof. unfold img_sum. rewrite <- rsum_add. apply rsum_ext. intros i Hi. apply rsum_add. Qed.
Lemma normalised_some n d : img_sum n d <> 0 -> exists v, normalised n d = Some v /\ img_sum n v = 1 /\ forall i j, v i j = d i j / img_sum n d.
Proof.
  intros H. unfold normalised. destruct (Req_EM_T (img_sum n d) 0); [contradiction|]. eexists. split; [reflexivity|]. split; [|reflexivity].
  rewrite (img_sum_ext n _ (fun i j => / img_sum n d * d i j)) by (intros; unfold Rdiv; ring). rewrite img_sum_scale. field. auto.
Qed.
Lemma rmaxn_ge n f i : (0 <= i < Z.of_nat n)%Z -> f i <= rmaxn n f.
Proof.
  induction n as [|n IH]; intros H; [lia|]. cbn. destruct (Z.eq_dec i (Z.of_nat n)) as [->|]; [apply Rmax_r|]. eapply Rle_trans; [apply IH; lia | apply Rmax_l].
Qed.
Lemma rmaxn_le n f m : (0 < n)%nat -> (forall i, (0 <= i < Z.of_nat n)%Z -> f i <= m) -> rmaxn n f <= m.
Proof.
  intros Hn H. assert (f 0%Z <= m) by (apply H; lia). induction n as [|n IH]; [lia|]. cbn. apply Rmax_lub; [|apply H; lia].
  destruct n; [cbn; auto|]. apply IH; [lia|]. intros; apply H; lia.
Qed.
Lemma img_max_ge n d i j : (0 <= i < n)%Z -> (0 <= j < n)%Z -> d i j <= img_max n d.
Proof.
  intros Hi Hj. unfold img_max. eapply Rle_trans; [|apply (rmaxn_ge (Z.to_nat n) (fun i => rmaxn (Z.to_nat n) (fun j => d i j)) i); lia].
  apply (rmaxn_ge (Z.to_nat n) (fun j => d i j) j). lia.
Qed.
Lemma img_max_le n d m : (0 < n)%Z -> (forall i j, (0 <= i < n)%Z -> (0 <= j < n)%Z -> d i j <= m) -> img_max n d <= m.
Proof. intros Hn H. unfold img_max. apply rmaxn_le; [lia|]. intros i Hi. apply rmaxn_le; [lia|]. intros j Hj. apply H; lia. Qed.
Lemma rmaxn_ext n f g : (0 < n)%nat -> (forall i, (0 <= i < Z.of_nat n)%Z -> f i = g i) -> rmaxn n f = rmaxn n g.
Proof.
  intros Hn H. apply Rle_antisym; apply rmaxn_le; auto; intros i Hi; [rewrite H by auto | rewrite <- H by auto]; apply rmaxn_ge; auto.
Qed.
Lemma img_max_ext n d e : (0 < n)%Z -> (forall i j, (0 <= i < n)%Z -> (0 <= j < n)%Z -> d i j = e i j) -> img_max n d = img_max n e.
Proof.
  intros Hn H. apply Rle_antisym; apply img_max_le; auto; intros i j Hi Hj; [rewrite H by auto | rewrite <- H by auto]; apply img_max_ge; auto.
Qed.
Lemma raw_nonneg k phase i j : 0 <= sci_raw k phase i j.
Proof. apply rsum_nonneg. intros x _. apply rsum_nonneg. intros y _. apply cnorm2_nonneg. Qed.
Lemma rsum_pos_ex n f : rsum n f <> 0 -> (forall i, (0 <= i < n)%Z -> 0 <= f i) -> exists i, (0 <= i < n)%Z /\ 0 < f i.
Proof.
  unfold rsum. intros H P. assert (X : exists i, (0 <= i < Z.of_nat (Z.to_nat n))%Z /\ 0 < f i).
  { assert (P' : forall i, (0 <= i < Z.of_nat (Z.to_nat n))%Z -> 0 <= f i) by (intros; apply P; lia). clear P. revert H P'. generalize (Z.to_nat n). intros m. induction m as [|m IH]; cbn; intros H P; [congruence|].
    destruct (Req_EM_T (rsumn m f) 0) as [E|E].
    - exists (Z.of_nat m). split; [lia|]. pose proof (P (Z.of_nat m) ltac:(lia)). rewrite E in H. lra.
    - destruct (IH E) as (i & Hi & Pi); [intros; apply P; lia|]. exists i. split; [lia | auto]. }
  destruct X as (i & Hi & Pi). exists i. split; [lia | auto].
Qed.
Lemma img_max_pos n d : (0 < n)%Z -> img_sum n d <> 0 -> (forall i j, 0 <= d i j) -> 0 < img_max n d.
Proof.
  intros Hn H P. destruct (rsum_pos_ex n _ H) as (i & Hi & Pi); [intros; apply rsum_nonneg; auto|].
  assert (N : rsum n (fun j => d i j) <> 0) by lra. destruct (rsum_pos_ex n _ N) as (j & Hj & Pj); [auto|].
  eapply Rlt_le_trans; [exact Pj | apply img_max_ge; auto].
Qed.

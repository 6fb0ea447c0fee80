(** Proofs about Shack-Hartmann spots. *)
From Coq Require Import ZArith Reals Bool Lia Lra.
From Flocq Require Import Core.
From Coquelicot Require Import Complex.
From Verif.Base Require Import Py PyFacts CSum CSumFacts.
From Verif.Model Require Import Numerics LgsReal ShOptics.
From Verif.Spec Require Import ShOpticsSpec.
From Verif.Proofs Require Import NumericsProofs PyramidSymmetry ScienceFourier.
Open Scope R_scope.

(** ** The shift *)
Lemma quad_gen P i : (0 < P)%Z -> (0 <= i < P)%Z -> quad_ix P i = ((round_div P 2 - 1 - i) mod P)%Z.
Proof.
  intros HP Hi. pose proof (round_div_near P 2 ltac:(lia)) as N. unfold quad_ix. cbv zeta. set (h := round_div P 2) in *. unfold rev_ix.
  destruct (Z.ltb_spec i h).
  - rewrite Z.mod_small; lia.
  - apply (Z.mod_unique _ _ (-1)); lia.
Qed.
Lemma dft2_period2 n f u v v' : (0 < n)%Z -> (v' mod n = v mod n)%Z -> dft2 n f u v' = dft2 n f u v.
Proof. intros H E. rewrite <- (dft2_T n f v' u), <- (dft2_T n f v u). apply (dft2_period n (fun i j => f j i)); auto. Qed.
Lemma dft2_cong n f u v u' v' : (0 < n)%Z -> (u' mod n = u mod n)%Z -> (v' mod n = v mod n)%Z -> dft2 n f u' v' = dft2 n f u v.
Proof. intros H E F. rewrite (dft2_period n f u v' u') by auto. apply dft2_period2; auto. Qed.
Lemma spot_at o e mask x y i j : (0 < fft_pad o)%Z -> (0 <= i < fft_pad o)%Z -> (0 <= j < fft_pad o)%Z ->
  spot o e mask x y i j = cnorm2 (dft2 (fft_pad o) (fft_input o e mask x y) (round_div (fft_pad o) 2 - 1 - i) (round_div (fft_pad o) 2 - 1 - j)).
Proof.
  intros HP Hi Hj. unfold spot, ft_shift. rewrite !quad_gen by auto. f_equal. apply dft2_cong; auto; apply Zmod_mod.
Qed.

(** ** Tilts *)
Lemma dft2_ramp P f k l u v : (0 < P)%Z ->
  dft2 P (fun i j => f i j * cis (2 * PI * IZR (k * i + l * j) / IZR P))%C u v = dft2 P f (u - k) (v - l).
Proof.
  intro HP. assert (N : IZR P <> 0) by (apply IZR_neq; lia). unfold dft2. apply csum_ext. intros i Hi.
  rewrite <- !csum_scale_r. apply csum_ext. intros j Hj.
  rewrite <- !Cmult_assoc, <- !cis_add. f_equal. f_equal. rewrite !mult_IZR, plus_IZR, !mult_IZR, !minus_IZR. field. auto.
Qed.
Lemma dft2_unit P f c u v : cnorm2 c = 1 -> cnorm2 (dft2 P (fun i j => c * f i j)%C u v) = cnorm2 (dft2 P f u v).
Proof. intro H. rewrite dft2_hom, cnorm2_mul, H. ring. Qed.
Lemma spot_tilt o e e' mask x y k l c i j : (0 < fft_pad o)%Z -> (0 <= i < fft_pad o)%Z -> (0 <= j < fft_pad o)%Z -> cnorm2 c = 1 ->
  (forall a b, (0 <= a < nx_interp o)%Z -> (0 <= b < nx_interp o)%Z -> e' (x + a)%Z (y + b)%Z = (e (x + a)%Z (y + b)%Z * (c * cis (2 * PI * IZR (k * a + l * b) / IZR (fft_pad o))))%C) ->
  spot o e' mask x y i j = spot o e mask x y ((i + k) mod fft_pad o) ((j + l) mod fft_pad o).
Proof.
  intros HP Hi Hj Hc H. pose proof (Z.mod_pos_bound (i + k) _ HP) as Bi. pose proof (Z.mod_pos_bound (j + l) _ HP) as Bj.
  rewrite !spot_at by auto. set (h := round_div (fft_pad o) 2). set (P := fft_pad o) in *.
  transitivity (cnorm2 (dft2 P (fun i j => c * (fft_input o e mask x y i j * cis (2 * PI * IZR (k * i + l * j) / IZR P)))%C (h - 1 - i) (h - 1 - j))).
  - f_equal. apply dft2_ext. intros a b Ha Hb. unfold fft_input.
    destruct (Z.ltb_spec a (nx_interp o)); cbn [andb]; [|ring]. destruct (Z.ltb_spec b (nx_interp o)); cbn [andb]; [|ring].
    rewrite H by lia. fold P. ring.
  - rewrite dft2_unit by auto. f_equal. rewrite dft2_ramp by auto.
    apply dft2_cong; auto.
    + rewrite Zminus_mod_idemp_r. f_equal. lia.
    + rewrite Zminus_mod_idemp_r. f_equal. lia.
Qed.
Lemma bin_move os n m k f a b : (0 < os)%Z -> (0 < n)%Z -> (0 <= a < n)%Z -> (0 <= b < n)%Z ->
  binned os (fun i j => f ((i + m * os) mod (n * os)) ((j + k * os) mod (n * os)))%Z a b = moved n m k (binned os f) a b.
Proof.
  intros Ho Hn Ha Hb. unfold binned, moved. apply rsum_ext. intros s Hs. apply rsum_ext. intros t Ht.
  assert (Q : forall c q z, (0 <= z < os)%Z -> ((c * os + z + q * os) mod (n * os) = (c + q) mod n * os + z)%Z).
  { intros c q z Hz. symmetry. apply (Z.mod_unique _ _ ((c + q) / n)).
    - pose proof (Z.mod_pos_bound (c + q) n Hn). left. nia.
    - pose proof (Z.div_mod (c + q) n ltac:(lia)). nia. }
  rewrite !Q by lia. reflexivity.
Qed.
Lemma interp_R o : IZR (nx_interp o) = IZR (ZnearestE (waves o)) * IZR (s_over o).
Proof. unfold nx_interp. apply mult_IZR. Qed.
Lemma pad_R o : IZR (fft_pad o) = IZR (s_over o) * IZR (s_px o) * IZR (s_os o).
Proof. unfold fft_pad, n_over. rewrite !mult_IZR. reflexivity. Qed.
Lemma usable_facts o : usable o -> (0 < fft_pad o)%Z /\ (0 < n_over o)%Z /\ (0 < s_os o)%Z /\ (0 < nx_interp o <= fft_pad o)%Z /\ (0 < ZnearestE (waves o))%Z.
Proof.
  intros (Hd & Hl & Hf & Ho & Hp & Hs & Hi). unfold n_over in *. repeat split; try lia.
  unfold nx_interp in Hi. nia.
Qed.
Lemma image_ext o fill mask x y e e' n m k : usable o -> n = n_over o ->
  (forall i j, (0 <= i < fft_pad o)%Z -> (0 <= j < fft_pad o)%Z -> spot o e' mask x y i j = spot o e mask x y ((i + m * s_os o) mod fft_pad o) ((j + k * s_os o) mod fft_pad o)) ->
  same_on n (sub_image o e' mask fill x y) (moved n m k (sub_image o e mask fill x y)).
Proof.
  intros U -> H a b Ha Hb. destruct (usable_facts o U) as (HP & Hn & Hs & _). unfold sub_image.
  transitivity (moved (n_over o) m k (binned (s_os o) (spot o e mask x y)) a b * fill); [|reflexivity]. f_equal.
  rewrite <- bin_move by auto. unfold binned. apply rsum_ext. intros s Hs'. apply rsum_ext. intros t Ht. apply H; unfold fft_pad; nia.
Qed.
(** the angle that moves a spot by one pixel *)
Lemma tilt_moves o e mask fill x y m k : usable o ->
  let scale := s_lambda o * IZR (ZnearestE (waves o)) / (s_d o * IZR (s_px o)) in
  same_on (n_over o) (sub_image o (tilted o (IZR m * scale) (IZR k * scale) e) mask fill x y) (moved (n_over o) m k (sub_image o e mask fill x y)).
Proof.
  intros U scale. destruct (usable_facts o U) as (HP & Hn & Hs & HI & HZ). destruct U as (Hd & Hl & Hf & Ho & Hp & Hs' & Hi').
  apply image_ext; [repeat split; auto; lia|reflexivity|]. intros i j Hi Hj.
  apply (spot_tilt o e _ mask x y (m * s_os o) (k * s_os o) (cis (2 * PI * IZR (m * s_os o * x + k * s_os o * y) / IZR (fft_pad o)))); auto.
  - apply cis_norm.
  - intros a b _ _. unfold tilted. f_equal. rewrite <- cis_add. f_equal. unfold tilt_phase, scale.
    rewrite interp_R, pad_R. rewrite !plus_IZR, !mult_IZR.
    assert (IZR (ZnearestE (waves o)) <> 0) by (apply IZR_neq; lia). assert (IZR (s_over o) <> 0) by (apply IZR_neq; lia).
    assert (IZR (s_px o) <> 0) by (apply IZR_neq; lia). assert (IZR (s_os o) <> 0) by (apply IZR_neq; lia).
    field. repeat split; auto; lra.
Qed.
Lemma scale_whole o q : usable o -> waves o = IZR q -> s_lambda o * IZR (ZnearestE (waves o)) / (s_d o * IZR (s_px o)) = pixel_scale o.
Proof.
  intros (Hd & Hl & Hf & Ho & Hp & Hs & Hi) E. rewrite (Znearest_imp _ (waves o) q) by (rewrite E, Rminus_diag_eq, Rabs_R0 by reflexivity; lra). rewrite <- E. unfold waves, pixel_scale. field.
  repeat split; try lra. apply IZR_neq; lia.
Qed.
Lemma scale_error o : usable o -> Rabs (s_lambda o * IZR (ZnearestE (waves o)) / (s_d o * IZR (s_px o)) - pixel_scale o) <= pixel_scale o / (2 * waves o).
Proof.
  intros (Hd & Hl & Hf & Ho & Hp & Hs & Hi). pose proof (Znearest_half (fun x => negb (Z.even x)) (waves o)) as N.
  assert (Px : 0 < IZR (s_px o)) by (apply IZR_lt; lia).
  assert (E : s_lambda o * IZR (ZnearestE (waves o)) / (s_d o * IZR (s_px o)) - pixel_scale o = - ((waves o - IZR (ZnearestE (waves o))) * (s_lambda o / (s_d o * IZR (s_px o))))).
  { unfold pixel_scale. replace (s_fov o) with (waves o * s_lambda o / s_d o) at 1; [field; lra|]. unfold waves. field. lra. }
  assert (K : 0 < s_lambda o / (s_d o * IZR (s_px o))) by (apply Rdiv_lt_0_compat; [lra|apply Rmult_lt_0_compat; lra]).
  rewrite E, Rabs_Ropp, Rabs_mult, (Rabs_right (s_lambda o / _)) by lra.
  replace (pixel_scale o / (2 * waves o)) with (/ 2 * (s_lambda o / (s_d o * IZR (s_px o)))) by (unfold pixel_scale, waves; field; lra).
  apply Rmult_le_compat_r; [lra|exact N].
Qed.

(** ** The centre of light *)
Lemma rsum_cyclic_any n k f : (0 < n)%Z -> rsum n (fun i => f ((i + k) mod n)%Z) = rsum n f.
Proof.
  intro H. rewrite <- (rsum_cyclic n (k mod n) f) by (apply Z.mod_pos_bound; auto). apply rsum_ext. intros i Hi. f_equal. rewrite Zplus_mod_idemp_r. reflexivity.
Qed.
Lemma light_ext n f g : same_on n f g -> all_light n f = all_light n g.
Proof. intro H. unfold all_light. apply rsum_ext. intros a Ha. apply rsum_ext. intros b Hb. apply H; auto. Qed.
Lemma light_moved n m k f : (0 < n)%Z -> all_light n (moved n m k f) = all_light n f.
Proof.
  intro H. unfold all_light, moved. rewrite <- (rsum_cyclic_any n m (fun a => rsum n (fun b => f a b))) by auto.
  apply rsum_ext. intros a Ha. apply (rsum_cyclic_any n k (fun b => f ((a + m) mod n)%Z b)). auto.
Qed.
Lemma moment_moved n m k f : (0 < n)%Z -> (forall a b, (0 <= a < n)%Z -> (0 <= b < n)%Z -> (a - m < 0 \/ n <= a - m)%Z -> f a b = 0) ->
  rsum n (fun a => rsum n (fun b => IZR a * moved n m k f a b)) = rsum n (fun a => rsum n (fun b => IZR a * f a b)) - IZR m * all_light n f.
Proof.
  intros H D.
  transitivity (rsum n (fun a => (fun c => IZR ((c - m) mod n) * rsum n (fun b => f c b)) ((a + m) mod n)%Z)).
  { apply rsum_ext. intros a Ha. cbv beta. rewrite rsum_scale. unfold moved. rewrite (rsum_cyclic_any n k (fun b => f ((a + m) mod n)%Z b)) by auto.
    f_equal. f_equal. rewrite Zminus_mod_idemp_l. replace (a + m - m)%Z with a by lia. rewrite Z.mod_small by lia. reflexivity. }
  rewrite (rsum_cyclic_any n m (fun c => IZR ((c - m) mod n) * rsum n (fun b => f c b))) by auto.
  unfold all_light.
  transitivity (rsum n (fun a => rsum n (fun b => IZR a * f a b) + (-1) * (IZR m * rsum n (fun b => f a b)))).
  2:{ rewrite rsum_add, (rsum_scale n (-1)), (rsum_scale n (IZR m)). ring. }
  apply rsum_ext. intros c Hc. rewrite (rsum_scale n (IZR c) (f c)). change (rsum n (fun b => f c b)) with (rsum n (f c)).
  destruct (Z_lt_ge_dec (c - m) 0) as [L|L]; [|destruct (Z_lt_ge_dec (c - m) n) as [G|G]].
  - replace (rsum n (f c)) with 0; [ring|]. rewrite (rsum_ext n (f c) (fun _ => 0)); [unfold rsum; symmetry; apply rsumn_zero|]. intros b Hb. apply D; auto; lia.
  - rewrite Z.mod_small by lia. rewrite minus_IZR. ring.
  - replace (rsum n (f c)) with 0; [ring|]. rewrite (rsum_ext n (f c) (fun _ => 0)); [unfold rsum; symmetry; apply rsumn_zero|]. intros b Hb. apply D; auto; lia.
Qed.
Lemma centre_moved n m k f g : (0 < n)%Z -> same_on n g (moved n m k f) -> (forall a b, (0 <= a < n)%Z -> (0 <= b < n)%Z -> (a - m < 0 \/ n <= a - m)%Z -> f a b = 0) ->
  all_light n f <> 0 -> row_centre n g = row_centre n f - IZR m.
Proof.
  intros H S D L. unfold row_centre. rewrite (light_ext n g _ S), light_moved by auto.
  rewrite (rsum_ext n _ (fun a => rsum n (fun b => IZR a * moved n m k f a b))) by (intros a Ha; apply rsum_ext; intros b Hb; rewrite S by auto; reflexivity).
  rewrite moment_moved by auto. field. auto.
Qed.

(** ** Light *)
Lemma binned_light os n f : (0 < os)%Z -> (0 < n)%Z -> all_light n (binned os f) = all_light (n * os) f.
Proof.
  intros Ho Hn. unfold all_light, binned. rewrite <- (rsum_blocks n os (fun i => rsum (n * os) (fun j => f i j))) by lia.
  apply rsum_ext. intros a Ha. rewrite rsum_swap. apply rsum_ext. intros s Hs. rewrite <- (rsum_blocks n os (fun j => f (a * os + s)%Z j)) by lia. reflexivity.
Qed.
Lemma rsum_window0 P F f : (0 <= F <= P)%Z -> (forall i, (F <= i < P)%Z -> f i = 0) -> rsum P f = rsum F f.
Proof.
  intros HF Z0. replace P with (F + (P - F))%Z by lia. rewrite rsum_split by lia. rewrite (rsum_ext (P - F) _ (fun _ => 0)) by (intros; apply Z0; lia).
  replace (rsum (P - F) (fun _ => 0)) with 0 by (symmetry; apply rsumn_zero). ring.
Qed.
Lemma input_light o e mask x y : usable o ->
  rsum (fft_pad o) (fun i => rsum (fft_pad o) (fun j => cnorm2 (fft_input o e mask x y i j))) =
  all_light (nx_interp o) (fun i j => cnorm2 (e (x + i)%Z (y + j)%Z) * (mask (x + i)%Z (y + j)%Z * mask (x + i)%Z (y + j)%Z)).
Proof.
  intro U. destruct (usable_facts o U) as (HP & Hn & Hs & HI & _). rewrite (rsum_window0 (fft_pad o) (nx_interp o)); [|lia|].
  - unfold all_light. apply rsum_ext. intros i Hi. rewrite (rsum_window0 (fft_pad o) (nx_interp o)); [|lia|].
    + apply rsum_ext. intros j Hj. unfold fft_input. destruct (Z.ltb_spec i (nx_interp o)); [|lia]. destruct (Z.ltb_spec j (nx_interp o)); [|lia]. cbn [andb].
      rewrite !cnorm2_mul, cnorm2_R, cis_norm. ring.
    + intros j Hj. unfold fft_input. destruct (Z.ltb_spec j (nx_interp o)); [lia|]. rewrite andb_false_r. rewrite cnorm2_R. ring.
  - intros i Hi. rewrite (rsum_ext _ _ (fun _ => 0)); [apply rsumn_zero|]. intros j Hj. unfold fft_input. destruct (Z.ltb_spec i (nx_interp o)); [lia|]. cbn [andb]. rewrite cnorm2_R. ring.
Qed.
Lemma spot_light o e mask x y : usable o ->
  all_light (fft_pad o) (spot o e mask x y) = IZR (fft_pad o) * IZR (fft_pad o) * rsum (fft_pad o) (fun i => rsum (fft_pad o) (fun j => cnorm2 (fft_input o e mask x y i j))).
Proof.
  intro U. destruct (usable_facts o U) as (HP & Hn & Hs & HI & _). rewrite <- dft2_energy by auto. unfold all_light. set (P := fft_pad o) in *. set (h := round_div P 2).
  rewrite <- (rsum_reflect P (h - 1) (fun u => rsum P (fun v => cnorm2 (dft2 P (fft_input o e mask x y) u v)))) by auto. apply rsum_ext. intros i Hi.
  rewrite <- (rsum_reflect P (h - 1) (fun v => cnorm2 (dft2 P (fft_input o e mask x y) ((h - 1 - i) mod P) v))) by auto. apply rsum_ext. intros j Hj.
  rewrite spot_at by auto. f_equal. fold P h. symmetry. apply dft2_cong; auto; apply Zmod_mod.
Qed.
Lemma image_light o e mask fill x y : usable o ->
  all_light (n_over o) (sub_image o e mask fill x y) =
  fill * (IZR (fft_pad o) * IZR (fft_pad o)) * all_light (nx_interp o) (fun i j => cnorm2 (e (x + i)%Z (y + j)%Z) * (mask (x + i)%Z (y + j)%Z * mask (x + i)%Z (y + j)%Z)).
Proof.
  intro U. destruct (usable_facts o U) as (HP & Hn & Hs & HI & _). rewrite <- input_light by auto.
  transitivity (fill * all_light (n_over o) (binned (s_os o) (spot o e mask x y))).
  - unfold all_light. rewrite <- rsum_scale. apply rsum_ext. intros a Ha. rewrite <- rsum_scale. apply rsum_ext. intros b Hb. unfold sub_image. ring.
  - rewrite binned_light by auto. change (n_over o * s_os o)%Z with (fft_pad o). rewrite spot_light by auto. ring.
Qed.

(** ** What an image depends on *)
Lemma image_same o e e' mask mask' fill x y c : cnorm2 c = 1 -> (0 < fft_pad o)%Z -> 
  (forall i j, (0 <= i < nx_interp o)%Z -> (0 <= j < nx_interp o)%Z ->
     (e' (x + i)%Z (y + j)%Z * RtoC (mask' (x + i)%Z (y + j)%Z) = c * (e (x + i)%Z (y + j)%Z * RtoC (mask (x + i)%Z (y + j)%Z)))%C) ->
  forall a b, sub_image o e' mask' fill x y a b = sub_image o e mask fill x y a b.
Proof.
  intros Hc HP H a b. unfold sub_image. f_equal. unfold binned. apply rsum_ext. intros s _. apply rsum_ext. intros t _. unfold spot, ft_shift.
  rewrite <- (dft2_unit _ (fft_input o e mask x y) c) by auto. f_equal. apply dft2_ext. intros i j Hi Hj. unfold fft_input.
  destruct (Z.ltb_spec i (nx_interp o)); cbn [andb]; [|ring]. destruct (Z.ltb_spec j (nx_interp o)); cbn [andb]; [|ring].
  rewrite H by lia. ring.
Qed.
Lemma image_T o e mask fill x y a b :
  sub_image o (fun u v => e v u) (fun u v => mask v u) fill y x b a = sub_image o e mask fill x y a b.
Proof.
  unfold sub_image. f_equal. unfold binned. rewrite rsum_swap. apply rsum_ext. intros s _. apply rsum_ext. intros t _. unfold spot, ft_shift.
  rewrite <- dft2_T. f_equal. apply dft2_ext. intros i j Hi Hj. unfold fft_input. rewrite andb_comm. destruct (_ && _)%bool; [|reflexivity].
  f_equal. f_equal. unfold tilt_fix. rewrite (Rplus_comm (lin_coord o i)). reflexivity.
Qed.

(** ** Centring *)
Lemma dft2_conj P c r t u v u' v' : (0 < P)%Z ->
  (forall i j, (0 <= i < P)%Z -> (0 <= j < P)%Z -> r i j <> 0 -> 2 * t i j = 2 * PI * IZR ((u + u') * i + (v + v') * j) / IZR P) ->
  cnorm2 (dft2 P (fun i j => c * (RtoC (r i j) * cis (t i j)))%C u v) = cnorm2 (dft2 P (fun i j => c * (RtoC (r i j) * cis (t i j)))%C u' v').
Proof.
  intros HP H. assert (N : IZR P <> 0) by (apply IZR_neq; lia). rewrite !dft2_hom, !cnorm2_mul. f_equal.
  assert (E : Cconj (dft2 P (fun i j => RtoC (r i j) * cis (t i j))%C u' v') = dft2 P (fun i j => RtoC (r i j) * cis (t i j))%C u v).
  { unfold dft2. rewrite csum_conj. apply csum_ext. intros i Hi. rewrite <- cconj_mul, csum_conj, <- !csum_scale_r. apply csum_ext. intros j Hj.
    rewrite <- !cconj_mul, !cis_conj. replace (Cconj (RtoC (r i j))) with (RtoC (r i j)) by (unfold Cconj, RtoC; cbn [fst snd]; f_equal; ring).
    destruct (Req_dec (r i j) 0) as [Z|Z]; [rewrite Z; ring|]. specialize (H i j Hi Hj Z).
    rewrite <- !Cmult_assoc, <- !cis_add. f_equal. f_equal.
    rewrite plus_IZR, !mult_IZR, !plus_IZR in H. rewrite !mult_IZR.
    assert (E : t i j + t i j = 2 * PI * ((IZR u + IZR u') * IZR i + (IZR v + IZR v') * IZR j) / IZR P) by lra.
    replace (t i j) with (2 * PI * ((IZR u + IZR u') * IZR i + (IZR v + IZR v') * IZR j) / IZR P - t i j) at 2 by lra. field. auto. }
  rewrite <- E. unfold cnorm2, Cconj. cbn [fst snd]. ring.
Qed.
Lemma binned_turned os n f a b : (0 < os)%Z -> (0 < n)%Z -> (0 <= a < n)%Z -> (0 <= b < n)%Z ->
  (forall i j, (0 <= i < n * os)%Z -> (0 <= j < n * os)%Z -> f i j = f (n * os - 1 - i)%Z (n * os - 1 - j)%Z) ->
  binned os f a b = binned os f (n - 1 - a) (n - 1 - b).
Proof.
  intros Ho Hn Ha Hb H. unfold binned. rewrite rsum_rev by lia. apply rsum_ext. intros s Hs. rewrite rsum_rev by lia. apply rsum_ext. intros t Ht.
  rewrite H by nia. f_equal; lia.
Qed.
Lemma waves_amp o : usable o -> tilt_amp o = PI * IZR (s_over o) * waves o / (2 * IZR (fft_pad o)).
Proof.
  intro U. destruct (usable_facts o U) as (HP & _). destruct U as (Hd & Hl & _). unfold tilt_amp, half_pixel, waves. field. split; [lra|]. apply IZR_neq; lia.
Qed.
Lemma flat_centred o mask fill x y : usable o ->
  ((s_px o mod 2 = 0)%Z /\ IZR (s_over o) * waves o = IZR (nx_interp o - 1)) \/ ((s_px o mod 2 = 1)%Z /\ (fft_pad o mod 4 = 3)%Z) ->
  centred (n_over o) (sub_image o flat mask fill x y).
Proof.
  intros U C a b Ha Hb. pose proof U as U'. destruct (usable_facts o U) as (HP & Hn & Hs & HI & HZ). unfold sub_image. f_equal. apply binned_turned; auto.
  change (n_over o * s_os o)%Z with (fft_pad o). intros i j Hi Hj. rewrite !spot_at by lia. set (P := fft_pad o) in *. set (h := round_div P 2).
  set (r := fun i j => if ((i <? nx_interp o) && (j <? nx_interp o))%Z%bool then mask (x + i)%Z (y + j)%Z else 0).
  assert (G : exists c t, (forall i j, (0 <= i < P)%Z -> (0 <= j < P)%Z -> fft_input o flat mask x y i j = (c * (RtoC (r i j) * cis (t i j)))%C) /\
     forall a b, (0 <= a < P)%Z -> (0 <= b < P)%Z -> r a b <> 0 -> 2 * t a b = 2 * PI * IZR (((h - 1 - i) + (h - 1 - (P - 1 - i))) * a + ((h - 1 - j) + (h - 1 - (P - 1 - j))) * b) / IZR P).
  { assert (NP : IZR P <> 0) by (apply IZR_neq; lia). destruct C as [[Ev C]|[Od C]].
    - assert (HI2 : (2 <= nx_interp o)%Z).
      { destruct (Z_lt_ge_dec (nx_interp o) 2); [|lia]. assert (nx_interp o = 1)%Z by lia. rewrite H in C. simpl in C.
        destruct U as (Hd & Hl & Hf & Ho & _). assert (0 < waves o) by (unfold waves; apply Rdiv_lt_0_compat; [apply Rmult_lt_0_compat|]; lra).
        assert (0 < IZR (s_over o)) by (apply IZR_lt; lia). pose proof (Rmult_lt_0_compat _ _ H1 H0). lra. }
      assert (NI : IZR (nx_interp o - 1) <> 0) by (apply IZR_neq; lia).
      exists (cis (2 * tilt_amp o)), (fun i j => - (PI * IZR (i + j) / IZR P)). split.
      + intros p q Hp Hq. unfold fft_input, r. destruct (_ && _)%bool eqn:B; [|ring]. unfold flat. rewrite Cmult_1_l.
        replace (cis (tilt_fix o p q)) with (cis (2 * tilt_amp o) * cis (- (PI * IZR (p + q) / IZR P)))%C; [ring|]. rewrite <- cis_add. f_equal.
        unfold tilt_fix, lin_coord. destruct (Z.eqb_spec (s_px o mod 2) 0); [|lia]. destruct (Z.leb_spec (nx_interp o) 1); [lia|].
        rewrite waves_amp by auto. fold P. replace (PI * IZR (s_over o) * waves o) with (PI * IZR (nx_interp o - 1)) by (rewrite <- C; ring). rewrite plus_IZR. field. auto.
      + intros p q Hp Hq _. assert (Ph : P = (2 * h)%Z).
        { assert (P mod 2 = 0)%Z. { unfold P, fft_pad, n_over. rewrite <- Z.mul_assoc, Z.mul_comm, <- Z.mul_assoc. rewrite Z.mul_mod, Ev by lia. rewrite Z.mul_0_l. reflexivity. }
          unfold h. rewrite round_div_int by (auto; lia). pose proof (Z.div_mod P 2 ltac:(lia)). lia. }
        replace ((h - 1 - i + (h - 1 - (P - 1 - i))) * p + (h - 1 - j + (h - 1 - (P - 1 - j))) * q)%Z with (- (p + q))%Z by lia. rewrite opp_IZR. field. auto.
    - exists (RtoC 1), (fun _ _ => 0). split.
      + intros p q Hp Hq. unfold fft_input, r. destruct (_ && _)%bool eqn:B; [|ring]. unfold flat, tilt_fix. destruct (Z.eqb_spec (s_px o mod 2) 0); [lia|]. ring.
      + intros p q Hp Hq _. assert (Ph : (P = 2 * h - 1)%Z).
        { unfold h. rewrite (NumericsProofs.round_half P (P / 4) 3); [|pose proof (Z.div_mod P 4 ltac:(lia)); lia|lia]. change (if 3 <? 2 then 0 else if 3 =? 2 then 1 else 2)%Z with 2%Z. pose proof (Z.div_mod P 4 ltac:(lia)). lia. }
        replace ((h - 1 - i + (h - 1 - (P - 1 - i))) * p + (h - 1 - j + (h - 1 - (P - 1 - j))) * q)%Z with 0%Z by lia. field. auto. }
  destruct G as (c & t & E & T).
  rewrite !(dft2_ext P (fft_input o flat mask x y) _ _ _ E). apply dft2_conj; auto.
Qed.

(** ** Where the light goes *)
Lemma round_half_R P : (0 < P)%Z -> ZnearestE (IZR P / 2) = round_div P 2.
Proof.
  intro HP. pose proof (Z.div_mod P 4 ltac:(lia)) as E. pose proof (Z.mod_pos_bound P 4 ltac:(lia)) as B. set (m := (P / 4)%Z) in *. set (r := (P mod 4)%Z) in *.
  rewrite (round_half P m r) by lia. assert (ER : IZR P / 2 = IZR (2 * m) + IZR r / 2) by (rewrite E, plus_IZR, !mult_IZR; lra).
  assert (C : (r = 0 \/ r = 1 \/ r = 2 \/ r = 3)%Z) by lia. rewrite ER. clearbody m r. clear E ER B. destruct C as [-> | [-> | [-> | ->]]].
  - change (if 0 <? 2 then 0 else if 0 =? 2 then 1 else 2)%Z with 0%Z. apply Znearest_imp. rewrite !plus_IZR. rewrite Rabs_pos_eq; lra.
  - change (if 1 <? 2 then 0 else if 1 =? 2 then 1 else 2)%Z with 0%Z. unfold Znearest. rewrite (Zfloor_imp (2 * m)) by (rewrite plus_IZR; lra). rewrite Rcompare_Eq by lra. rewrite Z.even_mul. cbn [orb negb Z.even]. lia.
  - change (if 2 <? 2 then 0 else if 2 =? 2 then 1 else 2)%Z with 1%Z. apply Znearest_imp. rewrite !plus_IZR. rewrite Rabs_pos_eq; lra.
  - change (if 3 <? 2 then 0 else if 3 =? 2 then 1 else 2)%Z with 2%Z. unfold Znearest. rewrite (Zfloor_imp (2 * m + 1)) by (rewrite !plus_IZR; lra). rewrite Rcompare_Eq by (rewrite plus_IZR; lra).
    rewrite Z.even_add, Z.even_mul. cbn [orb negb Z.even eqb]. rewrite (Zceil_imp (2 * m + 2)); [reflexivity|]. rewrite !plus_IZR, minus_IZR, plus_IZR. lra.
Qed.
Lemma csum_window0 P F f : (0 <= F <= P)%Z -> (forall i, (F <= i < P)%Z -> f i = RtoC 0) -> csum P f = csum F f.
Proof.
  intros HF Z0. replace P with (F + (P - F))%Z by lia. rewrite csum_split by lia. rewrite (csum_ext (P - F) _ (fun _ => RtoC 0)) by (intros; apply Z0; lia).
  rewrite csum_zero. ring.
Qed.
Lemma pad_even o : (s_px o mod 2 = 0)%Z -> (fft_pad o = 2 * round_div (fft_pad o) 2)%Z.
Proof.
  intro Ev. assert (fft_pad o mod 2 = 0)%Z.
  { unfold fft_pad, n_over. rewrite <- Z.mul_assoc, Z.mul_comm, <- Z.mul_assoc. rewrite Z.mul_mod, Ev by lia. rewrite Z.mul_0_l. reflexivity. }
  rewrite round_div_int by (auto; lia). pose proof (Z.div_mod (fft_pad o) 2 ltac:(lia)). lia.
Qed.
Lemma spot_far_field o e mask x y i j : usable o -> (2 <= nx_interp o)%Z -> (0 <= i < fft_pad o)%Z -> (0 <= j < fft_pad o)%Z ->
  spot o e mask x y i j = far_intensity (nx_interp o) (fft_pad o) (fun a b => e (x + a)%Z (y + b)%Z * RtoC (mask (x + a)%Z (y + b)%Z))%C (spot_centre o - IZR i) (spot_centre o - IZR j).
Proof.
  intros U I2 Hi Hj. destruct (usable_facts o U) as (HP & Hn & Hs & HI & HZ). rewrite spot_at by auto. unfold far_intensity. set (P := fft_pad o) in *. set (h := round_div P 2).
  assert (NP : IZR P <> 0) by (apply IZR_neq; lia). assert (NI : IZR (nx_interp o - 1) <> 0) by (apply IZR_neq; lia).
  set (c := if (s_px o mod 2 =? 0)%Z then cis (2 * tilt_amp o) else RtoC 1).
  assert (Nc : cnorm2 c = 1) by (unfold c; destruct (_ =? _)%Z; [apply cis_norm|rewrite cnorm2_R; ring]).
  transitivity (cnorm2 (c * csum (nx_interp o) (fun a => csum (nx_interp o) (fun b => e (x + a)%Z (y + b)%Z * RtoC (mask (x + a)%Z (y + b)%Z) * cis (- (2 * PI * ((spot_centre o - IZR i) * IZR a + (spot_centre o - IZR j) * IZR b) / IZR P)))))%C).
  2:{ rewrite cnorm2_mul, Nc. ring. }
  f_equal. unfold dft2. rewrite (csum_window0 P (nx_interp o)); [|lia|].
  2:{ intros a Ha. rewrite (csum_ext _ _ (fun _ => RtoC 0)); [rewrite csum_zero; ring|]. intros b Hb. unfold fft_input. destruct (Z.ltb_spec a (nx_interp o)); [lia|]. cbn [andb]. ring. }
  rewrite <- csum_scale. apply csum_ext. intros a Ha. rewrite (csum_window0 P (nx_interp o)); [|lia|].
  2:{ intros b Hb. unfold fft_input. destruct (Z.ltb_spec b (nx_interp o)); [lia|]. rewrite andb_false_r. ring. }
  rewrite <- csum_scale_r, <- csum_scale. apply csum_ext. intros b Hb. unfold fft_input. destruct (Z.ltb_spec a (nx_interp o)); [|lia]. destruct (Z.ltb_spec b (nx_interp o)); [|lia]. cbn [andb].
  set (g := (e (x + a)%Z (y + b)%Z * RtoC (mask (x + a)%Z (y + b)%Z))%C). rewrite <- !Cmult_assoc.
  transitivity (g * (c * cis (- (2 * PI * ((spot_centre o - IZR i) * IZR a + (spot_centre o - IZR j) * IZR b) / IZR P))))%C; [|ring]. f_equal.
  unfold c, spot_centre, tilt_fix, lin_coord. destruct (Z.eqb_spec (s_px o mod 2) 0) as [Ev|Od].
  - destruct (Z.leb_spec (nx_interp o) 1); [lia|]. rewrite <- !cis_add. f_equal. rewrite waves_amp by auto. fold P.
    pose proof (pad_even o Ev) as Ph. fold P h in Ph. assert (EP : IZR (P - 1) / 2 = IZR h - / 2) by (rewrite minus_IZR, Ph, mult_IZR; field). rewrite EP. rewrite !mult_IZR, !minus_IZR. rewrite minus_IZR in NI. field. auto.
  - rewrite round_half_R by (fold P; auto). fold P h. rewrite <- !cis_add, Cmult_1_l. f_equal. rewrite !mult_IZR, !minus_IZR. field. auto.
Qed.
Lemma cnorm2_le z r : Cmod z <= r -> cnorm2 z <= r * r.
Proof. intro H. rewrite cnorm2_mod. pose proof (Cmod_ge_0 z). apply Rmult_le_compat; lra. Qed.
Lemma far_peak I P (m : Z -> Z -> R) s t : (0 < I)%Z -> (forall a b, (0 <= a < I)%Z -> (0 <= b < I)%Z -> 0 <= m a b) ->
  far_intensity I P (fun a b => RtoC (m a b)) s t <= far_intensity I P (fun a b => RtoC (m a b)) 0 0.
Proof.
  intros HI H. unfold far_intensity.
  assert (E : csum I (fun a => csum I (fun b => RtoC (m a b) * cis (- (2 * PI * (0 * IZR a + 0 * IZR b) / IZR P))))%C = RtoC (rsum I (fun a => rsum I (fun b => m a b)))).
  { rewrite <- csum_R. apply csum_ext. intros a Ha. rewrite <- csum_R. apply csum_ext. intros b Hb.
    replace (- (2 * PI * (0 * IZR a + 0 * IZR b) / IZR P)) with 0 by (unfold Rdiv; ring). rewrite cis_0. ring. }
  rewrite E, (cnorm2_R (rsum I _)). apply cnorm2_le. eapply Rle_trans; [apply cmod_csum|]. apply rsum_le. intros a Ha. eapply Rle_trans; [apply cmod_csum|]. apply rsum_le. intros b Hb.
  rewrite Cmod_mult, cmod_cis, Cmod_R, Rabs_pos_eq by auto. lra.
Qed.
Lemma far_turned I P (m : Z -> Z -> R) s t : far_intensity I P (fun a b => RtoC (m a b)) (- s) (- t) = far_intensity I P (fun a b => RtoC (m a b)) s t.
Proof.
  unfold far_intensity. set (F := csum I _ ) at 2.
  assert (E : csum I (fun a => csum I (fun b => RtoC (m a b) * cis (- (2 * PI * (- s * IZR a + - t * IZR b) / IZR P))))%C = Cconj F).
  { unfold F. rewrite csum_conj. apply csum_ext. intros a Ha. rewrite csum_conj. apply csum_ext. intros b Hb. rewrite <- cconj_mul, cis_conj.
    replace (Cconj (RtoC (m a b))) with (RtoC (m a b)) by (unfold Cconj, RtoC; cbn [fst snd]; f_equal; ring). f_equal. f_equal. unfold Rdiv. ring. }
  rewrite E. unfold cnorm2, Cconj. cbn [fst snd]. ring.
Qed.

Lemma centre_cases o : usable o -> (2 <= nx_interp o)%Z ->
  ((s_px o mod 2 = 0)%Z -> forall q, waves o = IZR q -> spot_centre o - IZR (fft_pad o - 1) / 2 = 1 / (2 * IZR (nx_interp o - 1))) /\
  ((s_px o mod 2 = 1)%Z -> (fft_pad o mod 4 = 3)%Z -> spot_centre o - IZR (fft_pad o - 1) / 2 = 0) /\
  ((s_px o mod 2 = 1)%Z -> (fft_pad o mod 4 = 1)%Z -> spot_centre o - IZR (fft_pad o - 1) / 2 = -1) /\
  ((s_px o mod 2 = 1)%Z -> (fft_pad o mod 2 = 0)%Z -> spot_centre o - IZR (fft_pad o - 1) / 2 = - (1 / 2)).
Proof.
  intros U I2. destruct (usable_facts o U) as (HP & Hn & Hs & HI & HZ). unfold spot_centre. rewrite round_half_R by auto. set (P := fft_pad o) in *.
  assert (NI : IZR (nx_interp o - 1) <> 0) by (apply IZR_neq; lia).
  split; [|split; [|split]]; intros E; rewrite E; cbn [Z.eqb].
  - intros q Q. replace (IZR (s_over o) * waves o) with (IZR (nx_interp o)).
    + rewrite minus_IZR in NI. rewrite (minus_IZR (nx_interp o)). field. auto.
    + rewrite interp_R, Q. rewrite (Znearest_imp _ (IZR q) q) by (rewrite Rminus_diag_eq, Rabs_R0 by reflexivity; lra). ring.
  - intro M. rewrite (round_half P (P / 4) 3); [|pose proof (Z.div_mod P 4 ltac:(lia)); lia|lia]. change (if 3 <? 2 then 0 else if 3 =? 2 then 1 else 2)%Z with 2%Z.
    replace P with (4 * (P / 4) + 3)%Z at 2 by (pose proof (Z.div_mod P 4 ltac:(lia)); lia). rewrite minus_IZR, !plus_IZR, !mult_IZR. lra.
  - intro M. rewrite (round_half P (P / 4) 1); [|pose proof (Z.div_mod P 4 ltac:(lia)); lia|lia]. change (if 1 <? 2 then 0 else if 1 =? 2 then 1 else 2)%Z with 0%Z.
    replace P with (4 * (P / 4) + 1)%Z at 2 by (pose proof (Z.div_mod P 4 ltac:(lia)); lia). rewrite minus_IZR, !plus_IZR, !mult_IZR. lra.
  - intro M. rewrite round_div_int by (auto; lia). replace P with (2 * (P / 2))%Z at 2 by (pose proof (Z.div_mod P 2 ltac:(lia)); lia). rewrite minus_IZR, !mult_IZR. lra.
Qed.

(** ** Examples *)
Lemma nearest_near x n : Rabs (x - IZR n) < / 2 -> ZnearestE x = n.
Proof. apply Znearest_imp. Qed.
Lemma root_sum_neg n k : (0 < n)%Z -> csum n (fun i => cis (- (2 * PI * IZR (k * i) / IZR n))) = if (k mod n =? 0)%Z then RtoC (IZR n) else RtoC 0.
Proof.
  intro H. rewrite (csum_ext n _ (fun i => cis (2 * PI * IZR (- k * i) / IZR n))).
  - rewrite root_sum by auto. destruct (Z.eqb_spec (k mod n) 0) as [E|E]; destruct (Z.eqb_spec (- k mod n) 0) as [F|F]; auto; exfalso.
    + apply F, Z_mod_zero_opp_full; auto.
    + apply E. rewrite <- (Z.opp_involutive k). apply Z_mod_zero_opp_full; auto.
  - intros i Hi. f_equal. rewrite !mult_IZR, opp_IZR. field. apply IZR_neq; lia.
Qed.
Lemma dft2_const P u v : (0 < P)%Z -> dft2 P (fun _ _ => RtoC 1) u v = if ((u mod P =? 0) && (v mod P =? 0))%Z%bool then RtoC (IZR P * IZR P) else RtoC 0.
Proof.
  intro H. unfold dft2. rewrite csum_scale. rewrite (csum_ext P (fun j => RtoC 1 * _)%C (fun j => cis (- (2 * PI * IZR (v * j) / IZR P)))) by (intros; ring).
  rewrite !root_sum_neg by auto. destruct (u mod P =? 0)%Z, (v mod P =? 0)%Z; cbn [andb]; rewrite ?RtoC_mult; ring.
Qed.
(** a flat wavefront on a full aperture that fills the transform, odd number of pixels *)
Lemma flat_full o x y i j : usable o -> (s_px o mod 2 = 1)%Z -> nx_interp o = fft_pad o -> (0 <= i < fft_pad o)%Z -> (0 <= j < fft_pad o)%Z ->
  let h := round_div (fft_pad o) 2 in
  spot o flat (fun _ _ => 1) x y i j = if (((h - 1 - i) mod fft_pad o =? 0) && ((h - 1 - j) mod fft_pad o =? 0))%Z%bool then (IZR (fft_pad o) * IZR (fft_pad o)) * (IZR (fft_pad o) * IZR (fft_pad o)) else 0.
Proof.
  intros U Od E Hi Hj h. destruct (usable_facts o U) as (HP & _). rewrite spot_at by auto.
  rewrite (dft2_ext _ _ (fun _ _ => RtoC 1)).
  - rewrite dft2_const by auto. fold h. destruct (_ && _)%bool; rewrite cnorm2_R; ring.
  - intros a b Ha Hb. unfold fft_input. rewrite E. destruct (Z.ltb_spec a (fft_pad o)); [|lia]. destruct (Z.ltb_spec b (fft_pad o)); [|lia]. cbn [andb].
    unfold tilt_fix, flat. rewrite Od. cbn [Z.eqb]. rewrite cis_0. ring.
Qed.

(** Properties C161 to C164: the spots of the Shack-Hartmann sensor. *)
From Coq Require Import ZArith Reals Bool Lia Lra.
From Flocq Require Import Core.
From Coquelicot Require Import Complex.
From Verif.Base Require Import Py CSum CSumFacts.
From Verif.Model Require Import ShOptics.
From Verif.Spec Require Import ShOpticsSpec.
From Verif.Proofs Require Import ShOpticsProofs.
Open Scope R_scope.

(** C161: whatever the wavefront, tilting it by whole multiples of lambda * round(d * fov / lambda) / (d * pixels) moves every spot by that many
    detector pixels. *)
Theorem C161_moves :
  forall o e mask fill x y m k, usable o ->
  let scale := s_lambda o * IZR (ZnearestE (s_d o * s_fov o / s_lambda o)) / (s_d o * IZR (s_px o)) in
  same_on (n_over o) (sub_image o (tilted o (IZR m * scale) (IZR k * scale) e) mask fill x y) (moved (n_over o) m k (sub_image o e mask fill x y)).
Proof. exact tilt_moves. Qed.
Print Assumptions C161_moves.

(** That is the configured pixel scale when the field of view is a whole number of wavelengths over the sub-aperture... *)
Theorem C161_moves_partial :
  forall o e mask fill x y m k q, usable o -> s_d o * s_fov o / s_lambda o = IZR q ->
  same_on (n_over o) (sub_image o (tilted o (IZR m * pixel_scale o) (IZR k * pixel_scale o) e) mask fill x y) (moved (n_over o) m k (sub_image o e mask fill x y)).
Proof. intros o e mask fill x y m k q U E. rewrite <- (scale_whole o q U E). apply (tilt_moves o e mask fill x y m k U). Qed.
Print Assumptions C161_moves_partial.

(** ... and differs from it by at most one part in 2 * d * fov / lambda otherwise. *)
Theorem C161_scale_partial :
  forall o, usable o ->
  Rabs (s_lambda o * IZR (ZnearestE (s_d o * s_fov o / s_lambda o)) / (s_d o * IZR (s_px o)) - pixel_scale o) <= pixel_scale o / (2 * (s_d o * s_fov o / s_lambda o)).
Proof. exact scale_error. Qed.
Print Assumptions C161_scale_partial.

(** If no light would leave the image, the centre of light moves by as many pixels. *)
Theorem C161_centre :
  forall o e mask fill x y m k, usable o ->
  let scale := s_lambda o * IZR (ZnearestE (s_d o * s_fov o / s_lambda o)) / (s_d o * IZR (s_px o)) in
  let img := sub_image o e mask fill x y in
  (forall a b, (0 <= a < n_over o)%Z -> (0 <= b < n_over o)%Z -> ~ (0 <= a - m < n_over o)%Z -> img a b = 0) -> all_light (n_over o) img <> 0 ->
  row_centre (n_over o) (sub_image o (tilted o (IZR m * scale) (IZR k * scale) e) mask fill x y) = row_centre (n_over o) img - IZR m.
Proof.
  intros o e mask fill x y m k U scale img D L. destruct (usable_facts o U) as (_ & Hn & _). apply (centre_moved (n_over o) m k img); auto.
  - apply (tilt_moves o e mask fill x y m k U).
  - intros a b Ha Hb H. apply D; auto; lia.
Qed.
Print Assumptions C161_centre.

(** A sensor of 2 x 2 pixels, half a metre, 1 micron, field of view 3.5 microradians: 1.75 wavelengths, made 2. *)
Definition sh_seven : optics := mkOptics (1 / 2) (1 / 1000000) (7 / 2000000) 1 2 1.
Lemma seven_waves : waves sh_seven = 7 / 4.
Proof. unfold waves, sh_seven; cbn [s_d s_fov s_lambda]. field. Qed.
Lemma seven_interp : nx_interp sh_seven = 2%Z.
Proof. unfold nx_interp. rewrite seven_waves, (nearest_near (7 / 4) 2); [reflexivity|]. rewrite Rabs_left; lra. Qed.
Lemma seven_usable : usable sh_seven.
Proof. unfold usable. rewrite seven_interp. unfold sh_seven; cbn [s_d s_lambda s_fov s_over s_px s_os]. repeat split; try lra; try lia; auto. cbn. lia. Qed.
Lemma seven_amp : tilt_amp sh_seven = 7 / 16 * PI.
Proof. unfold tilt_amp, half_pixel. change (fft_pad sh_seven) with 2%Z. unfold sh_seven; cbn [s_d s_lambda s_fov s_over s_px s_os]. field. Qed.
Lemma seven_centre : spot_centre sh_seven = 7 / 8.
Proof. unfold spot_centre. rewrite seven_interp, seven_waves. change (s_px sh_seven mod 2 =? 0)%Z with true. cbn [fft_pad n_over sh_seven s_over s_px s_os Z.mul Z.sub Z.add Z.opp Z.pos_sub Pos.pred_double Pos.mul Pos.add]. simpl. field. Qed.
Lemma sum2 f : csum 2 f = (f 0%Z + f 1%Z)%C.
Proof. unfold csum. change (Z.to_nat 2) with 2%nat. cbn [csumn]. change (Z.of_nat 0) with 0%Z. change (Z.of_nat 1) with 1%Z. ring. Qed.
Lemma sum1 f : rsum 1 f = f 0%Z.
Proof. unfold rsum. change (Z.to_nat 1) with 1%nat. cbn [rsumn]. change (Z.of_nat 0) with 0%Z. ring. Qed.
Lemma bin1 f a b : binned 1 f a b = f a b.
Proof. unfold binned. rewrite !sum1, !Z.mul_1_r, !Z.add_0_r. reflexivity. Qed.
Lemma far_two f g k s t : (forall a b, (0 <= a < 2)%Z -> (0 <= b < 2)%Z -> f a b = (g a * k b)%C) ->
  far_intensity 2 2 f s t = cnorm2 (g 0%Z + g 1%Z * cis (- (PI * s)))%C * cnorm2 (k 0%Z + k 1%Z * cis (- (PI * t)))%C.
Proof.
  intro H. unfold far_intensity. rewrite !sum2, !H by lia. rewrite <- cnorm2_mul. f_equal.
  replace (- (2 * PI * (s * 0 + t * 0) / 2)) with 0 by field. replace (- (2 * PI * (s * 0 + t * 1) / 2)) with (- (PI * t)) by field.
  replace (- (2 * PI * (s * 1 + t * 0) / 2)) with (- (PI * s)) by field. replace (- (2 * PI * (s * 1 + t * 1) / 2)) with (- (PI * s) + - (PI * t)) by field.
  rewrite cis_0, cis_add. ring.
Qed.

(** C161 is false as stated: tilted by the configured pixel scale, the spot does not move by one pixel. *)
Theorem C161_refuted :
  usable sh_seven /\
  ~ same_on (n_over sh_seven) (sub_image sh_seven (tilted sh_seven (pixel_scale sh_seven) 0 flat) (fun _ _ => 1) 1 0 0)
      (moved (n_over sh_seven) 1 0 (sub_image sh_seven flat (fun _ _ => 1) 1 0 0)).
Proof.
  split; [exact seven_usable|]. intro H. specialize (H 1%Z 0%Z ltac:(cbn; lia) ltac:(cbn; lia)). unfold moved in H. change (n_over sh_seven) with 2%Z in H.
  change ((1 + 1) mod 2)%Z with 0%Z in H. change ((0 + 0) mod 2)%Z with 0%Z in H. unfold sub_image in H. change (s_os sh_seven) with 1%Z in H. rewrite !bin1, !Rmult_1_r in H.
  rewrite !spot_far_field in H by (first [exact seven_usable | rewrite seven_interp; lia | change (fft_pad sh_seven) with 2%Z; lia]).
  rewrite seven_interp, seven_centre in H. change (fft_pad sh_seven) with 2%Z in H.
  rewrite (far_two _ (fun a => cis (7 / 8 * PI * IZR a)) (fun _ => RtoC 1)) in H.
  2:{ intros a b _ _. unfold tilted, tilt_phase, flat, pixel_scale. rewrite seven_interp. cbn [sh_seven s_d s_lambda s_fov s_px]. rewrite !Cmult_1_l, !Cmult_1_r. f_equal. rewrite !Z.add_0_l. field. }
  rewrite (far_two _ (fun _ => RtoC 1) (fun _ => RtoC 1)) in H by (intros; unfold flat; ring).
  replace (7 / 8 * PI * 0) with 0 in H by ring. rewrite cis_0 in H.
  assert (Z0 : (cis (7 / 8 * PI * 1) * cis (- (PI * (7 / 8 - 1))))%C = RtoC (-1)).
  { rewrite <- cis_add. replace (7 / 8 * PI * 1 + - (PI * (7 / 8 - 1))) with PI by field. unfold cis. rewrite cos_PI, sin_PI. reflexivity. }
  rewrite Z0 in H. rewrite <- RtoC_plus in H. replace (1 + -1) with 0 in H by ring. rewrite (cnorm2_R 0), !Rmult_0_l in H.
  symmetry in H. assert (Q : cnorm2 (RtoC 1 + RtoC 1 * cis (- (PI * (7 / 8 - 0))))%C <> 0).
  { unfold cnorm2, cis, RtoC, Cplus, Cmult. cbn [fst snd]. rewrite cos_neg, sin_neg. assert (S : 0 < sin (PI * (7 / 8 - 0))) by (pose proof PI_RGT_0; apply sin_gt_0; lra).
    intro E. pose proof (Rmult_lt_0_compat _ _ S S). pose proof (Rle_0_sqr (1 + (1 * cos (PI * (7 / 8 - 0)) - 0 * - sin (PI * (7 / 8 - 0))))) as R. unfold Rsqr in R. lra. }
  apply Rmult_integral in H. tauto.
Qed.
Print Assumptions C161_refuted.

(** A sensor with a whole number of wavelengths in its field of view: 3 elements, 3 pixels. *)
Definition sh_three : optics := mkOptics (1 / 2) (1 / 1000000) (6 / 1000000) 1 3 1.
Lemma three_waves : waves sh_three = IZR 3.
Proof. unfold waves, sh_three; cbn [s_d s_fov s_lambda]. field. Qed.
Lemma three_interp : nx_interp sh_three = 3%Z.
Proof. unfold nx_interp. rewrite three_waves, (nearest_near (IZR 3) 3); [reflexivity|]. rewrite Rminus_diag_eq, Rabs_R0 by reflexivity. lra. Qed.
Lemma three_usable : usable sh_three.
Proof. unfold usable. rewrite three_interp. unfold sh_three; cbn [s_d s_lambda s_fov s_over s_px s_os]. repeat split; try lra; try lia; auto. cbn. lia. Qed.
(** Its flat wavefront's light is all in the middle pixel, so that it can be moved by one pixel either way. *)
Lemma three_image a b : (0 <= a < 3)%Z -> (0 <= b < 3)%Z -> sub_image sh_three flat (fun _ _ => 1) 1 0 0 a b = if ((a =? 1) && (b =? 1))%Z%bool then 81 else 0.
Proof.
  intros Ha Hb. unfold sub_image. change (s_os sh_three) with 1%Z. rewrite bin1, flat_full; try assumption; [|exact three_usable|reflexivity|exact three_interp]. change (fft_pad sh_three) with 3%Z. change (round_div 3 2) with 2%Z.
  assert (a = 0 \/ a = 1 \/ a = 2)%Z as [-> | [-> | ->]] by lia; assert (b = 0 \/ b = 1 \/ b = 2)%Z as [-> | [-> | ->]] by lia;
    cbv [Z.eqb Z.modulo Z.div_eucl Z.sub Z.add Z.opp Z.pos_sub Z.pos_div_eucl Z.leb Z.ltb Z.compare Pos.compare Pos.compare_cont Pos.pred_double Pos.mul Pos.add Pos.succ Z.mul Pos.eqb andb Z.double Z.succ_double Z.pred_double]; ring.
Qed.
Example C161_instance :
  usable sh_three /\ s_d sh_three * s_fov sh_three / s_lambda sh_three = IZR 3 /\
  (forall a b, (0 <= a < 3)%Z -> (0 <= b < 3)%Z -> ~ (0 <= a - 1 < 3)%Z -> sub_image sh_three flat (fun _ _ => 1) 1 0 0 a b = 0) /\
  sub_image sh_three flat (fun _ _ => 1) 1 0 0 1 1 = 81 /\ all_light 3 (sub_image sh_three flat (fun _ _ => 1) 1 0 0) <> 0.
Proof.
  split; [exact three_usable|]. split; [exact three_waves|]. split; [|split].
  - intros a b Ha Hb H. rewrite three_image by auto. destruct (Z.eqb_spec a 1); [lia|reflexivity].
  - rewrite three_image by lia. reflexivity.
  - change 3%Z with (n_over sh_three). rewrite image_light by exact three_usable. rewrite three_interp. change (fft_pad sh_three) with 3%Z.
    unfold all_light. rewrite (CSumFacts.rsum_ext 3 _ (fun _ => 3 * 1)).
    + rewrite rsum_const by lia. lra.
    + intros a Ha. rewrite (CSumFacts.rsum_ext 3 _ (fun _ => 1)); [apply rsum_const; lia|]. intros b Hb. unfold flat. rewrite cnorm2_R. ring.
Qed.

(** C162: whatever the wavefront, each element of the focal plane is the far-field intensity at its distance from [spot_centre]. *)
Theorem C162_position :
  forall o e mask x y i j, usable o -> (2 <= nx_interp o)%Z -> (0 <= i < fft_pad o)%Z -> (0 <= j < fft_pad o)%Z ->
  spot o e mask x y i j =
  far_intensity (nx_interp o) (fft_pad o) (fun a b => e (x + a)%Z (y + b)%Z * RtoC (mask (x + a)%Z (y + b)%Z))%C (spot_centre o - IZR i) (spot_centre o - IZR j).
Proof. exact spot_far_field. Qed.
Print Assumptions C162_position.

(** The far field of a flat wavefront is brightest at zero and the same on both sides. *)
Theorem C162_flat :
  forall n p (mask : Z -> Z -> R) s t, (0 < n)%Z -> (forall a b, (0 <= a < n)%Z -> (0 <= b < n)%Z -> 0 <= mask a b) ->
  far_intensity n p (fun a b => RtoC (mask a b)) s t <= far_intensity n p (fun a b => RtoC (mask a b)) 0 0 /\
  far_intensity n p (fun a b => RtoC (mask a b)) (- s) (- t) = far_intensity n p (fun a b => RtoC (mask a b)) s t.
Proof. intros n p mask s t Hn H. split; [apply far_peak; auto|apply far_turned]. Qed.
Print Assumptions C162_flat.

(** The spot is off the middle by 1 / (2 * (elements - 1)) of an element for an even number of pixels and a field of view of whole wavelengths; for
    an odd number of pixels it is in the middle, off by one element, or by half an element, depending on the size of the transform. *)
Theorem C162_offset :
  forall o, usable o -> (2 <= nx_interp o)%Z ->
  ((s_px o mod 2 = 0)%Z -> forall q, s_d o * s_fov o / s_lambda o = IZR q -> spot_centre o - IZR (fft_pad o - 1) / 2 = 1 / (2 * IZR (nx_interp o - 1))) /\
  ((s_px o mod 2 = 1)%Z -> (fft_pad o mod 4 = 3)%Z -> spot_centre o - IZR (fft_pad o - 1) / 2 = 0) /\
  ((s_px o mod 2 = 1)%Z -> (fft_pad o mod 4 = 1)%Z -> spot_centre o - IZR (fft_pad o - 1) / 2 = -1) /\
  ((s_px o mod 2 = 1)%Z -> (fft_pad o mod 2 = 0)%Z -> spot_centre o - IZR (fft_pad o - 1) / 2 = - (1 / 2)).
Proof. exact centre_cases. Qed.
Print Assumptions C162_offset.

(** So the image of a flat wavefront is centred, whatever the mask, for an odd number of pixels and a transform of 3, 7, 11, ... elements, and for an
    even number of pixels if the correcting tilt happens to be the right one. *)
Theorem C162_centred_partial :
  forall o mask fill x y, usable o ->
  ((s_px o mod 2 = 0)%Z /\ IZR (s_over o) * (s_d o * s_fov o / s_lambda o) = IZR (nx_interp o - 1)) \/ ((s_px o mod 2 = 1)%Z /\ (fft_pad o mod 4 = 3)%Z) ->
  centred (n_over o) (sub_image o flat mask fill x y).
Proof. exact flat_centred. Qed.
Print Assumptions C162_centred_partial.

(** Even: 2 x 2 pixels, field of view of two wavelengths. All light is in one pixel, not in the middle of the four. *)
Definition sh_two : optics := mkOptics (1 / 2) (1 / 1000000) (4 / 1000000) 1 2 1.
Lemma two_waves : waves sh_two = IZR 2.
Proof. unfold waves, sh_two; cbn [s_d s_fov s_lambda]. field. Qed.
Lemma two_interp : nx_interp sh_two = 2%Z.
Proof. unfold nx_interp. rewrite two_waves, (nearest_near (IZR 2) 2); [reflexivity|]. rewrite Rminus_diag_eq, Rabs_R0 by reflexivity. lra. Qed.
Lemma two_usable : usable sh_two.
Proof. unfold usable. rewrite two_interp. unfold sh_two; cbn [s_d s_lambda s_fov s_over s_px s_os]. repeat split; try lra; try lia; auto. cbn. lia. Qed.
Lemma two_centre : spot_centre sh_two = 1.
Proof. unfold spot_centre. rewrite two_interp, two_waves. change (s_px sh_two mod 2 =? 0)%Z with true. change (fft_pad sh_two) with 2%Z. change (s_over sh_two) with 1%Z. simpl. field. Qed.
Lemma two_image i j : (0 <= i < 2)%Z -> (0 <= j < 2)%Z -> sub_image sh_two flat (fun _ _ => 1) 1 0 0 i j = if ((i =? 1) && (j =? 1))%Z%bool then 16 else 0.
Proof.
  intros Hi Hj. unfold sub_image. change (s_os sh_two) with 1%Z. rewrite bin1, Rmult_1_r.
  rewrite spot_far_field by (first [exact two_usable | rewrite two_interp; lia | change (fft_pad sh_two) with 2%Z; lia]).
  rewrite two_interp, two_centre. change (fft_pad sh_two) with 2%Z. rewrite (far_two _ (fun _ => RtoC 1) (fun _ => RtoC 1)) by (intros; unfold flat; ring).
  assert (Q : forall c, (0 <= c < 2)%Z -> cnorm2 (RtoC 1 + RtoC 1 * cis (- (PI * (1 - IZR c))))%C = if (c =? 1)%Z then 4 else 0).
  { intros c Hc. assert (c = 0 \/ c = 1)%Z as [-> | ->] by lia; cbn [Z.eqb Pos.eqb].
    - replace (- (PI * (1 - IZR 0))) with (- PI) by (simpl; ring). unfold cnorm2, cis, RtoC, Cplus, Cmult. cbn [fst snd]. rewrite cos_neg, sin_neg, cos_PI, sin_PI. ring.
    - replace (- (PI * (1 - IZR 1))) with 0 by (simpl; ring). rewrite cis_0. unfold cnorm2, RtoC, Cplus, Cmult. cbn [fst snd]. ring. }
  rewrite !Q by auto. destruct (i =? 1)%Z, (j =? 1)%Z; cbn [andb]; ring.
Qed.
Theorem C162_even_refuted :
  usable sh_two /\ s_d sh_two * s_fov sh_two / s_lambda sh_two = IZR 2 /\
  ~ centred (n_over sh_two) (sub_image sh_two flat (fun _ _ => 1) 1 0 0) /\
  sub_image sh_two flat (fun _ _ => 1) 1 0 0 1 1 = all_light (n_over sh_two) (sub_image sh_two flat (fun _ _ => 1) 1 0 0).
Proof.
  change (n_over sh_two) with 2%Z. split; [exact two_usable|]. split; [exact two_waves|]. split.
  - intro H. specialize (H 0%Z 0%Z ltac:(lia) ltac:(lia)). cbv beta in H. change (2 - 1 - 0)%Z with 1%Z in H. rewrite !two_image in H by lia. cbn [Z.eqb Pos.eqb andb] in H. lra.
  - unfold all_light, rsum. change (Z.to_nat 2) with 2%nat. cbn [rsumn]. change (Z.of_nat 0) with 0%Z. change (Z.of_nat 1) with 1%Z. rewrite !two_image by lia. cbn [Z.eqb Pos.eqb andb]. ring.
Qed.
Print Assumptions C162_even_refuted.

(** Odd: 5 x 5 pixels, one element per pixel. All light is in pixel (1, 1); the middle is (2, 2). *)
Definition sh_five : optics := mkOptics (1 / 2) (1 / 1000000) (10 / 1000000) 1 5 1.
Lemma five_waves : waves sh_five = IZR 5.
Proof. unfold waves, sh_five; cbn [s_d s_fov s_lambda]. field. Qed.
Lemma five_interp : nx_interp sh_five = 5%Z.
Proof. unfold nx_interp. rewrite five_waves, (nearest_near (IZR 5) 5); [reflexivity|]. rewrite Rminus_diag_eq, Rabs_R0 by reflexivity. lra. Qed.
Lemma five_usable : usable sh_five.
Proof. unfold usable. rewrite five_interp. unfold sh_five; cbn [s_d s_lambda s_fov s_over s_px s_os]. repeat split; try lra; try lia; auto. cbn. lia. Qed.
Theorem C162_odd_refuted :
  usable sh_five /\ s_d sh_five * s_fov sh_five / s_lambda sh_five = IZR 5 /\
  ~ centred (n_over sh_five) (sub_image sh_five flat (fun _ _ => 1) 1 0 0) /\
  (forall a b, (0 <= a < 5)%Z -> (0 <= b < 5)%Z -> (a, b) <> (1, 1)%Z -> sub_image sh_five flat (fun _ _ => 1) 1 0 0 a b = 0).
Proof.
  assert (E : forall a b, (0 <= a < 5)%Z -> (0 <= b < 5)%Z -> sub_image sh_five flat (fun _ _ => 1) 1 0 0 a b = if ((a =? 1) && (b =? 1))%Z%bool then 625 else 0).
  { intros a b Ha Hb. unfold sub_image. change (s_os sh_five) with 1%Z. rewrite bin1, flat_full; try assumption; [|exact five_usable|reflexivity|exact five_interp].
    change (fft_pad sh_five) with 5%Z. change (round_div 5 2) with 2%Z.
    assert (Q : forall c, (0 <= c < 5)%Z -> ((2 - 1 - c) mod 5 =? 0)%Z = (c =? 1)%Z).
    { intros c Hc. assert (c = 0 \/ c = 1 \/ c = 2 \/ c = 3 \/ c = 4)%Z as [-> | [-> | [-> | [-> | ->]]]] by lia; reflexivity. }
    rewrite !Q by auto. destruct ((a =? 1) && (b =? 1))%Z%bool; ring. }
  change (n_over sh_five) with 5%Z. split; [exact five_usable|]. split; [exact five_waves|]. split.
  - intro H. specialize (H 1%Z 1%Z ltac:(lia) ltac:(lia)). cbv beta in H. change (5 - 1 - 1)%Z with 3%Z in H. rewrite !E in H by lia.
    change ((1 =? 1) && (1 =? 1))%Z%bool with true in H. change ((3 =? 1) && (3 =? 1))%Z%bool with false in H. cbv iota in H. lra.
  - intros a b Ha Hb N. rewrite E by auto. destruct (Z.eqb_spec a 1); [|reflexivity]. destruct (Z.eqb_spec b 1); [subst; tauto|reflexivity].
Qed.
Print Assumptions C162_odd_refuted.

Example C162_instance :
  usable sh_three /\ (2 <= nx_interp sh_three)%Z /\ (s_px sh_three mod 2 = 1)%Z /\ (fft_pad sh_three mod 4 = 3)%Z /\ sub_image sh_three flat (fun _ _ => 1) 1 0 0 1 1 = 81.
Proof.
  split; [exact three_usable|]. rewrite three_interp. split; [lia|]. split; [reflexivity|]. split; [reflexivity|]. rewrite three_image by lia. reflexivity.
Qed.

(** C163: the light of a sub-aperture does not depend on the wavefront... *)
Theorem C163_light :
  forall o phase mask fill x y, usable o ->
  all_light (n_over o) (sub_image o (efield phase) mask fill x y) =
  fill * (IZR (fft_pad o) * IZR (fft_pad o)) * all_light (nx_interp o) (fun i j => mask (x + i)%Z (y + j)%Z * mask (x + i)%Z (y + j)%Z).
Proof.
  intros o phase mask fill x y U. rewrite image_light by auto. f_equal. unfold all_light. apply rsum_ext. intros i _. apply rsum_ext. intros j _.
  unfold efield. rewrite cis_norm. ring.
Qed.
Print Assumptions C163_light.

(** ... nor does the image depend on piston, or on the wavefront outside the lit part of the sub-aperture. *)
Theorem C163_own_wavefront :
  forall o phase phase' mask fill x y p, usable o ->
  (forall i j, (0 <= i < nx_interp o)%Z -> (0 <= j < nx_interp o)%Z -> mask (x + i)%Z (y + j)%Z <> 0 -> phase' (x + i)%Z (y + j)%Z = phase (x + i)%Z (y + j)%Z + p) ->
  forall a b, sub_image o (efield phase') mask fill x y a b = sub_image o (efield phase) mask fill x y a b.
Proof.
  intros o phase phase' mask fill x y p U H. destruct (usable_facts o U) as (HP & _). apply (image_same o _ _ mask mask fill x y (cis p)); [apply cis_norm|exact HP|].
  intros i j Hi Hj. destruct (Req_dec (mask (x + i)%Z (y + j)%Z) 0) as [Z|Z]; [rewrite Z; ring|]. unfold efield. rewrite H, cis_add by auto. ring.
Qed.
Print Assumptions C163_own_wavefront.

Example C163_instance :
  exists phase phase' mask, usable sh_three /\ phase' 3%Z 3%Z <> phase 3%Z 3%Z + 1 /\ phase 0%Z 1%Z <> phase 1%Z 1%Z /\ mask 1%Z 1%Z = 1 /\
  (forall i j, (0 <= i < nx_interp sh_three)%Z -> (0 <= j < nx_interp sh_three)%Z -> mask (0 + i)%Z (0 + j)%Z <> 0 -> phase' (0 + i)%Z (0 + j)%Z = phase (0 + i)%Z (0 + j)%Z + 1) /\
  all_light (nx_interp sh_three) (fun i j => mask (0 + i)%Z (0 + j)%Z * mask (0 + i)%Z (0 + j)%Z) = 9.
Proof.
  exists (fun u v => IZR u), (fun u v => if (u <? 3)%Z then IZR u + 1 else 0), (fun _ _ => 1). split; [exact three_usable|]. split; [cbn; lra|]. split; [lra|]. split; [reflexivity|]. rewrite three_interp. split.
  - intros i j Hi Hj _. rewrite Z.add_0_l. destruct (Z.ltb_spec i 3); [reflexivity|lia].
  - unfold all_light, rsum. change (Z.to_nat 3) with 3%nat. cbn [rsumn]. ring.
Qed.

(** C164: exchanging the axes of the wavefront and of the mask exchanges the axes of the spots. *)
Theorem C164_exchanged :
  forall o e mask fill x y a b,
  sub_image o (fun u v => e v u) (fun u v => mask v u) fill y x b a = sub_image o e mask fill x y a b.
Proof. exact image_T. Qed.
Print Assumptions C164_exchanged.
Example C164_instance :
  sub_image sh_two (tilted sh_two (pixel_scale sh_two) 0 flat) (fun _ _ => 1) 1 0 0 0 1 = 16 /\
  sub_image sh_two (tilted sh_two 0 (pixel_scale sh_two) flat) (fun _ _ => 1) 1 0 0 1 0 = 16.
Proof.
  split.
  - replace (pixel_scale sh_two) with (IZR 1 * pixel_scale sh_two) by ring. replace 0 with (IZR 0 * pixel_scale sh_two) at 1 by ring.
    rewrite (C161_moves_partial sh_two flat (fun _ _ => 1) 1 0 0 1 0 2 two_usable two_waves) by (change (n_over sh_two) with 2%Z; lia).
    unfold moved. change (n_over sh_two) with 2%Z. change ((0 + 1) mod 2)%Z with 1%Z. change ((1 + 0) mod 2)%Z with 1%Z. rewrite two_image by lia. reflexivity.
  - replace (pixel_scale sh_two) with (IZR 1 * pixel_scale sh_two) by ring. replace 0 with (IZR 0 * pixel_scale sh_two) at 1 by ring.
    rewrite (C161_moves_partial sh_two flat (fun _ _ => 1) 1 0 0 0 1 2 two_usable two_waves) by (change (n_over sh_two) with 2%Z; lia).
    unfold moved. change (n_over sh_two) with 2%Z. change ((0 + 1) mod 2)%Z with 1%Z. change ((1 + 0) mod 2)%Z with 1%Z. rewrite two_image by lia. reflexivity.
Qed.

(** Slopes are affine functions of the commands. *)
From Coq Require Import ZArith List FunctionalExtensionality.
From Flocq Require Import Core BinarySingleNaN.
From Verif.Base Require Import Float64.
From Verif.Model Require Import FloatInterp FloatLos FloatFootprint FloatLoop FloatGradChain FloatDriven FloatWhole.
From Verif.Spec Require Import FloatLoopSpec FloatDotSpec FloatInterpSpec FloatLosSpec FloatFootprintSpec FloatGradSpec FloatGradChainSpec FloatMirrorSpec FloatDrivenSpec FloatWholeSpec.
From Verif.Proofs Require Import FloatLoopProofs FloatInterpProofs FloatGradProofs FloatDrivenProofs FloatDrivenFrame FloatWholeProofs.
From Coq Require Import Reals Bool Lia Lra.
From Verif.Model Require Import FloatInteraction.
From Verif.Spec Require Import FloatInteractionSpec.
Import ListNotations.
Local Open Scope R_scope.

Definition lin (F : (nat -> R) -> R) : Prop := forall a r s, F (fun x => a * r x + s x) = a * F r + F s.
Definition one (x y : nat) : R := if Nat.eqb y x then 1 else 0.
Lemma lin_zero F : lin F -> F (fun _ => 0) = 0.
Proof. intro L. pose proof (L 1 (fun _ => 0) (fun _ => 0)) as H. cbn beta in H. replace (fun _ : nat => 1 * 0 + 0) with (fun _ : nat => 0) in H by (extensionality x; ring). lra. Qed.
Lemma lin_sum F n r : lin F -> F (fun x => if Nat.ltb x n then r x else 0) = sum_to n (fun x => r x * F (one x)).
Proof.
  intro L. induction n as [|n IH]; [cbn [sum_to]; transitivity (F (fun _ => 0)); [f_equal; extensionality x; reflexivity|apply lin_zero, L]|]. cbn [sum_to]. rewrite <- IH.
  replace (fun x => if Nat.ltb x (S n) then r x else 0) with (fun x => r n * one n x + (if Nat.ltb x n then r x else 0)); [rewrite L; ring|].
  extensionality x. unfold one. destruct (Nat.eqb_spec x n) as [E|N]; destruct (Nat.ltb_spec x n); destruct (Nat.ltb_spec x (S n)); try lia; try subst x; ring.
Qed.
(** [comb]: the sum of influence functions times real commands from number s on, [surf] without its mean, [scr] on its screen, [mirr] seen through a pixel *)
Fixpoint comb (s : nat) (infl : list (nat -> nat -> b64)) (r : nat -> R) (i j : nat) : R := match infl with [] => 0 | f :: l => r s * B2R (f i j) + comb (S s) l r i j end.
Definition surf (nx s : nat) (infl : list (nat -> nat -> b64)) (r : nat -> R) (i j : nat) : R := comb s infl r i j - mean_of nx (comb s infl r).
Definition scr (nx pad s : nat) (infl : list (nat -> nat -> b64)) (r : nat -> R) (i j : Z) : R :=
  if (((Z.of_nat pad <=? i) && (i <? Z.of_nat pad + Z.of_nat nx)) && ((Z.of_nat pad <=? j) && (j <? Z.of_nat pad + Z.of_nat nx)))%Z%bool
  then surf nx s infl r (Z.to_nat (i - Z.of_nat pad)) (Z.to_nat (j - Z.of_nat pad)) else 0.
Fixpoint mirr (g : grad_sensor) (p q : Z) (s : nat) (ms : list mirror64) (r : nat -> R) : R :=
  match ms with
  | [] => 0
  | m :: l => let n := (Z.of_nat (mm_nx m) + 2 * Z.of_nat (mm_pad m))%Z in
      bilinear (scr (mm_nx m) (mm_pad m) s (mm_infl m) r) (nearest_on n (footprint (gs_geo g) (B2R (gs_posx g)) (B2R (mm_alt m)) p))
        (nearest_on n (footprint (gs_geo g) (B2R (gs_posy g)) (B2R (mm_alt m)) q)) + mirr g p q (s + length (mm_infl m)) l r
  end.
Lemma comb_lin infl : forall s i j, lin (fun r => comb s infl r i j).
Proof. induction infl as [|f l IH]; intros s i j a r t; cbn [comb]; [ring|]. pose proof (IH (S s) i j a r t) as H. cbn beta in H. rewrite H. ring. Qed.
Lemma mean_lin nx a p q : mean_of nx (fun i j => a * p i j + q i j) = a * mean_of nx p + mean_of nx q.
Proof.
  unfold mean_of. rewrite (sum_ext nx _ (fun i => a * sum_to nx (fun j => p i j) + sum_to nx (fun j => q i j))) by (intros i _; rewrite sum_add, sum_scale; reflexivity). rewrite sum_add, (sum_scale nx a (fun i => sum_to nx (fun j => p i j))). unfold Rdiv. ring.
Qed.
Lemma surf_lin nx s infl i j : lin (fun r => surf nx s infl r i j).
Proof.
  intros a r t. unfold surf. replace (comb s infl (fun x => a * r x + t x)) with (fun i j => a * comb s infl r i j + comb s infl t i j) by (extensionality u; extensionality v; symmetry; apply (comb_lin infl s u v)). rewrite mean_lin. ring.
Qed.
Lemma scr_lin nx pad s infl i j : lin (fun r => scr nx pad s infl r i j).
Proof. intros a r t. unfold scr. destruct (_ && _)%bool; [apply (surf_lin nx s infl)|ring]. Qed.
Lemma bilinear_lin f g a x y : bilinear (fun i j => a * f i j + g i j) x y = a * bilinear f x y + bilinear g x y.
Proof. unfold bilinear, straight. ring. Qed.
Lemma mirr_lin g p q ms : forall s, lin (mirr g p q s ms).
Proof.
  induction ms as [|m l IH]; intros s a r t; cbn [mirr]; cbv zeta; [ring|]. rewrite (IH _ a r t).
  replace (scr (mm_nx m) (mm_pad m) s (mm_infl m) (fun x => a * r x + t x)) with (fun i j => a * scr (mm_nx m) (mm_pad m) s (mm_infl m) r i j + scr (mm_nx m) (mm_pad m) s (mm_infl m) t i j) by (extensionality u; extensionality v; symmetry; apply (scr_lin _ _ _ _ u v)).
  rewrite bilinear_lin. ring.
Qed.
Lemma comb_upto infl r r' : forall s i j, (forall x, (s <= x < s + length infl)%nat -> r x = r' x) -> comb s infl r i j = comb s infl r' i j.
Proof. induction infl as [|f l IH]; intros s i j H; [reflexivity|]. cbn [comb length] in *. rewrite (H s) by lia. rewrite (IH (S s)) by (intros; apply H; lia). reflexivity. Qed.
Lemma mirr_upto g p q ms r r' : forall s, (forall x, (s <= x < s + fold_right (fun m n => (length (mm_infl m) + n)%nat) 0%nat ms)%nat -> r x = r' x) -> mirr g p q s ms r = mirr g p q s ms r'.
Proof.
  induction ms as [|m l IH]; intros s H; [reflexivity|]. cbn [mirr fold_right] in *. cbv zeta. rewrite (IH (s + length (mm_infl m))%nat) by (intros; apply H; lia). f_equal. f_equal. unfold scr, surf.
  replace (comb s (mm_infl m) r) with (comb s (mm_infl m) r'); [reflexivity|]. extensionality i. extensionality j. apply comb_upto. intros x Hx. symmetry. apply H. lia.
Qed.
Lemma comb_eq c infl : forall s i j, combined infl (map (fun u => nth (s + u) c fzero) (seq 0 (length infl))) i j = comb s infl (fun x => B2R (nth x c fzero)) i j.
Proof.
  induction infl as [|f l IH]; intros s i j; [reflexivity|]. cbn [length seq map comb]. rewrite <- seq_shift, map_map. rewrite Nat.add_0_r.
  change (combined (f :: l) (nth s c fzero :: map (fun x => nth (s + S x) c fzero) (seq 0 (length l))) i j) with (B2R (nth s c fzero) * B2R (f i j) + combined l (map (fun x => nth (s + S x) c fzero) (seq 0 (length l))) i j). f_equal.
  rewrite <- IH. f_equal. apply map_ext. intro u. f_equal. lia.
Qed.
Lemma mirr_eq g p q c ms : forall s, exact_mirrors g p q (shares s ms c) = mirr g p q s ms (fun x => B2R (nth x c fzero)).
Proof.
  induction ms as [|m l IH]; intro s; [reflexivity|]. cbn [shares mirr]. cbv zeta. rewrite <- IH. unfold exact_mirrors. cbn [map fold_right fst snd]. cbv zeta. f_equal. f_equal. extensionality i. extensionality j. unfold exact_screen, scr, exact_surface, surf.
  replace (combined (mm_infl m) (map (fun i0 => nth (s + i0) c fzero) (seq 0 (length (mm_infl m))))) with (comb s (mm_infl m) (fun x => B2R (nth x c fzero))); [reflexivity|]. extensionality u. extensionality v. symmetry. apply comb_eq.
Qed.
Lemma best_lin (x : bool) step w a p q : (if x then best_x else best_y) step w (fun i j => a * p i j + q i j) = a * (if x then best_x else best_y) step w p + (if x then best_x else best_y) step w q.
Proof.
  assert (H : forall T : nat -> nat -> R, sum_to w (fun i => sum_to w (fun j => (a * p i j + q i j - mean_of w (fun i j => a * p i j + q i j)) * T i j)) =
    a * sum_to w (fun i => sum_to w (fun j => (p i j - mean_of w p) * T i j)) + sum_to w (fun i => sum_to w (fun j => (q i j - mean_of w q) * T i j))).
  { intro T. rewrite mean_lin. rewrite <- sum_scale, <- sum_add. apply sum_ext. intros i _. rewrite <- sum_scale, <- sum_add. apply sum_ext. intros j _. ring. }
  destruct x; unfold best_x, best_y; [rewrite (H (fun _ j => minus_tilt step w j))|rewrite (H (fun i _ => minus_tilt step w i))]; unfold Rdiv; ring.
Qed.
(** what a sensor sees of the mirrors with real commands, and its slope *)
Definition through (step : grad_sensor -> R) (ms : list mirror64) (k : meas) (r : nat -> R) : R :=
  let g := me_sensor k in
  (if me_x k then best_x else best_y) (step g) (gs_w g) (fun i j => B2R (gs_mask g i j) * (B2R (gs_c g) * - mirr g (gs_row g + Z.of_nat i) (gs_col g + Z.of_nat j) 0 ms r)).
Lemma through_lin step ms k : lin (through step ms k).
Proof.
  intros a r t. unfold through. cbv zeta. rewrite <- best_lin. f_equal. extensionality i. extensionality j. rewrite (mirr_lin (me_sensor k) _ _ ms 0%nat a r t). ring.
Qed.
Definition atmosphere (step : grad_sensor -> R) (screens : list (farr * b64)) (k : meas) : R :=
  let g := me_sensor k in
  (if me_x k then best_x else best_y) (step g) (gs_w g) (fun i j => B2R (gs_mask g i j) * (B2R (gs_c g) * exact_seen (gs_geo g) (gs_posx g) (gs_posy g) (gs_row g + Z.of_nat i) (gs_col g + Z.of_nat j) screens)).
Lemma slope_split step screens ms c k : exact_slope step screens ms c k = atmosphere step screens k + through step ms k (fun x => B2R (nth x c fzero)).
Proof.
  unfold exact_slope, atmosphere, through. cbv zeta. rewrite <- (Rmult_1_l ((if me_x k then best_x else best_y) _ _ (fun i j => B2R (gs_mask (me_sensor k) i j) * (B2R (gs_c (me_sensor k)) * exact_seen _ _ _ _ _ screens)))). rewrite <- best_lin. f_equal.
  extensionality i. extensionality j. unfold exact_residual. rewrite mirr_eq. ring.
Qed.
Lemma atmosphere_none step k : atmosphere step [] k = 0.
Proof.
  unfold atmosphere. cbv zeta. set (w := gs_w (me_sensor k)). assert (Z : (fun i j : nat => B2R (gs_mask (me_sensor k) i j) * (B2R (gs_c (me_sensor k)) * exact_seen (gs_geo (me_sensor k)) (gs_posx (me_sensor k)) (gs_posy (me_sensor k)) (gs_row (me_sensor k) + Z.of_nat i) (gs_col (me_sensor k) + Z.of_nat j) [])) = (fun _ _ => 0)).
  { extensionality i. extensionality j. unfold exact_seen. cbn. ring. }
  rewrite Z. pose proof (best_lin (me_x k) (step (me_sensor k)) w 1 (fun _ _ => 0) (fun _ _ => 0)) as H. cbn beta in H. replace (fun _ _ : nat => 1 * 0 + 0) with (fun _ _ : nat => 0) in H by (extensionality i; extensionality j; ring). lra.
Qed.
Lemma through_upto step ms k r r' : (forall x, (x < actuators ms)%nat -> r x = r' x) -> through step ms k r = through step ms k r'.
Proof. intro H. unfold through. cbv zeta. f_equal. extensionality i. extensionality j. rewrite (mirr_upto _ _ _ ms r r' 0%nat); [reflexivity|]. intros x Hx. apply H. exact (proj2 Hx). Qed.
Lemma affine step screens ms c k : exact_slope step screens ms c k =
  exact_slope step screens ms (no_command (actuators ms)) k + sum_to (actuators ms) (fun x => B2R (nth x c fzero) * poke step ms (actuators ms) x k).
Proof.
  destruct (ofZ_correct 0 ltac:(lia)) as [_ V0]. destruct (ofZ_correct 1 ltac:(lia)) as [_ V1]. rewrite (slope_split step screens ms c), (slope_split step screens ms (no_command _)). set (n := actuators ms).
  assert (N0 : through step ms k (fun x => B2R (nth x (no_command n) fzero)) = 0).
  { rewrite <- (lin_zero _ (through_lin step ms k)). f_equal. extensionality x. unfold no_command. rewrite nth_repeat. exact V0. }
  rewrite N0. replace (through step ms k (fun x => B2R (nth x c fzero))) with (through step ms k (fun x => if Nat.ltb x n then B2R (nth x c fzero) else 0)) by (apply through_upto; intros x Hx; destruct (Nat.ltb_spec x n); [reflexivity|unfold n in *; lia]).
  rewrite (lin_sum _ n (fun x => B2R (nth x c fzero)) (through_lin step ms k)). rewrite Rplus_0_r. f_equal. apply sum_ext. intros x Hx. f_equal. unfold poke. rewrite slope_split, atmosphere_none, Rplus_0_l. apply through_upto. intros y Hy. fold n in Hy.
  unfold one, one_command. rewrite (nth_indep _ fzero (ofZ64 (if Nat.eqb 0 x then 1 else 0))) by (rewrite map_length, seq_length; exact Hy). rewrite (map_nth (fun y => ofZ64 (if Nat.eqb y x then 1 else 0)) (seq 0 n) 0%nat y), seq_nth by exact Hy. cbn [Nat.add]. destruct (Nat.eqb y x); [rewrite V1|rewrite V0]; reflexivity.
Qed.
Lemma command_lin me : forall row f g (h : nat -> meas -> R) n r, (forall k, f k = g k + sum_to n (fun x => r x * h x k)) -> exact_command f me row = exact_command g me row + sum_to n (fun x => r x * exact_command (h x) me row).
Proof.
  induction me as [|k me IH]; intros [|b row] f g h n r H.
  1-3: unfold exact_command; cbn; rewrite (sum_ext n _ (fun _ => 0 * 0)) by (intros; ring); rewrite sum_scale; ring.
  change (exact_command f (k :: me) (b :: row)) with (B2R b * f k + exact_command f me row). change (exact_command g (k :: me) (b :: row)) with (B2R b * g k + exact_command g me row).
  rewrite (IH row f g h n r H), H. rewrite (sum_ext n (fun x => r x * exact_command (h x) (k :: me) (b :: row)) (fun x => B2R b * (r x * h x k) + r x * exact_command (h x) me row)) by (intros x _; change (exact_command (h x) (k :: me) (b :: row)) with (B2R b * h x k + exact_command (h x) me row); ring).
  rewrite sum_add, (sum_scale n (B2R b) (fun x => r x * h x k)). ring.
Qed.
Lemma pick n x (d : nat -> R) : (x < n)%nat -> sum_to n (fun y => d y * (if Nat.eqb x y then 1 else 0)) = d x.
Proof.
  induction n as [|n IH]; intro H; [lia|]. cbn [sum_to]. destruct (Nat.eqb_spec x n) as [->|N]; [|rewrite IH by lia; ring]. rewrite (sum_ext n _ (fun _ => 0 * 0)); [rewrite sum_scale; ring|]. intros y Hy. destruct (Nat.eqb_spec n y); [lia|ring].
Qed.
Lemma sum_abs_le n f : Rabs (sum_to n f) <= sum_to n (fun x => Rabs (f x)).
Proof. induction n as [|n IH]; cbn [sum_to]; [rewrite Rabs_R0; lra|]. eapply Rle_trans; [apply Rabs_triang|]. lra. Qed.

Lemma weighted n E d A : (forall y, (y < n)%nat -> Rabs (d y) <= E) -> Rabs (sum_to n (fun y => d y * A y)) <= E * sum_to n (fun y => Rabs (A y)).
Proof. intro H. eapply Rle_trans; [apply sum_abs_le|]. rewrite <- sum_scale. apply sum_le. intros y Hy. rewrite Rabs_mult. apply Rmult_le_compat_r; [apply Rabs_pos|apply H, Hy]. Qed.
Lemma does_correct step theta h G me ms ctrl b range delta eta S0 P e t screens : 0 <= range -> length ctrl = actuators ms -> inverts step me ms (actuators ms) ctrl delta -> nulls step me ms (actuators ms) ctrl eta t screens ->
  slopes_within step me ms (actuators ms) S0 P t screens -> not_extreme step theta h G me ms b (actuators ms) range e t screens ->
  corrects step theta h G me ms ctrl b (actuators ms) range delta eta (S0 + range * P) e t screens.
Proof.
  intros R0 LC HI HN HS HX c E HW HE. pose proof HW as [LW HD]. assert (HWr : fl_within (actuators ms) t c range) by (split; [exact LW|]; intros x Hx; destruct (HD x Hx) as [F D]; split; [exact F|lra]). split.
  - intros k Hk. destruct (HX c k HWr Hk) as [X1 X2]. split; [exact X1|]. split; [exact X2|]. destruct (HS k Hk) as [S1 S2]. rewrite affine.
    replace (exact_slope step screens ms (no_command (actuators ms)) k + sum_to (actuators ms) (fun x => B2R (nth x c fzero) * poke step ms (actuators ms) x k))
      with ((exact_slope step screens ms (no_command (actuators ms)) k + sum_to (actuators ms) (fun x => t x * poke step ms (actuators ms) x k)) + - sum_to (actuators ms) (fun x => (t x - B2R (nth x c fzero)) * poke step ms (actuators ms) x k)).
    + eapply Rle_trans; [apply Rabs_triang|]. rewrite Rabs_Ropp. apply Rplus_le_compat; [exact S1|]. eapply Rle_trans; [apply (weighted _ range)|apply Rmult_le_compat_l; assumption]. intros y Hy. apply (proj2 HWr y Hy).
    + rewrite (sum_ext _ (fun x => t x * poke step ms (actuators ms) x k) (fun x => (t x - B2R (nth x c fzero)) * poke step ms (actuators ms) x k + B2R (nth x c fzero) * poke step ms (actuators ms) x k)) by (intros; ring). rewrite sum_add. ring.
  - intros x row Hr. assert (Hx : (x < actuators ms)%nat) by (rewrite <- LC; apply nth_error_Some; rewrite Hr; discriminate).
    rewrite (command_lin me row _ _ _ (actuators ms) (fun x => B2R (nth x c fzero)) (affine step screens ms c)). pose proof (HN x row Hr) as N1. pose proof (HI x row Hr) as I1. unfold open_command in N1.
    set (A := fun y => exact_command (poke step ms (actuators ms) y) me row) in *. set (d := fun y => t y - B2R (nth y c fzero)).
    replace (exact_command (exact_slope step screens ms (no_command (actuators ms))) me row + sum_to (actuators ms) (fun y => B2R (nth y c fzero) * exact_command (poke step ms (actuators ms) y) me row) - (t x - B2R (nth x c fzero)))
      with (- sum_to (actuators ms) (fun y => d y * (A y + (if Nat.eqb x y then 1 else 0))) + (exact_command (exact_slope step screens ms (no_command (actuators ms))) me row + sum_to (actuators ms) (fun y => t y * A y))).
    + eapply Rle_trans; [apply Rabs_triang|]. rewrite Rabs_Ropp. apply Rplus_le_compat; [|exact N1]. assert (E0 : 0 <= E) by (destruct (HD x Hx) as [_ D]; pose proof (Rabs_pos (t x - B2R (nth x c fzero))); lra).
      eapply Rle_trans; [apply (weighted _ E); intros y Hy; apply (proj2 (HD y Hy))|]. rewrite Rmult_comm. apply Rmult_le_compat_r; [exact E0|exact I1].
    + rewrite (sum_ext _ (fun y => d y * (A y + _)) (fun y => d y * A y + d y * (if Nat.eqb x y then 1 else 0))) by (intros; ring). rewrite sum_add, (pick _ x d Hx).
      rewrite (sum_ext _ (fun y => t y * A y) (fun y => d y * A y + B2R (nth y c fzero) * A y)) by (intros; unfold d; ring). rewrite sum_add. unfold d at 2. unfold A. ring.
Qed.
Lemma acts_total lm : fl_total (integrators lm) = actuators (map fst lm).
Proof. induction lm as [|m l IH]; [reflexivity|]. cbn [integrators map fl_total fold_right actuators]. unfold fl_total, integrators, actuators in *. rewrite <- IH. reflexivity. Qed.
Lemma minus_one x : is_finite x = true -> is_finite (mul64 (ofZ64 (-1)) x) = true /\ B2R (mul64 (ofZ64 (-1)) x) = - B2R x.
Proof.
  intro F. destruct (ofZ_correct (-1) ltac:(lia)) as [F1 V1]. pose proof (@Bmult_correct 53 1024 prec64 emax64 mode_NE (ofZ64 (-1)) x) as C. rewrite V1 in C.
  assert (R1 : round radix2 (SpecFloat.fexp 53 1024) (round_mode mode_NE) (-1 * B2R x) = - B2R x).
  { replace (-1 * B2R x) with (- B2R x) by ring. apply round_generic; [apply valid_rnd_round_mode|]. apply generic_format_opp. apply generic_format_B2R. }
  rewrite R1 in C. rewrite Rlt_bool_true in C by (rewrite Rabs_Ropp; apply abs_B2R_lt_emax). destruct C as (C1 & C2 & _). rewrite F1, F in C2. split; [exact C2|exact C1].
Qed.
Lemma poked_is total x : (x < total)%nat -> poked total x = one_command total x.
Proof.
  intro H. unfold poked, one_command. replace total with (x + S (total - x - 1))%nat at 2 by lia. rewrite seq_app, map_app. f_equal.
  - rewrite <- (seq_length x 0) at 1. generalize (fun y (Hy : In y (seq 0 x)) => proj1 (in_seq x 0 y) Hy). generalize (seq 0 x). intros l Hl. induction l as [|y l IH]; [reflexivity|]. cbn [length repeat map]. rewrite <- IH by (intros; apply Hl; right; assumption).
    destruct (Nat.eqb_spec y x); [pose proof (Hl y (or_introl eq_refl)); lia|reflexivity].
  - cbn [Nat.add seq map]. rewrite Nat.eqb_refl. f_equal. rewrite <- (seq_length (total - x - 1) (S x)) at 1. generalize (fun y (Hy : In y (seq (S x) (total - x - 1))) => proj1 (in_seq _ _ y) Hy). generalize (seq (S x) (total - x - 1)). intros l Hl. induction l as [|y l IH]; [reflexivity|].
    cbn [length repeat map]. rewrite <- IH by (intros; apply Hl; right; assumption). destruct (Nat.eqb_spec y x); [pose proof (Hl y (or_introl eq_refl)); lia|reflexivity].
Qed.
Lemma blank_seen g px py p q size alts : exact_seen g px py p q (no_turbulence size alts) = 0.
Proof.
  destruct (ofZ_correct 0 ltac:(lia)) as [_ V0]. unfold exact_seen, no_turbulence. induction alts as [|a l IH]; [reflexivity|]. cbn [map fold_right]. rewrite IH. cbn [fst snd fa_rows fa_cols]. unfold bilinear, straight, numbers. cbn [fa_at]. rewrite V0. ring.
Qed.
Lemma blank_slope step size alts ms total x k : exact_slope step (no_turbulence size alts) ms (one_command total x) k = poke step ms total x k.
Proof.
  unfold poke. rewrite !slope_split. f_equal. unfold atmosphere. cbv zeta. f_equal. extensionality i. extensionality j. rewrite blank_seen. reflexivity.
Qed.
Lemma measured_near step theta h G ms b e screens c : length c = actuators ms -> forall me s,
  Forall (fun k => usable (me_sensor k) theta h G (step (me_sensor k))) me ->
  (forall k, In k me -> command_within (me_sensor k) theta h (screens, shares 0 ms c) b /\ slope_error step G (shares 0 ms c) b k <= e) ->
  measured64 me ms screens c s -> Forall2 (fun k x => is_finite x = true /\ Rabs (B2R x - exact_slope step screens ms c k) <= e) me s.
Proof.
  intros L me s HU HK HF. assert (DS : dealt ms c = shares 0 ms c) by (apply (dealt_shares ms c 0); rewrite L; unfold actuators; cbn; lia). unfold measured64 in HF. rewrite DS in HF.
  induction HF as [|k x me s (d & xy & H1 & ->) H IH]; constructor.
  - inversion HU as [|? ? U1 U2]; subst. destruct (HK k (or_introl eq_refl)) as (CW & SE). destruct (driven_frame_ok (me_sensor k) theta h G (step (me_sensor k)) d (screens, shares 0 ms c) b xy U1 CW H1) as (F1 & F2 & D1 & D2).
    unfold exact_slope in *. unfold slope_error in SE. cbn [fst snd] in D1, D2. destruct (me_x k); (split; [assumption|]); (eapply Rle_trans; [eassumption|exact SE]).
  - inversion HU as [|? ? U1 U2]; subst. apply IH; [exact U2|]. intros k' Hk'. apply HK. right. exact Hk'.
Qed.
Lemma row_near f e : forall me s, Forall2 (fun k x => is_finite x = true /\ Rabs (B2R x - f k) <= e) me s -> forall row, length row = length me ->
  Rabs (exact_sum row (map (mul64 (ofZ64 (-1))) s) + exact_command f me row) <= weight row * e.
Proof.
  intros me s H. induction H as [|k x me s [H1 H2] H IH]; intros [|r row] L; try discriminate L.
  - unfold exact_sum, exact_command, weight. cbn. rewrite Rplus_0_l, Rabs_R0. lra.
  - pose proof (IH row ltac:(cbn in L; lia)) as I1. cbn [map]. set (y := mul64 (ofZ64 (-1)) x). assert (Y : B2R y = - B2R x) by exact (proj2 (minus_one x H1)).
    change (exact_sum (r :: row) (y :: map (mul64 (ofZ64 (-1))) s)) with (B2R r * B2R y + exact_sum row (map (mul64 (ofZ64 (-1))) s)).
    change (exact_command f (k :: me) (r :: row)) with (B2R r * f k + exact_command f me row). change (weight (r :: row)) with (Rabs (B2R r) + weight row). rewrite Y.
    match goal with |- Rabs ?a <= _ => replace a with (- (B2R r * (B2R x - f k)) + (exact_sum row (map (mul64 (ofZ64 (-1))) s) + exact_command f me row)) by ring end.
    eapply Rle_trans; [apply Rabs_triang|]. rewrite Rmult_plus_distr_r, Rabs_Ropp, Rabs_mult. apply Rplus_le_compat; [apply Rmult_le_compat_l; [apply Rabs_pos|exact H2]|exact I1].
Qed.
Lemma forall2_seq {B} (P : nat -> B -> Prop) n : forall s l, Forall2 P (seq s n) l -> forall y d, (y < n)%nat -> P (s + y)%nat (nth y l d).
Proof.
  induction n as [|n IH]; intros s l H y d Hy; [lia|]. cbn [seq] in H. inversion H as [|? b ? l' H1 H2]; subst. destruct y as [|y]; [rewrite Nat.add_0_r; exact H1|]. cbn [nth]. replace (s + S y)%nat with (S s + y)%nat by lia. apply IH; [exact H2|lia].
Qed.
Lemma one_length total x : length (one_command total x) = total.
Proof. unfold one_command. rewrite map_length, seq_length. reflexivity. Qed.
Lemma measured_inverts step theta h G me ms size alts ctrl imat b e R1 delta : let total := actuators ms in
  Forall (fun k => usable (me_sensor k) theta h G (step (me_sensor k))) me -> 0 <= e -> Forall (fun row => length row = length me /\ weight row <= R1) ctrl ->
  (forall x k, (x < total)%nat -> In k me -> command_within (me_sensor k) theta h (no_turbulence size alts, shares 0 ms (one_command total x)) b /\ slope_error step G (shares 0 ms (one_command total x)) b k <= e) ->
  imat64 me ms size alts total imat -> inverts_measured total ctrl imat delta -> inverts step me ms total ctrl (delta + INR total * (R1 * e)).
Proof.
  intros total HU E0 HC HK HI HM x row Hr. destruct (proj1 (Forall_forall _ _) HC row (nth_error_In _ _ Hr)) as [LR WR]. pose proof (HM x row Hr) as M1. eapply Rle_trans; [|apply Rplus_le_compat_r; exact M1].
  assert (SC : sum_to total (fun _ => R1 * e * 1) = INR total * (R1 * e)).
  { generalize total. intro n. rewrite sum_scale. assert (Q : sum_to n (fun _ => 1) = INR n) by (induction n as [|n IH]; [reflexivity|]; cbn [sum_to]; rewrite IH, S_INR; reflexivity). rewrite Q. ring. }
  rewrite <- SC, <- sum_add. apply sum_le. intros y Hy. destruct (forall2_seq _ total 0%nat imat HI y [] Hy) as (s & M & E). cbn [Nat.add] in M. rewrite E. rewrite (poked_is total y Hy) in M.
  pose proof (measured_near step theta h G ms b e _ _ (one_length total y) me s HU (fun k Hk => HK y k Hy Hk) M) as N.
  assert (N' : Forall2 (fun k x0 => is_finite x0 = true /\ Rabs (B2R x0 - poke step ms total y k) <= e) me s) by (clear - N; induction N as [|k z me s [N1 N2] _ IH]; constructor; [split; [exact N1|rewrite blank_slope in N2; exact N2]|exact IH]).
  pose proof (row_near _ e me s N' row LR) as D. set (dxy := if Nat.eqb x y then 1 else 0). set (es := exact_sum row (map (mul64 (ofZ64 (-1))) s)) in *. set (ec := exact_command (poke step ms total y) me row) in *.
  replace (ec + dxy) with ((es + ec) + - (es - dxy)) by ring. eapply Rle_trans; [apply Rabs_triang|]. rewrite Rabs_Ropp. assert (weight row * e <= R1 * e) by (apply Rmult_le_compat_r; assumption). lra.
Qed.

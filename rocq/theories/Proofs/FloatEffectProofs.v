(** Proofs on actuators without effect. *)
From Coq Require Import ZArith List.
From Flocq Require Import Core BinarySingleNaN.
From Verif.Base Require Import Float64.
From Verif.Model Require Import FloatInterp FloatGradChain FloatDriven FloatWhole FloatInteraction.
From Verif.Spec Require Import FloatDotSpec FloatGradChainSpec FloatDrivenSpec FloatWholeSpec FloatInteractionSpec.
From Verif.Proofs Require Import FloatInteractionProofs.
From Coq Require Import Reals Bool Lia Lra.
From Verif.Model Require Import FloatEffect.
From Verif.Spec Require Import FloatEffectSpec.
Import ListNotations.
Local Open Scope R_scope.

Lemma abs_fin (x : b64) : is_finite x = true -> is_finite (Babs x) = true /\ B2R (Babs x) = Rabs (B2R x).
Proof. intro F. split; [rewrite is_finite_Babs; exact F|apply B2R_Babs]. Qed.
Lemma max_ok l : Forall (fun x => is_finite x = true) l -> is_finite (abs_max64 l) = true /\ 0 <= B2R (abs_max64 l) /\ (forall x, In x l -> Rabs (B2R x) <= B2R (abs_max64 l)) /\
  (B2R (abs_max64 l) = 0 \/ exists x, In x l /\ Rabs (B2R x) = B2R (abs_max64 l)).
Proof.
  destruct (ofZ_correct 0 ltac:(lia)) as [F0 V0]. intro H. induction H as [|x l F H (IF & I0 & IA & IE)].
  - change (abs_max64 []) with (ofZ64 0). rewrite V0. split; [exact F0|]. split; [lra|]. split; [intros ? []|]. left. reflexivity.
  - change (abs_max64 (x :: l)) with (if lt64 (abs_max64 l) (Babs x) then Babs x else abs_max64 l). destruct (abs_fin x F) as [FA EA]. pose proof (lt_correct _ _ IF FA) as L. rewrite EA in L. destruct (lt64 (abs_max64 l) (Babs x)).
    + pose proof (proj1 L eq_refl) as L'. rewrite EA. split; [exact FA|]. split; [apply Rabs_pos|]. split; [intros y [<-|Hy]; [lra|pose proof (IA y Hy); lra]|]. right. exists x. split; [left; reflexivity|reflexivity].
    + assert (L' : ~ B2R (abs_max64 l) < Rabs (B2R x)) by (intro Q; pose proof (proj2 L Q); discriminate). split; [exact IF|]. split; [exact I0|]. split; [intros y [<-|Hy]; [lra|exact (IA y Hy)]|].
      destruct IE as [E|(y & Hy & E)]; [left; exact E|right; exists y; split; [right; exact Hy|exact E]].
Qed.
Lemma max_is l M : Forall (fun x => is_finite x = true) l -> largest l M -> is_finite (abs_max64 l) = true /\ B2R (abs_max64 l) = M.
Proof.
  intros H [HM (x & Hx & E)]. destruct (max_ok l H) as (F & P & A & C). split; [exact F|]. apply Rle_antisym; [|rewrite <- E; apply A, Hx]. destruct C as [C|(y & Hy & C)]; [rewrite C, <- E; apply Rabs_pos|rewrite <- C; apply HM, Hy].
Qed.
Lemma thousandth_val : is_finite thousandth = true /\ B2R thousandth = 1152921504606847 * / 1152921504606846976.
Proof.
  assert (V : bpow radix2 (-60) = / 1152921504606846976) by reflexivity.
  destruct (lit_correct 1152921504606847 (-60)) as [F E].
  - rewrite V. rewrite Rabs_pos_eq by lra. apply Rle_trans with 1; [lra|]. change 1 with (bpow radix2 0). apply bpow_le. lia.
  - split; [exact F|]. unfold thousandth. rewrite E. rewrite rnd_rep; [rewrite V; reflexivity|]. apply rep_F2R; lia.
Qed.
Lemma threshold m M : is_finite m = true -> B2R m = M -> bpow radix2 (-1000) <= M <= bpow radix2 1000 -> is_finite (mul64 m thousandth) = true /\ below M <= B2R (mul64 m thousandth) <= above M.
Proof.
  intros F E [L U]. destruct thousandth_val as [FT ET]. assert (P : 0 < M) by (pose proof (bpow_gt_0 radix2 (-1000)); lra). set (t := 1152921504606847 * / 1152921504606846976) in *.
  assert (T : / 1024 <= t <= 1) by (unfold t; lra). assert (MT : 0 < M * t) by (apply Rmult_lt_0_compat; lra). assert (MU : M * t <= M) by (rewrite <- (Rmult_1_r M) at 2; apply Rmult_le_compat_l; lra).
  destruct (mul_correct m thousandth F FT) as [FM EM]; [rewrite E, ET, Rabs_pos_eq; lra|]. split; [exact FM|]. rewrite EM, E, ET.
  assert (B : bpow radix2 (-1022) <= Rabs (M * t)).
  { rewrite Rabs_pos_eq by lra. apply Rle_trans with (bpow radix2 (-1000) * / 1024); [|apply Rmult_le_compat; try lra; apply bpow_ge_0]. change (/ 1024) with (bpow radix2 (-10)). rewrite <- bpow_plus. apply bpow_le. lia. }
  pose proof (rnd_error (M * t) B) as R1. rewrite (Rabs_pos_eq (M * t)) in R1 by lra. apply Rabs_le_inv in R1. unfold below, above.
  assert (V53 : bpow radix2 (-53) = / 9007199254740992) by reflexivity. assert (V50 : bpow radix2 (-50) = / 1125899906842624) by reflexivity. rewrite V53 in R1. rewrite V50. unfold t in *. lra.
Qed.
Lemma flag_nth imat i : nth_error (effective64 imat) i = match nth_error imat i with Some row => Some (lt64 (mul64 (abs_max64 (concat imat)) thousandth) (abs_max64 row)) | None => None end.
Proof. unfold effective64. cbv zeta. generalize (mul64 (abs_max64 (concat imat)) thousandth). intro t. revert i. induction imat as [|r l IH]; intros [|i]; try reflexivity. exact (IH i). Qed.
Lemma concat_fin imat : Forall all_finite imat -> Forall (fun x : b64 => is_finite x = true) (concat imat).
Proof. intro H. induction H as [|r l H1 _ IH]; [constructor|]. cbn [concat]. apply Forall_app. split; [exact H1|exact IH]. Qed.
Lemma kept_marked imat : kept64 imat = marked (effective64 imat) imat.
Proof.
  unfold kept64, effective64. cbv zeta. generalize (mul64 (abs_max64 (concat imat)) thousandth). intro t. induction imat as [|r l IH]; [reflexivity|]. cbn [map combine filter marked fst]. destruct (lt64 t (abs_max64 r)); cbn [map snd]; rewrite IH; reflexivity.
Qed.
Lemma effective_ok imat M : Forall all_finite imat -> largest (concat imat) M -> bpow radix2 (-1000) <= M <= bpow radix2 1000 ->
  length (effective64 imat) = length imat /\ kept64 imat = marked (effective64 imat) imat /\ (exists i, nth_error (effective64 imat) i = Some true) /\
  forall i row, nth_error imat i = Some row ->
    ((exists x, In x row /\ above M < Rabs (B2R x)) -> nth_error (effective64 imat) i = Some true) /\
    ((forall x, In x row -> Rabs (B2R x) < below M) -> nth_error (effective64 imat) i = Some false) /\
    (nth_error (effective64 imat) i = Some false -> forall x, In x row -> Rabs (B2R x) <= above M) /\
    (nth_error (effective64 imat) i = Some true -> exists x, In x row /\ below M < Rabs (B2R x)).
Proof.
  intros HF HL HM. destruct (max_is _ M (concat_fin imat HF) HL) as [FM EM]. destruct (threshold _ M FM EM HM) as [FT [T1 T2]]. set (t := mul64 (abs_max64 (concat imat)) thousandth) in *.
  assert (V50 : bpow radix2 (-50) = / 1125899906842624) by reflexivity. assert (P : 0 < M) by (pose proof (bpow_gt_0 radix2 (-1000)); lra).
  assert (ROW : forall i row, nth_error imat i = Some row ->
    ((exists x, In x row /\ above M < Rabs (B2R x)) -> nth_error (effective64 imat) i = Some true) /\
    ((forall x, In x row -> Rabs (B2R x) < below M) -> nth_error (effective64 imat) i = Some false) /\
    (nth_error (effective64 imat) i = Some false -> forall x, In x row -> Rabs (B2R x) <= above M) /\
    (nth_error (effective64 imat) i = Some true -> exists x, In x row /\ below M < Rabs (B2R x))).
  { intros i row Hr. rewrite flag_nth, Hr. fold t. destruct (max_ok row (proj1 (Forall_forall _ _) HF row (nth_error_In _ _ Hr))) as (F & P0 & A & C). pose proof (lt_correct t _ FT F) as L. assert (B0 : 0 < below M) by (unfold below; rewrite V50; lra). split; [|split; [|split]].
    - intros (x & Hx & Q). f_equal. apply L. pose proof (A x Hx). lra.
    - intro Q. f_equal. apply not_true_iff_false. intro Y. apply L in Y. assert (0 < below M) by (unfold below; rewrite V50; lra). destruct C as [C|(x & Hx & C)]; [lra|]. pose proof (Q x Hx). lra.
    - intros Y x Hx. assert (N : ~ B2R t < B2R (abs_max64 row)) by (intro Q; apply L in Q; rewrite Q in Y; discriminate). pose proof (A x Hx). lra.
    - intro Y. apply (f_equal (fun o => match o with Some f => f | None => false end)) in Y. cbn beta iota in Y. apply L in Y. destruct C as [C|(x & Hx & C)]; [lra|]. exists x. split; [exact Hx|lra]. }
  split; [unfold effective64; cbv zeta; apply map_length|]. split; [apply kept_marked|]. split; [|exact ROW].
  destruct HL as [_ (x & Hx & E)]. apply in_concat in Hx. destruct Hx as (row & Hr & Hx). destruct (In_nth_error _ _ Hr) as [i Hi]. exists i. apply (ROW i row Hi). exists x. split; [exact Hx|]. rewrite E. unfold above. rewrite V50. lra.
Qed.

Lemma forall2_in_r {A B} (P : A -> B -> Prop) l m : Forall2 P l m -> forall y, In y m -> exists x, In x l /\ P x y.
Proof. intro H. induction H as [|a b l m H1 _ IH]; intros y Hy; [destruct Hy|]. destruct Hy as [<-|Hy]; [exists a; split; [left; reflexivity|exact H1]|]. destruct (IH y Hy) as (x & Hx & Q). exists x. split; [right; exact Hx|exact Q]. Qed.
Lemma forall2_in_l {A B} (P : A -> B -> Prop) l m : Forall2 P l m -> forall x, In x l -> exists y, In y m /\ P x y.
Proof. intro H. induction H as [|a b l m H1 _ IH]; intros x Hx; [destruct Hx|]. destruct Hx as [<-|Hx]; [exists b; split; [left; reflexivity|exact H1]|]. destruct (IH x Hx) as (y & Hy & Q). exists y. split; [right; exact Hy|exact Q]. Qed.
Lemma measured_rows step theta h G me ms size alts imat b e : let total := actuators ms in
  Forall (fun k => usable (me_sensor k) theta h G (step (me_sensor k))) me ->
  (forall x k, (x < total)%nat -> In k me -> command_within (me_sensor k) theta h (no_turbulence size alts, shares 0 ms (one_command total x)) b /\ slope_error step G (shares 0 ms (one_command total x)) b k <= e) ->
  imat64 me ms size alts total imat ->
  Forall2 (fun x row => Forall2 (fun k y => is_finite y = true /\ Rabs (B2R y + poke step ms total x k) <= e) me row) (seq 0 total) imat.
Proof.
  intros total HU HK HI. unfold imat64 in HI. assert (IN : forall x, In x (seq 0 total) -> (x < total)%nat) by (intros x Hx; apply in_seq in Hx; lia). revert IN HI. generalize (seq 0 total). intros l IN HI. induction HI as [|x row l im (s & M & ->) HI IH]; constructor; [|apply IH; intros; apply IN; right; assumption].
  pose proof (IN x (or_introl eq_refl)) as Hx. rewrite (poked_is total x Hx) in M. pose proof (measured_near step theta h G ms b e _ _ (one_length total x) me s HU (fun k Hk => HK x k Hx Hk) M) as N. clear - N.
  induction N as [|k y me s [N1 N2] _ IH]; [constructor|]. cbn [map]. constructor; [|exact IH]. destruct (minus_one y N1) as [F E]. split; [exact F|]. rewrite E. rewrite blank_slope in N2. replace (- B2R y + poke step ms total x k) with (- (B2R y - poke step ms total x k)) by ring. rewrite Rabs_Ropp. exact N2.
Qed.
Lemma effect_ok step theta h G me ms size alts imat b e M : let total := actuators ms in
  Forall (fun k => usable (me_sensor k) theta h G (step (me_sensor k))) me ->
  (forall x k, (x < total)%nat -> In k me -> command_within (me_sensor k) theta h (no_turbulence size alts, shares 0 ms (one_command total x)) b /\ slope_error step G (shares 0 ms (one_command total x)) b k <= e) ->
  imat64 me ms size alts total imat -> largest (concat imat) M -> bpow radix2 (-1000) <= M <= bpow radix2 1000 ->
  forall x, (x < total)%nat ->
    (nth_error (effective64 imat) x = Some false -> forall k, In k me -> Rabs (poke step ms total x k) <= above M + e) /\
    (nth_error (effective64 imat) x = Some true -> exists k, In k me /\ below M - e < Rabs (poke step ms total x k)).
Proof.
  intros total HU HK HI HL HM x Hx. pose proof (measured_rows step theta h G me ms size alts imat b e HU HK HI) as R. fold total in R.
  assert (HF : Forall all_finite imat).
  { clear - R. induction R as [|y row l im H _ IH]; constructor; [|exact IH]. unfold all_finite. clear - H. induction H as [|k z me row [F _] _ IH]; constructor; [exact F|exact IH]. }
  destruct (effective_ok imat M HF HL HM) as (_ & _ & _ & ROW). pose proof (forall2_seq _ total 0%nat imat R x [] Hx) as RX. cbn [Nat.add] in RX.
  assert (LI : length imat = total) by (clear - R; rewrite <- (seq_length total 0) at 1; induction R as [|y row l im _ _ IH]; [reflexivity|cbn [length]; rewrite IH; reflexivity]).
  assert (Hr : nth_error imat x = Some (nth x imat [])) by (apply nth_error_nth'; rewrite LI; exact Hx). destruct (ROW x _ Hr) as (_ & _ & A & B). split.
  - intros Hf k Hk. destruct (forall2_in_l _ _ _ RX k Hk) as (y & Hy & _ & D). pose proof (A Hf y Hy) as Q. replace (poke step ms total x k) with ((B2R y + poke step ms total x k) + - B2R y) by ring. eapply Rle_trans; [apply Rabs_triang|]. rewrite Rabs_Ropp. lra.
  - intro Hf. destruct (B Hf) as (y & Hy & Q). destruct (forall2_in_r _ _ _ RX y Hy) as (k & Hk & _ & D). exists k. split; [exact Hk|]. assert (Rabs (B2R y) <= Rabs (B2R y + poke step ms total x k) + Rabs (poke step ms total x k)); [|lra].
    replace (B2R y) with ((B2R y + poke step ms total x k) + - poke step ms total x k) at 1 by ring. eapply Rle_trans; [apply Rabs_triang|]. rewrite Rabs_Ropp. lra.
Qed.

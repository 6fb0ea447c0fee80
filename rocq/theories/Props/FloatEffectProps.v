(** Property theorems C213: actuators without effect are dropped, in floating-point arithmetic. *)
From Coq Require Import ZArith List.
From Flocq Require Import Core BinarySingleNaN.
From Verif.Base Require Import Float64.
From Verif.Model Require Import FloatInterp FloatGradChain FloatDriven FloatWhole FloatInteraction.
From Verif.Spec Require Import FloatDotSpec FloatGradSpec FloatGradChainSpec FloatDrivenSpec FloatWholeSpec FloatInteractionSpec.
From Verif.Proofs Require Import FloatInteractionProofs FloatDrivenFrame.
From Verif.Props Require Import FloatDrivenProps FloatWholeProps FloatInteractionProps.
From Coq Require Import Reals Lia Lra.
From Verif.Model Require Import FloatEffect.
From Verif.Spec Require Import FloatEffectSpec.
From Verif.Proofs Require Import FloatEffectProofs.
Import ListNotations.
Local Open Scope R_scope.

(** C213: a mirror keeps, in their order, the actuators that move some slope by more than 0.1 % of the largest slope in its interaction matrix, up to 2^-50 of that, and drops those that do not; it
    always keeps one. *)
Theorem C213_kept :
  forall (imat : list (list b64)) (M : R), Forall all_finite imat -> largest (concat imat) M -> bpow radix2 (-1000) <= M <= bpow radix2 1000 ->
  length (effective64 imat) = length imat /\ kept64 imat = marked (effective64 imat) imat /\ (exists i, nth_error (effective64 imat) i = Some true) /\
  forall i row, nth_error imat i = Some row ->
    ((exists x, In x row /\ above M < Rabs (B2R x)) -> nth_error (effective64 imat) i = Some true) /\
    ((forall x, In x row -> Rabs (B2R x) < below M) -> nth_error (effective64 imat) i = Some false) /\
    (nth_error (effective64 imat) i = Some false -> forall x, In x row -> Rabs (B2R x) <= above M) /\
    (nth_error (effective64 imat) i = Some true -> exists x, In x row /\ below M < Rabs (B2R x)).
Proof. exact effective_ok. Qed.
Print Assumptions C213_kept.

(** Non-vacuity: of the three actuators the one in the middle is dropped. *)
Definition dp_imat : list (list b64) := [[ofZ64 4000; ofZ64 0]; [ofZ64 3; ofZ64 (-3)]; [ofZ64 0; ofZ64 (-5)]].
Example C213_instance : kept64 dp_imat = [[ofZ64 4000; ofZ64 0]; [ofZ64 0; ofZ64 (-5)]].
Proof.
  destruct (value 4000%Z) as [F1 E1]; [lia|]. destruct (value 0%Z) as [F0 E0]; [lia|]. destruct (value 3%Z) as [F3 E3]; [lia|]. destruct (value (-3)%Z) as [F4 E4]; [lia|]. destruct (value (-5)%Z) as [F5 E5]; [lia|].
  assert (V50 : bpow radix2 (-50) = / 1125899906842624) by reflexivity. assert (A3 : Rabs (-3) = 3) by (rewrite Rabs_left; lra). assert (A5 : Rabs (-5) = 5) by (rewrite Rabs_left; lra). assert (A4 : Rabs 4000 = 4000) by (rewrite Rabs_pos_eq; lra). assert (B3 : Rabs 3 = 3) by (rewrite Rabs_pos_eq; lra).
  destruct (C213_kept dp_imat 4000) as (L & K & _ & R).
  - repeat constructor; assumption.
  - split; [|exists (ofZ64 4000); split; [left; reflexivity|rewrite E1; exact A4]]. intros x H. unfold dp_imat in H. cbn [concat app In] in H.
    destruct H as [<-|[<-|[<-|[<-|[<-|[<-|[]]]]]]]; rewrite ?E1, ?E0, ?E3, ?E4, ?E5, ?A4, ?A3, ?A5, ?B3, ?Rabs_R0; lra.
  - split; [apply Rle_trans with (bpow radix2 0); [apply bpow_le; lia|change (bpow radix2 0) with 1; lra]|apply Rle_trans with (bpow radix2 12); [change (bpow radix2 12) with 4096; lra|apply bpow_le; lia]].
  - assert (N0 : nth_error (effective64 dp_imat) 0 = Some true) by (apply (R 0%nat _ eq_refl); exists (ofZ64 4000); split; [left; reflexivity|rewrite E1, A4; unfold above; rewrite V50; lra]).
    assert (N2 : nth_error (effective64 dp_imat) 2 = Some true) by (apply (R 2%nat _ eq_refl); exists (ofZ64 (-5)); split; [right; left; reflexivity|rewrite E5, A5; unfold above; rewrite V50; lra]).
    assert (N1 : nth_error (effective64 dp_imat) 1 = Some false) by (apply (R 1%nat _ eq_refl); intros x [<-|[<-|[]]]; rewrite ?E3, ?E4, ?A3, ?B3; unfold below; rewrite V50; lra).
    rewrite K. revert L N0 N1 N2. generalize (effective64 dp_imat). intros l L N0 N1 N2. destruct l as [|f0 [|f1 [|f2 [|]]]]; try discriminate L. cbn [nth_error] in N0, N1, N2. injection N0 as ->. injection N1 as ->. injection N2 as ->. reflexivity.
Qed.

(** C213: what is dropped has no effect in exact arithmetic either: a dropped actuator moves no slope by more than 0.1 % of the largest measured one and e, the rounding error of a slope; one that is
    kept moves some slope by 0.1 % less e. *)
Theorem C213_effect :
  forall (step : grad_sensor -> R) (theta h G : R) (me : list meas) (ms : list mirror64) (size : Z) (alts : list b64) (imat : list (list b64)) (b : list R * list R) (e M : R),
  let total := actuators ms in
  Forall (fun k => usable (me_sensor k) theta h G (step (me_sensor k))) me ->
  (forall x k, (x < total)%nat -> In k me -> command_within (me_sensor k) theta h (no_turbulence size alts, shares 0 ms (one_command total x)) b /\ slope_error step G (shares 0 ms (one_command total x)) b k <= e) ->
  imat64 me ms size alts total imat -> largest (concat imat) M -> bpow radix2 (-1000) <= M <= bpow radix2 1000 ->
  forall x, (x < total)%nat ->
    (nth_error (effective64 imat) x = Some false -> forall k, In k me -> Rabs (poke step ms total x k) <= above M + e) /\
    (nth_error (effective64 imat) x = Some true -> exists k, In k me /\ below M - e < Rabs (poke step ms total x k)).
Proof. exact effect_ok. Qed.
Print Assumptions C213_effect.

(** Non-vacuity: the mirror of C212_measured_instance keeps its actuator. *)
Example C213_effect_instance : exists imat M, imat64 tl_me [tilter] 64 [ofZ64 0] 1 imat /\ largest (concat imat) M /\ effective64 imat = [true] /\ exists k, In k tl_me /\ below M - / 100 < Rabs (poke (fun _ => 1) [tilter] 1 0 k).
Proof.
  destruct C212_measured_instance as (imat & IM & IV & _). destruct (value 1%Z) as [F1 E1]; [lia|]. assert (B1 : Rabs (B2R (ofZ64 1)) <= 10) by (rewrite E1, Rabs_R1; lra).
  assert (HU : Forall (fun k => usable (me_sensor k) (/ 1000) 20000 64 1) tl_me) by (constructor; [exact usable_plain|constructor]).
  assert (HK : forall x k, (x < actuators [tilter])%nat -> In k tl_me -> command_within (me_sensor k) (/ 1000) 20000 (no_turbulence 64 [ofZ64 0], shares 0 [tilter] (one_command (actuators [tilter]) x)) ([189], [630]) /\
    slope_error (fun _ => 1) 64 (shares 0 [tilter] (one_command (actuators [tilter]) x)) ([189], [630]) k <= / 100).
  { change (actuators [tilter]) with 1%nat. intros [|x] k Hx [<-|[]]; [|lia]. change (shares 0 [tilter] (one_command 1 0)) with [(tilter, [ofZ64 1])]. split; [exact (iv_blank _ F1 B1)|exact (tl_error _)]. }
  pose proof (measured_rows (fun _ => 1) (/ 1000) 20000 64 tl_me [tilter] 64 [ofZ64 0] imat ([189], [630]) (/ 100) HU HK IM) as R. change (actuators [tilter]) with 1%nat in R. cbn [seq] in R.
  inversion R as [|? row ? l R1 R2]; subst. inversion R2; subst. inversion R1 as [|? y ? l [FY DY] R3]; subst. inversion R3; subst. rewrite (proj1 iv_poke) in DY.
  assert (BY : 99 / 100 <= Rabs (B2R y) <= 101 / 100) by (apply Rabs_le_inv in DY; rewrite Rabs_left; lra). exists [[y]], (Rabs (B2R y)).
  assert (LG : largest (concat [[y]]) (Rabs (B2R y))) by (split; [intros x [<-|[]]; lra|exists y; split; [left; reflexivity|reflexivity]]).
  assert (BM : bpow radix2 (-1000) <= Rabs (B2R y) <= bpow radix2 1000) by (split; [apply Rle_trans with (bpow radix2 (-1)); [apply bpow_le; lia|change (bpow radix2 (-1)) with (/ 2); lra]|apply Rle_trans with (bpow radix2 1); [change (bpow radix2 1) with 2; lra|apply bpow_le; lia]]).
  destruct (C213_kept [[y]] (Rabs (B2R y))) as (L & _ & _ & K); [repeat constructor; exact FY|exact LG|exact BM|].
  assert (N0 : nth_error (effective64 [[y]]) 0 = Some true) by (apply (K 0%nat _ eq_refl); exists y; split; [left; reflexivity|]; assert (V50 : bpow radix2 (-50) = / 1125899906842624) by reflexivity; unfold above; rewrite V50; lra).
  split; [exact IM|]. split; [exact LG|]. split.
  - clear - L N0. revert L N0. generalize (effective64 [[y]]). intros l L N. destruct l as [|f [|]]; try discriminate L. cbn [nth_error] in N. injection N as ->. reflexivity.
  - exact (proj2 (C213_effect (fun _ => 1) (/ 1000) 20000 64 tl_me [tilter] 64 [ofZ64 0] [[y]] ([189], [630]) (/ 100) (Rabs (B2R y)) HU HK IM LG BM 0%nat Nat.lt_0_1) N0).
Qed.

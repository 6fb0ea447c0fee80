(** Property theorem C209: a mirror's surface in floating-point arithmetic. *)
From Coq Require Import ZArith List Permutation.
From Flocq Require Import Core BinarySingleNaN.
From Verif.Base Require Import Float64.
From Verif.Model Require Import FloatInterp FloatLoop FloatDot FloatGrad.
From Verif.Spec Require Import FloatLoopSpec FloatDotSpec FloatInterpSpec FloatGradSpec.
From Verif.Proofs Require Import FloatLoopProofs FloatDotProofs FloatGradProofs FloatGradFrame.
From Coq Require Import Reals Bool Lia Lra.
From Verif.Model Require Import FloatMirror.
From Verif.Spec Require Import FloatMirrorSpec.
From Verif.Proofs Require Import FloatMirrorProofs.
Import ListNotations.
Local Open Scope R_scope.

(** C209: however numpy adds up, every pixel of the surface is a number and differs from the sum of the commands times the influence functions less its mean over the surface by no more than
    (4 per actuator + 8 per pixel of the surface) * 2^-53 of A, and 2^-1000. *)
Theorem C209_surface :
  forall (nx : nat) (infl : list (nat -> nat -> b64)) (cmds : list b64) (A : R) (sh : nat -> nat -> b64),
    driven nx infl cmds A -> surface64 nx infl cmds sh ->
    forall i j, (i < nx)%nat -> (j < nx)%nat ->
      is_finite (sh i j) = true /\
      Rabs (B2R (sh i j) - exact_surface nx infl cmds i j) <= (4 * INR (length infl) + 8 * (INR nx * INR nx)) * unit_roundoff * A + bpow radix2 (-1000).
Proof. exact surface_ok. Qed.
Print Assumptions C209_surface.

(** C209: the screen that holds the surface has it in the middle and zeros around it, to the same accuracy, and no number above 2 A and that error. *)
Theorem C209_screen :
  forall (nx pad : nat) (infl : list (nat -> nat -> b64)) (cmds : list b64) (A : R) (sh : nat -> nat -> b64),
    driven nx infl cmds A -> surface64 nx infl cmds sh ->
    let scr := on_screen64 nx pad sh in
    let err := (4 * INR (length infl) + 8 * (INR nx * INR nx)) * unit_roundoff * A + bpow radix2 (-1000) in
    fa_rows scr = (Z.of_nat nx + 2 * Z.of_nat pad)%Z /\ fa_cols scr = (Z.of_nat nx + 2 * Z.of_nat pad)%Z /\ bounded_by scr (2 * A + err) /\
    forall i j, (0 <= i < fa_rows scr)%Z -> (0 <= j < fa_cols scr)%Z -> Rabs (numbers scr i j - exact_screen nx pad infl cmds i j) <= err.
Proof. exact screen_ok. Qed.
Print Assumptions C209_screen.

(** Non-vacuity: three actuators, one of them a slope, on 64 x 64 pixels. *)
Definition three : list (nat -> nat -> b64) := [fun _ _ => ofZ64 1; fun i _ => ofZ64 (Z.of_nat i); fun i j => if Nat.eqb i j then ofZ64 5 else ofZ64 0].
Example C209_instance : driven 64 three [ofZ64 2; ofZ64 (-3); ofZ64 10] 300 /\ (exists sh, surface64 64 three [ofZ64 2; ofZ64 (-3); ofZ64 10] sh) /\ (exists i j, exact_surface 64 three [ofZ64 2; ofZ64 (-3); ofZ64 10] i j <> exact_surface 64 three [ofZ64 2; ofZ64 (-3); ofZ64 10] 0 0).
Proof.
  assert (V : forall z, (Z.abs z <= 2 ^ 53)%Z -> is_finite (ofZ64 z) = true /\ B2R (ofZ64 z) = IZR z) by (intros; apply ofZ_correct; assumption).
  destruct (V 0%Z) as [F0 E0]; [lia|]. destruct (V 1%Z) as [F1 E1]; [lia|]. destruct (V 2%Z) as [F2 E2]; [lia|]. destruct (V (-3)%Z) as [F3 E3]; [lia|]. destruct (V 10%Z) as [F10 E10]; [lia|]. destruct (V 5%Z) as [F5 E5]; [lia|].
  split; [|split].
  - split; [lia|]. split; [reflexivity|]. rewrite u_val. split; [cbn; lra|]. split; [replace (INR 64) with 64 by (cbn; lra); lra|]. split; [split; [lra|]; apply Rle_trans with (bpow radix2 9); [cbn; lra|apply bpow_le; lia]|].
    split; [repeat constructor; assumption|]. intros i j Hi Hj. destruct (V (Z.of_nat i)) as [FI EI]; [lia|]. assert (HI : 0 <= IZR (Z.of_nat i) <= 63) by (split; apply IZR_le; lia).
    split; [constructor; [exact F1|constructor; [exact FI|constructor; [destruct (Nat.eqb i j); assumption|constructor]]]|].
    change (Rabs (B2R (ofZ64 2) * B2R (ofZ64 1)) + (Rabs (B2R (ofZ64 (-3)) * B2R (ofZ64 (Z.of_nat i))) + (Rabs (B2R (ofZ64 10) * B2R (if Nat.eqb i j then ofZ64 5 else ofZ64 0)) + 0)) <= 300).
    rewrite E2, E3, E10, E1, EI. destruct (Nat.eqb i j); [rewrite E5|rewrite E0]; rewrite !Rabs_mult; rewrite (Rabs_left (-3)) by lra; rewrite !Rabs_pos_eq by lra; lra.
  - assert (SM : forall l, exists r, summed l r).
    { induction l as [|[a b] l [r IH]]; [exists fzero; constructor|]. exists (fma64 a b r). eapply sum_fma; [exact IH|apply Permutation_refl]. }
    set (cm := [ofZ64 2; ofZ64 (-3); ofZ64 10]). assert (SF : exists raw : nat -> nat -> b64, forall i j, summed (combine cm (map (fun f => f i j) three)) (raw i j)).
    { exists (fun i j => add64 (add64 (mul64 (ofZ64 2) (ofZ64 1)) (mul64 (ofZ64 (-3)) (ofZ64 (Z.of_nat i)))) (mul64 (ofZ64 10) (if Nat.eqb i j then ofZ64 5 else ofZ64 0))). intros i j. unfold cm, three. cbn [map combine].
      eapply sum_two; [eapply sum_two; [apply sum_one|apply sum_one|apply Permutation_refl]|apply sum_one|apply Permutation_refl]. }
    destruct SF as [raw HR]. destruct (SM (map (fun x => (x, ofZ64 1)) (gridded 64 raw))) as [t HT]. eexists. exists raw, t. split; [intros; apply HR|]. split; [exact HT|]. intros. reflexivity.
  - exists 1%nat, 0%nat. unfold exact_surface. set (m := mean_of _ _). change (B2R (ofZ64 2) * B2R (ofZ64 1) + (B2R (ofZ64 (-3)) * B2R (ofZ64 1) + (B2R (ofZ64 10) * B2R (ofZ64 0) + 0)) - m <> B2R (ofZ64 2) * B2R (ofZ64 1) + (B2R (ofZ64 (-3)) * B2R (ofZ64 0) + (B2R (ofZ64 10) * B2R (ofZ64 5) + 0)) - m). rewrite E2, E3, E10, E1, E5, E0. lra.
Qed.

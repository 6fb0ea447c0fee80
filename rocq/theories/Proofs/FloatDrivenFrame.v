(** One way of adding up everywhere, and a sensor that looks at a tilted screen and a tilting mirror. *)
From Coq Require Import ZArith List Permutation.
From Flocq Require Import Core BinarySingleNaN.
From Verif.Base Require Import Float64.
From Verif.Model Require Import Rounding64 FloatInterp FloatLos FloatFootprint FloatLoop FloatDot FloatGrad FloatGradChain FloatMirror.
From Verif.Spec Require Import FloatLoopSpec FloatDotSpec FloatInterpSpec FloatLosSpec FloatFootprintSpec FloatGradSpec FloatGradChainSpec FloatMirrorSpec.
From Verif.Proofs Require Import FloatLoopProofs FloatInterpProofs FloatFootprintFrame FloatLosFrame FloatGradProofs FloatGradFrame FloatGradChainProofs FloatMirrorProofs.
From Coq Require Import Reals Bool Lia Lra.
From Verif.Model Require Import FloatDriven.
From Verif.Spec Require Import FloatDrivenSpec.
From Verif.Proofs Require Import FloatDrivenProofs.
Import ListNotations.
Local Open Scope R_scope.

Definition dotsum (l : list (b64 * b64)) : b64 := fold_right (fun p r => fma64 (fst p) (snd p) r) fzero l.
Lemma dotsum_ok l : summed l (dotsum l).
Proof. induction l as [|[a b] l IH]; [constructor|]. cbn [dotsum fold_right fst snd]. eapply sum_fma; [exact IH|apply Permutation_refl]. Qed.
Fixpoint sum32f (l : list b64) : b64 := match l with [] => fzero | [x] => x | x :: r => single (add64 x (sum32f r)) end.
Lemma sum32f_ok l : l <> [] -> summed32 l (sum32f l).
Proof.
  induction l as [|a l IH]; intro N; [contradiction N; reflexivity|]. destruct l as [|b l]; [apply sum32_one|]. change (sum32f (a :: b :: l)) with (single (add64 a (sum32f (b :: l)))).
  apply (sum32_two (a :: b :: l) [a] (b :: l)); [apply sum32_one|apply IH; discriminate|apply Permutation_refl].
Qed.
Definition grad_fun (amp : b64) (P : Z) (w : nat) (ph : nat -> nat -> b64) : b64 * b64 :=
  let t := dotsum (map (fun x => (x, ofZ64 1)) (map (fun k => linspace64 (ofZ64 0) amp P (Z.of_nat k)) (seq 0 w))) in
  let c := sub_coord64 amp P (div64 t (ofZ64 (Z.of_nat w))) in
  let Sx := dotsum (gridded w (fun i j => (c j, c j))) in
  let Sy := dotsum (gridded w (fun i j => (c i, c i))) in
  let s := sum32f (gridded w (fun i j => single (ph i j))) in
  let mean := single (div64 s (ofZ64 (Z.of_nat w * Z.of_nat w))) in
  let d i j := single (sub64 (single (ph i j)) mean) in
  (dotsum (gridded w (fun i j => (d i j, div64 (c j) Sx))), dotsum (gridded w (fun i j => (d i j, div64 (c i) Sy)))).
Lemma grad_fun_ok amp P w ph : (1 <= w)%nat -> grad_slopes64 amp P w ph (fst (grad_fun amp P w ph)) (snd (grad_fun amp P w ph)).
Proof.
  intro W. unfold grad_slopes64. do 4 eexists. split; [apply dotsum_ok|]. split; [apply dotsum_ok|]. split; [apply dotsum_ok|]. split; [apply sum32f_ok|split; apply dotsum_ok].
  intro E. apply (f_equal (@length _)) in E. rewrite len_grid in E. cbn in E. lia.
Qed.
Definition phase_fun (g : grad_sensor) (d : phase_dtype) (f : list (farr * b64) * list (farr * b64)) (i j : nat) : b64 :=
  let cross := cross64 (gs_geo g) (gs_posx g) (gs_posy g) (gs_row g + Z.of_nat i) (gs_col g + Z.of_nat j) in
  match frame64 d (gs_c g) (cross (fst f)) (cross (snd f)) with Some (_, ph, _) => ph | None => fzero end.
Definition frame_fun (g : grad_sensor) (d : phase_dtype) (f : list (farr * b64) * list (farr * b64)) : b64 * b64 :=
  grad_fun (gs_amp g) (gs_pupil g) (gs_w g) (fun i j => mul64 (phase_fun g d f i j) (gs_mask g i j)).
Lemma frame_fun_ok g theta h G step d f b : usable g theta h G step -> frame_within g theta h f b -> grad_frame64 g d f (frame_fun g d f).
Proof.
  intros (SN & FC & BC & TL & R0 & R1 & C0 & C1 & _) (M1 & M2 & L1 & L2 & T1 & T2). pose proof TL as (_ & _ & _ & HW & _). exists (phase_fun g d f). split; [|apply grad_fun_ok; lia]. intros i j Hi Hj. unfold sees.
  destruct (cross_ok (gs_geo g) theta h G (gs_posx g) (gs_posy g) (gs_row g + Z.of_nat i) (gs_col g + Z.of_nat j) _ _ SN ltac:(lia) ltac:(lia) M1) as [K1 _].
  destruct (cross_ok (gs_geo g) theta h G (gs_posx g) (gs_posy g) (gs_row g + Z.of_nat i) (gs_col g + Z.of_nat j) _ _ SN ltac:(lia) ltac:(lia) M2) as [K2 _].
  destruct (frame_ok d (gs_c g) _ _ _ _ K1 K2) as (r & ph & E & _); [unfold cross64; rewrite map_length; exact L1|unfold cross64; rewrite map_length; exact L2|exact T1|exact T2|exact FC| |].
  { split; [apply BC|]. eapply Rle_trans; [apply BC|apply bpow_le; lia]. }
  exists r, Double. unfold phase_fun. rewrite E. reflexivity.
Qed.
Definition surface_fun (nx : nat) (infl : list (nat -> nat -> b64)) (cmds : list b64) : nat -> nat -> b64 :=
  let raw i j := dotsum (combine cmds (map (fun f => f i j) infl)) in
  let t := dotsum (map (fun x => (x, ofZ64 1)) (gridded nx raw)) in
  fun i j => sub64 (raw i j) (div64 t (ofZ64 (Z.of_nat nx * Z.of_nat nx))).
Lemma surface_fun_ok nx infl cmds : surface64 nx infl cmds (surface_fun nx infl cmds).
Proof. unfold surface64. do 2 eexists. split; [intros i j _ _; apply dotsum_ok|]. split; [apply dotsum_ok|]. intros i j _ _. reflexivity. Qed.
Definition driven_fun (g : grad_sensor) (d : phase_dtype) (screens : list (farr * b64)) (ms : list (mirror64 * list b64)) : b64 * b64 :=
  frame_fun g d (screens, as_seen ms (map (fun mc => surface_fun (mm_nx (fst mc)) (mm_infl (fst mc)) (snd mc)) ms)).
Lemma driven_fun_ok g theta h G step d f b : usable g theta h G step -> command_within g theta h f b -> driven_frame64 g d (fst f) (snd f) (driven_fun g d (fst f) (snd f)).
Proof.
  intros HU (B1 & B2 & B3 & B4 & B5 & B6). destruct f as [scr ms]. destruct b as [bs As]. cbn [fst snd] in *.
  assert (HS : Forall2 (fun mc sh => surface64 (mm_nx (fst mc)) (mm_infl (fst mc)) (snd mc) sh) ms (map (fun mc => surface_fun (mm_nx (fst mc)) (mm_infl (fst mc)) (snd mc)) ms)).
  { clear. induction ms as [|m ms IH]; constructor; [apply surface_fun_ok|exact IH]. }
  destruct (mirrors_ok g theta h ms As _ B2 HS) as (M1 & M2 & _). eexists. split; [exact HS|]. unfold driven_fun. refine (frame_fun_ok g theta h G step d (scr, as_seen ms (map (fun mc => surface_fun (mm_nx (fst mc)) (mm_infl (fst mc)) (snd mc)) ms)) (bs, map (fun p => 2 * snd p + miss (fst (fst p)) (snd p)) (combine ms As)) HU _).
  split; [exact B1|]. split; [exact M1|]. cbn [fst snd]. rewrite M2. split; [exact B3|]. split; [exact B4|]. split; [exact B5|exact B6].
Qed.

Lemma best_affine step w a b p : 0 < step -> (2 <= w)%nat -> (forall i j, (i < w)%nat -> (j < w)%nat -> p i j = a + b * minus_tilt step w j) -> best_x step w p = b.
Proof.
  intros S W H. assert (IW : 2 <= INR w) by (change 2 with (INR 2); apply le_INR; exact W). set (V := sum_to w (fun k => minus_tilt step w k * minus_tilt step w k)).
  assert (V0 : 0 < V). { unfold V. rewrite tilt_sq by lia. apply Rmult_lt_0_compat; [apply Rmult_lt_0_compat; exact S|]. assert (4 <= INR w * INR w) by (replace 4 with (2 * 2) by ring; apply Rmult_le_compat; lra). unfold Rdiv. apply Rmult_lt_0_compat; [apply Rmult_lt_0_compat; lra|lra]. }
  assert (M : mean_of w p = a).
  { unfold mean_of. rewrite (sum_ext w _ (fun _ => INR w * a)); [rewrite sum_const; field; lra|]. intros i Hi. rewrite (sum_ext w _ (fun j => a + b * minus_tilt step w j)) by (intros j Hj; apply H; assumption).
    rewrite sum_add, sum_const, (sum_scale w b (minus_tilt step w)), tilt_sum by lia. ring. }
  unfold best_x. rewrite M. rewrite (sum_ext w _ (fun _ => b * V)); [rewrite sum_const; fold V; field; split; lra|]. intros i Hi. unfold V. rewrite <- sum_scale. apply sum_ext. intros j Hj. rewrite (H i j Hi Hj). ring.
Qed.

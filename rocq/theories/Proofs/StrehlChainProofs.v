From Coq Require Import ZArith QArith Reals Qreals.
From Coquelicot Require Import Complex.
From Verif.Base Require Import Vec CSum CSumFacts.
From Verif.Model Require Import Sh Science Sampling.
From Verif.Spec Require Import ScienceSpec LoopSpec.
From Verif.Proofs Require Import ScienceProofs ScienceFourier ScienceStrehl NumericsProofs SamplingProofs.
From Verif.Spec Require Import StrehlSpec StrehlChainSpec.
From Verif.Proofs Require Import StrehlProofs.
From Coq Require Import Lra Lia.
Local Open Scope R_scope.

Lemma abs_le_both x b : Rabs x <= b -> - b <= x <= b.
Proof. unfold Rabs. destruct (Rcase_abs x); lra. Qed.
Lemma qr_le x y : (x <= y)%Qc -> qr x <= qr y.
Proof. intros H. unfold qr. apply Qle_Rle. exact H. Qed.
Lemma qr_neg x : qr (- x)%Qc = - qr x.
Proof. unfold Qcopp. rewrite qr_eq. apply Q2R_opp. Qed.
Lemma qr_sub x y : qr (x - y)%Qc = qr x - qr y.
Proof. unfold Qcminus. rewrite qr_add, qr_neg. ring. Qed.
Lemma qr_0 : qr 0%Qc = 0.
Proof. unfold qr, Q2R. cbn. field. Qed.
Lemma qr_1 : qr 1%Qc = 1.
Proof. unfold qr, Q2R. cbn. field. Qed.
Lemma qr_abs x : qr (qc_abs x) = Rabs (qr x).
Proof.
  unfold qc_abs. destruct (Qclt_le_dec x 0) as [H|H].
  - rewrite qr_neg. symmetry. apply Rabs_left1. rewrite <- qr_0. apply qr_le. apply Qclt_le_weak, H.
  - symmetry. apply Rabs_pos_eq. rewrite <- qr_0. apply qr_le, H.
Qed.
Lemma bilin_close data x y c B n : (0 <= x)%Qc -> (0 <= y)%Qc -> (0 <= qc_int x)%Z -> (qc_int x + 1 < n)%Z -> (0 <= qc_int y)%Z -> (qc_int y + 1 < n)%Z ->
  (forall i j, (0 <= i < n)%Z -> (0 <= j < n)%Z -> Rabs (data i j - c) <= B) -> Rabs (bilin data x y - c) <= B.
Proof.
  intros X Y X1 X2 Y1 Y2 H. unfold bilin. cbv zeta.
  assert (FX : 0 <= qr x - IZR (qc_int x) <= 1).
  { destruct (frac_cell x X) as [A A']. apply Qclt_le_weak in A'. apply qr_le in A, A'. rewrite qr_sub, qr_qz, ?qr_0, ?qr_1 in *. split; assumption. }
  assert (FY : 0 <= qr y - IZR (qc_int y) <= 1).
  { destruct (frac_cell y Y) as [A A']. apply Qclt_le_weak in A'. apply qr_le in A, A'. rewrite qr_sub, qr_qz, ?qr_0, ?qr_1 in *. split; assumption. }
  pose proof (H (qc_int x) (qc_int y) ltac:(lia) ltac:(lia)) as D00. pose proof (H (qc_int x + 1)%Z (qc_int y) ltac:(lia) ltac:(lia)) as D10.
  pose proof (H (qc_int x) (qc_int y + 1)%Z ltac:(lia) ltac:(lia)) as D01. pose proof (H (qc_int x + 1)%Z (qc_int y + 1)%Z ltac:(lia) ltac:(lia)) as D11.
  apply abs_le_both in D00, D10, D01, D11. 
  set (d00 := data (qc_int x) (qc_int y)) in *. set (d10 := data (qc_int x + 1)%Z (qc_int y)) in *.
  set (d01 := data (qc_int x) (qc_int y + 1)%Z) in *. set (d11 := data (qc_int x + 1)%Z (qc_int y + 1)%Z) in *.
  set (fx := qr x - IZR (qc_int x)) in *. set (fy := qr y - IZR (qc_int y)) in *. clearbody d00 d10 d01 d11 fx fy.
  set (a1 := d00 + (d10 - d00) * fx). set (a2 := d01 + (d11 - d01) * fx).
  assert (A1 : - B <= a1 - c <= B) by (unfold a1; split; nra).
  assert (A2 : - B <= a2 - c <= B) by (unfold a2; split; nra). clearbody a1 a2.
  apply Rabs_le. split; nra.
Qed.
Lemma camera_on_camera k pupil pad : camera_on k pupil pad -> camera k.
Proof.
  intros (P1 & P2 & P3 & (os & ratio & fuel & n & R & G & C) & _). exists pupil, pad, os, ratio, fuel, n. repeat split; auto.
Qed.
Lemma wavefront_close k pupil pad p c B : camera_on k pupil pad -> length p = Z.to_nat ((pupil + 2 * pad) * (pupil + 2 * pad)) ->
  (forall i, (i < length p)%nat -> (qc_abs (elem p i - c) <= B)%Qc) -> phases_within k (qr B) (wavefront k pupil pad p) (fun _ _ => qr c).
Proof.
  intros (P1 & P2 & _) L H a b Ha Hb. unfold wavefront, sci_phase.
  destruct (coord_in pupil pad (pupil + 2 * pad) (g_fov (k_geom k)) a P1 P2 eq_refl) as (A0 & A1 & A2).
  destruct (coord_in pupil pad (pupil + 2 * pad) (g_fov (k_geom k)) b P1 P2 eq_refl) as (B0 & B1 & B2).
  apply (bilin_close _ _ _ _ _ (pupil + 2 * pad)); auto. intros i j Hi Hj.
  rewrite <- qr_sub, <- qr_abs. apply qr_le, H. rewrite L. nia.
Qed.
Lemma strehl_flat_bound k phase c B : camera k -> Z.even (g_fft (k_geom k)) = true -> lit k -> mask_nonneg k -> g_os (k_geom k) = 1%Z ->
  phases_within k B phase (fun _ _ => c) ->
  exists s t, inst_strehl k true phase = Some s /\ inst_strehl k false phase = Some t /\ s <= t /\ (1 - B * B) * caught k <= s.
Proof.
  intros C Ev L M O H. destruct (strehl_cropped k phase C Ev L M O) as (s & t & S1 & S2 & S3 & S4 & S5). exists s, t. repeat split; auto.
  eapply Rle_trans; [|exact S4]. apply Rmult_le_compat_r; [lra|]. pose proof (lit_total k M L) as T.
  set (F := g_fov (k_geom k)) in *. eapply Rle_trans; [|apply (marechal F (k_mask k) phase c M T)].
  assert (V : total F (fun a b => k_mask k a b * ((phase a b - c) * (phase a b - c))) <= B * B * total F (k_mask k)).
  { rewrite <- total_scale. apply total_le. intros a b Ha Hb. rewrite (Rmult_comm (B * B)). apply Rmult_le_compat_l; [apply M; auto|].
    specialize (H a b Ha Hb). apply abs_le_both in H. nra. }
  assert (D : total F (fun a b => k_mask k a b * ((phase a b - c) * (phase a b - c))) / total F (k_mask k) <= B * B).
  { apply (Rmult_le_reg_r (total F (k_mask k))); [exact T|]. unfold Rdiv. rewrite Rmult_assoc, Rinv_l by lra. lra. }
  lra.
Qed.
Lemma image_bound k pupil pad p c B : camera_on k pupil pad -> length p = Z.to_nat ((pupil + 2 * pad) * (pupil + 2 * pad)) ->
  (forall i, (i < length p)%nat -> (qc_abs (elem p i - c) <= B)%Qc) ->
  exists s t, inst_strehl k true (wavefront k pupil pad p) = Some s /\ inst_strehl k false (wavefront k pupil pad p) = Some t /\ s <= t /\
    (1 - qr B * qr B) * caught k <= s.
Proof.
  intros C L H. pose proof C as (_ & _ & _ & _ & Ev & O & Li & M). apply (strehl_flat_bound k _ (qr c)); auto.
  - apply (camera_on_camera k pupil pad C).
  - apply wavefront_close; auto.
Qed.

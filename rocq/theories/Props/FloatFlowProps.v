(** Property theorem C193: frozen flow on infinite screens in floating-point arithmetic. *)
From Coq Require Import ZArith List.
From Flocq Require Import Core BinarySingleNaN.
From Verif.Base Require Import Float64.
From Verif.Model Require Import Rounding64 FloatInterp.
From Verif.Spec Require Import FloatLoopSpec FloatInterpSpec.
From Verif.Model Require Import FloatFlow.
From Verif.Spec Require Import FloatFlowSpec.
From Verif.Proofs Require Import FloatFlowProofs.
From Coq Require Import Reals Bool Lia Lra.
Import ListNotations.
Local Open Scope R_scope.

(** C193: with a wind of v >= 0 pixels per frame, pixel (i, j) of frame n is a number, and it is the turbulence that lies n v - (i + 2) rows along the sequence of all rows,
    interpolated between neighbouring rows, up to D (n + i + 1) u for the position (D: how much neighbouring rows differ) and 20 u A for the interpolation (A: the largest phase),
    u = 2^-53: of 10^9 frames, the rounding moves the turbulence by less than a millionth of a pixel.  (The last two columns are those of C70; v < 0 is that of C28.) *)
Theorem C193_flow :
  forall (row : nat -> frow) (v : b64) (init : list frow) (nx : Z) (A D : R) (n : nat) (i j : Z), let L := length init in
    is_finite v = true -> 0 <= B2R v <= bpow radix2 52 -> calm row init nx A D -> A <= bpow radix2 800 ->
    (Z.of_nat L <= 2 ^ 20)%Z -> (nx <= 2 ^ 20)%Z -> (0 <= i)%Z -> (i + 2 < Z.of_nat L)%Z -> (0 <= j < nx - 2)%Z ->
    exists t r, inf_run64 row v L init n = Some t /\ inf_output64 nx t i j = Some r /\ is_finite r = true /\
      Rabs (B2R r - straight (turbulence row init (j + 1)) (INR n * B2R v - IZR (i + 2))) <= D * (INR n + IZR (i + 1)) * unit_roundoff + 20 * unit_roundoff * A + 9 * smallest.
Proof. intros row v init nx A D n i j L. exact (flow row v init nx A D n i j). Qed.
Print Assumptions C193_flow.

(** Five rows of 0, -1, ..., -4 at the start; then rows of 0, 1, ..., 4 and rows of 7 in turn; 1.25 pixels per frame. *)
Definition iv_row (k : nat) : frow := fun j => ofZ64 (if Nat.even k then j else 7).
Definition iv_init : list frow := repeat (fun j => ofZ64 (- j)) 5.
Lemma iv_calm : calm iv_row iv_init 5 7 14.
Proof.
  assert (N : forall z, (-7 <= z <= 7)%Z -> is_finite (ofZ64 z) = true /\ Rabs (B2R (ofZ64 z)) <= 7).
  { intros z Z7. destruct (ofZ_correct z) as [F E]; [lia|]. split; [exact F|]. rewrite E. rewrite <- abs_IZR. apply (IZR_le _ 7). lia. }
  assert (T : forall k j, (0 <= j < 5)%Z -> (-5 <= k)%Z -> Rabs (turbulence iv_row iv_init j k) <= 7).
  { intros k j J K. unfold turbulence. destruct (k <? 0)%Z eqn:B.
    - replace (nth (Z.to_nat (- k - 1)) iv_init (fun _ => ofZ64 0)) with (fun j : Z => ofZ64 (- j)); [apply N; lia|]. unfold iv_init.
      destruct (nth_in_or_default (Z.to_nat (- k - 1)) (repeat (fun j : Z => ofZ64 (- j)) 5) (fun _ => ofZ64 0)) as [H|H]; [apply repeat_spec in H; symmetry; exact H|].
      exfalso. assert (Q : (Z.to_nat (- k - 1) < 5)%nat) by lia. rewrite (nth_indep _ (fun _ => ofZ64 0) (fun j : Z => ofZ64 (- j))) in H by (rewrite repeat_length; exact Q).
      rewrite nth_repeat in H. apply (f_equal (fun f : frow => f 1%Z)) in H. apply (f_equal B2SF) in H. vm_compute in H. discriminate H.
    - apply N. unfold iv_row. destruct (Nat.even _); lia. }
  split; [|split].
  - intros k j J. apply N. unfold iv_row. destruct (Nat.even k); lia.
  - intros r j Hr J. apply repeat_spec in Hr. subst r. apply N. lia.
  - intros k j J K. change (Z.of_nat (length iv_init)) with 5%Z in K. replace 14 with (7 + 7) by ring. unfold Rminus. eapply Rle_trans; [apply Rabs_triang|]. rewrite Rabs_Ropp.
    apply Rplus_le_compat; apply T; auto; lia.
Qed.
Example C193_instance :
  (forall n, exists t r, inf_run64 iv_row (lit64 5 (-2)) 5 iv_init n = Some t /\ inf_output64 5 t 0 1 = Some r /\ is_finite r = true /\
     Rabs (B2R r - straight (turbulence iv_row iv_init 2) (INR n * (5 / 4) - 2)) <= 14 * (INR n + 1) * unit_roundoff + 20 * unit_roundoff * 7 + 9 * smallest) /\
  match inf_run64 iv_row (lit64 5 (-2)) 5 iv_init 3 with Some t => option_map B2SF (inf_output64 5 t 0 1) = Some (B2SF (lit64 13 (-2))) | None => False end.
Proof.
  assert (BW : bpow radix2 (-2) = / 4) by (cbn; lra).
  assert (V : is_finite (lit64 5 (-2)) = true /\ B2R (lit64 5 (-2)) = 5 / 4).
  { destruct (lit_correct 5 (-2)) as [F E].
    - rewrite BW, Rabs_pos_eq by lra. apply Rle_trans with (bpow radix2 1); [change (bpow radix2 1) with 2; lra|apply bpow_le; lia].
    - split; [exact F|]. rewrite E, rnd_rep by (apply rep_F2R; cbn; lia). rewrite BW. lra. }
  destruct V as [F E]. split.
  - intro n. destruct (C193_flow iv_row (lit64 5 (-2)) iv_init 5 7 14 n 0 1 F) as (t & r & Et & Er & Fr & B);
      [rewrite E; split; [lra|apply Rle_trans with (bpow radix2 1); [change (bpow radix2 1) with 2; lra|apply bpow_le; lia]]
      |exact iv_calm|apply Rle_trans with (bpow radix2 3); [change (bpow radix2 3) with 8; lra|apply bpow_le; lia]|cbn; lia|lia|lia|cbn; lia|lia|].
    exists t, r. rewrite E in B. auto.
  - vm_compute. reflexivity.
Qed.

(** Proofs about products in floating point. *)
From Coq Require Import ZArith List Permutation.
From Flocq Require Import Core Relative BinarySingleNaN.
From Verif.Base Require Import Float64 Py.
From Verif.Model Require Import FloatLoop.
From Verif.Spec Require Import FloatLoopSpec.
From Verif.Proofs Require Import FloatLoopProofs.
From Verif.Model Require Import FloatDot.
From Verif.Spec Require Import FloatDotSpec.
From Coq Require Import Reals Lra Lia.
Import ListNotations.
Local Open Scope R_scope.

Lemma fma_correct x y z : is_finite x = true -> is_finite y = true -> is_finite z = true -> Rabs (B2R x * B2R y + B2R z) <= bpow radix2 1000 ->
  is_finite (fma64 x y z) = true /\ B2R (fma64 x y z) = rnd64 (B2R x * B2R y + B2R z).
Proof.
  intros Fx Fy Fz H. pose proof (@Bfma_correct 53 1024 prec64 emax64 mode_NE x y z Fx Fy Fz) as C. cbn zeta in C.
  change (round_mode mode_NE) with ZnearestE in C. fold (rnd64 (B2R x * B2R y + B2R z)) in C. rewrite (small_ok _ H) in C.
  destruct C as (C1 & C2 & _). auto.
Qed.
Lemma fzero_val : is_finite fzero = true /\ B2R fzero = 0.
Proof. apply (ofZ_correct 0). cbn. lia. Qed.
Lemma rep_b64 (x : b64) : rep64 (B2R x).
Proof. apply generic_format_B2R. Qed.

Definition pe (l : list (b64 * b64)) : R := fold_right Rplus 0 (map (fun p => B2R (fst p) * B2R (snd p)) l).
Definition pa (l : list (b64 * b64)) : R := fold_right Rplus 0 (map (fun p => Rabs (B2R (fst p) * B2R (snd p))) l).
Definition pfin (l : list (b64 * b64)) : Prop := Forall (fun p => is_finite (fst p) = true /\ is_finite (snd p) = true) l.
Lemma fold_perm (l l' : list R) : Permutation l l' -> fold_right Rplus 0 l = fold_right Rplus 0 l'.
Proof. induction 1; cbn; lra. Qed.
Lemma pe_perm l l' : Permutation l l' -> pe l = pe l'.
Proof. intro H. apply fold_perm, Permutation_map, H. Qed.
Lemma pa_perm l l' : Permutation l l' -> pa l = pa l'.
Proof. intro H. apply fold_perm, Permutation_map, H. Qed.
Lemma fold_app (l l' : list R) : fold_right Rplus 0 (l ++ l') = fold_right Rplus 0 l + fold_right Rplus 0 l'.
Proof. induction l; cbn; lra. Qed.
Lemma pe_app l l' : pe (l ++ l') = pe l + pe l'.
Proof. unfold pe. rewrite map_app. apply fold_app. Qed.
Lemma pa_app l l' : pa (l ++ l') = pa l + pa l'.
Proof. unfold pa. rewrite map_app. apply fold_app. Qed.
Lemma pa_pos l : 0 <= pa l.
Proof. induction l as [|p l IH]; [cbn; lra|]. change (pa (p :: l)) with (Rabs (B2R (fst p) * B2R (snd p)) + pa l). pose proof (Rabs_pos (B2R (fst p) * B2R (snd p))). lra. Qed.
Lemma pe_pa l : Rabs (pe l) <= pa l.
Proof.
  induction l as [|p l IH]; [cbn; rewrite Rabs_R0; lra|]. change (pa (p :: l)) with (Rabs (B2R (fst p) * B2R (snd p)) + pa l).
  change (pe (p :: l)) with (B2R (fst p) * B2R (snd p) + pe l). eapply Rle_trans; [apply Rabs_triang|]. lra.
Qed.

Notation u := unit_roundoff.
Notation s := smallest.
(** the bound on the error of a sum of n > 0 products *)
Definition bnd (n : nat) (S : R) : R := ((1 + u) ^ n - 1) * S + (2 * INR n - 1) * (1 + u) ^ n * s.
Lemma up_ge1 n : 1 <= (1 + u) ^ n.
Proof. apply pow_R1_Rle. pose proof u_pos. lra. Qed.
Lemma up_mono n m : (n <= m)%nat -> (1 + u) ^ n <= (1 + u) ^ m.
Proof. intro H. apply Rle_pow; auto. pose proof u_pos. lra. Qed.
Lemma up_S n : (1 + u) ^ (S n) = (1 + u) * (1 + u) ^ n. Proof. reflexivity. Qed.
Lemma INR1 n : (1 <= n)%nat -> 1 <= INR n.
Proof. intro H. apply (le_INR 1 n) in H. exact H. Qed.
Lemma bnd_pos n S : (1 <= n)%nat -> 0 <= S -> 0 <= bnd n S.
Proof.
  intros Hn HS. pose proof (INR1 n Hn). pose proof (up_ge1 n). pose proof s_pos. unfold bnd.
  apply Rplus_le_le_0_compat; [apply Rmult_le_pos; lra|]. apply Rmult_le_pos; [apply Rmult_le_pos|]; lra.
Qed.

(** one more rounding after sums of n1 and n2 terms *)
Lemma step_bound n n1 n2 S1 S2 : (n1 + n2 = n)%nat -> (1 <= n1)%nat -> (1 <= n2)%nat -> 0 <= S1 -> 0 <= S2 ->
  (1 + u) * (bnd n1 S1 + bnd n2 S2) + u * (S1 + S2) + s <= bnd n (S1 + S2).
Proof.
  intros HN H1 H2 P1 P2. pose proof u_pos as U0. pose proof s_pos as S0. unfold bnd.
  assert (A : forall k S, (k < n)%nat -> 0 <= S -> (1 + u) * (((1 + u) ^ k - 1) * S) <= ((1 + u) ^ n - (1 + u)) * S).
  { intros k S Hk HS. rewrite <- Rmult_assoc. apply Rmult_le_compat_r; auto. rewrite Rmult_minus_distr_l, <- up_S. pose proof (up_mono (Datatypes.S k) n ltac:(lia)). lra. }
  assert (B : forall k, (1 <= k < n)%nat -> (1 + u) * ((2 * INR k - 1) * (1 + u) ^ k * s) <= (2 * INR k - 1) * (1 + u) ^ n * s).
  { intros k Hk. replace ((1 + u) * ((2 * INR k - 1) * (1 + u) ^ k * s)) with ((2 * INR k - 1) * (1 + u) ^ (Datatypes.S k) * s) by (rewrite up_S; ring).
    apply Rmult_le_compat_r; [lra|]. apply Rmult_le_compat_l; [pose proof (INR1 k ltac:(lia)); lra|]. apply up_mono. lia. }
  pose proof (A n1 S1 ltac:(lia) P1). pose proof (A n2 S2 ltac:(lia) P2). pose proof (B n1 ltac:(lia)). pose proof (B n2 ltac:(lia)).
  assert (EN : INR n = INR n1 + INR n2) by (rewrite <- HN; apply plus_INR). rewrite EN.
  assert (X : s <= (1 + u) ^ n * s). { rewrite <- (Rmult_1_l s) at 1. apply Rmult_le_compat_r; [lra|apply up_ge1]. }
  replace ((2 * (INR n1 + INR n2) - 1) * (1 + u) ^ n * s) with ((2 * INR n1 - 1) * (1 + u) ^ n * s + (2 * INR n2 - 1) * (1 + u) ^ n * s + (1 + u) ^ n * s) by ring.
  lra.
Qed.
(** the last product joined by a fused multiply-add *)
Lemma fma_bound n S1 x : (1 <= n)%nat -> 0 <= S1 -> 0 <= x -> (1 + u) * bnd n S1 + u * (x + S1) + s <= bnd (S n) (x + S1).
Proof.
  intros Hn P1 Px. pose proof (step_bound (S n) 1 n x S1 eq_refl (le_n 1) Hn Px P1) as H. pose proof (bnd_pos 1 x (le_n 1) Px). pose proof u_pos.
  assert (0 <= (1 + u) * bnd 1 x) by (apply Rmult_le_pos; lra). rewrite Rmult_plus_distr_l in H. lra.
Qed.
Lemma one_bound x : u * x + s <= bnd 1 x.
Proof. unfold bnd. cbn [pow INR]. pose proof u_pos. pose proof s_pos. assert (0 <= u * s) by (apply Rmult_le_pos; lra). lra. Qed.

Definition cap (n : nat) (S : R) : R := (1 + u) ^ n * (S + 2 * INR n * s).
Lemma cap_mono n n' S S' : (n <= n')%nat -> 0 <= S -> S <= S' -> cap n S <= cap n' S'.
Proof.
  intros Hn H0 HS. pose proof (le_INR _ _ Hn). pose proof (pos_INR n). pose proof s_pos. unfold cap. apply Rmult_le_compat.
  - pose proof (up_ge1 n). lra.
  - assert (0 <= 2 * INR n * s) by (apply Rmult_le_pos; lra). lra.
  - apply up_mono, Hn.
  - assert (2 * INR n * s <= 2 * INR n' * s) by (apply Rmult_le_compat_r; lra). lra.
Qed.
Lemma bnd_cap n S : 0 <= S -> S + bnd n S <= cap n S.
Proof.
  intro HS. unfold bnd, cap. pose proof (up_ge1 n). pose proof s_pos. assert (0 <= (1 + u) ^ n * s) by (apply Rmult_le_pos; lra). nra.
Qed.

Lemma summed_ok l r : summed l r -> pfin l -> cap (length l) (pa l) <= bpow radix2 1000 ->
  is_finite r = true /\ (l = [] -> B2R r = 0) /\ (l <> [] -> Rabs (B2R r - pe l) <= bnd (length l) (pa l)).
Proof.
  pose proof u_pos as U0. pose proof s_pos as S0.
  induction 1 as [|a b|l l1 l2 r1 r2 H1 IH1 H2 IH2 HP|l a b l1 r1 H1 IH1 HP]; intros HF HC.
  - destruct fzero_val. repeat split; auto. congruence.
  - apply Forall_inv in HF as [Fa Fb]. cbn [fst snd] in *. unfold pa, pe in *. cbn [map fold_right length fst snd] in *. rewrite Rplus_0_r in *.
    assert (C : Rabs (B2R a * B2R b) <= bpow radix2 1000).
    { eapply Rle_trans; [|exact HC]. pose proof (bnd_cap 1 _ (Rabs_pos (B2R a * B2R b))). pose proof (bnd_pos 1 _ (le_n 1) (Rabs_pos (B2R a * B2R b))). lra. }
    destruct (mul_correct a b Fa Fb C) as [F E]. split; [exact F|]. split; [discriminate|]. intros _. rewrite E, ?Rplus_0_r.
    eapply Rle_trans; [apply rnd_any|apply one_bound].
  - assert (HL : length l = (length l1 + length l2)%nat) by (rewrite (Permutation_length HP); apply app_length).
    rewrite (pa_perm _ _ HP), pa_app in *. rewrite (pe_perm _ _ HP), pe_app. rewrite HL in *.
    assert (HF' : pfin (l1 ++ l2)) by (unfold pfin; rewrite <- HP; exact HF). apply Forall_app in HF' as [HF1 HF2].
    pose proof (pa_pos l1) as P1. pose proof (pa_pos l2) as P2.
    destruct IH1 as (F1 & Z1 & E1); [exact HF1|eapply Rle_trans; [|exact HC]; apply cap_mono; lia || lra|].
    destruct IH2 as (F2 & Z2 & E2); [exact HF2|eapply Rle_trans; [|exact HC]; apply cap_mono; lia || lra|].
    destruct l1 as [|p1 l1]; [|destruct l2 as [|p2 l2]].
    + specialize (Z1 eq_refl). cbn [length Nat.add app] in *. change (pe []) with 0. change (pa []) with 0 in *. rewrite Rplus_0_l in *.
      assert (V : rnd64 (B2R r1 + B2R r2) = B2R r2) by (rewrite Z1, Rplus_0_l; apply rnd_rep, rep_b64).
      assert (B : Rabs (B2R r1 + B2R r2) <= bpow radix2 1000).
      { rewrite Z1, Rplus_0_l. destruct l2 as [|p2 l2]; [rewrite Z2, Rabs_R0 by reflexivity; apply bpow_ge_0|].
        eapply Rle_trans; [|exact HC]. eapply Rle_trans; [|apply bnd_cap; exact P2]. specialize (E2 ltac:(discriminate)). pose proof (pe_pa (p2 :: l2)).
        replace (B2R r2) with (pe (p2 :: l2) + (B2R r2 - pe (p2 :: l2))) by ring. eapply Rle_trans; [apply Rabs_triang|]. lra. }
      destruct (add_correct r1 r2 F1 F2 B) as [F E]. split; [exact F|]. rewrite E, V, ?Rplus_0_l.
      split; intro HN.
      * apply Z2. subst l. symmetry in HL. apply length_zero_iff_nil in HL. exact HL.
      * apply E2. intros ->. apply HN. apply length_zero_iff_nil. exact HL.
    + specialize (Z2 eq_refl). rewrite Nat.add_0_r in *. change (pe []) with 0. change (pa []) with 0 in *. rewrite Rplus_0_r in *.
      assert (V : rnd64 (B2R r1 + B2R r2) = B2R r1) by (rewrite Z2, Rplus_0_r; apply rnd_rep, rep_b64).
      specialize (E1 ltac:(discriminate)).
      assert (B : Rabs (B2R r1 + B2R r2) <= bpow radix2 1000).
      { rewrite Z2, Rplus_0_r.
        eapply Rle_trans; [|exact HC]. eapply Rle_trans; [|apply bnd_cap; exact P1]. pose proof (pe_pa (p1 :: l1)).
        replace (B2R r1) with (pe (p1 :: l1) + (B2R r1 - pe (p1 :: l1))) by ring. eapply Rle_trans; [apply Rabs_triang|]. lra. }
      destruct (add_correct r1 r2 F1 F2 B) as [F E]. split; [exact F|]. rewrite E, V, ?Rplus_0_r. split; [|auto].
      intros ->. discriminate HL.
    + specialize (E1 ltac:(discriminate)). specialize (E2 ltac:(discriminate)). set (q1 := p1 :: l1) in *. set (q2 := p2 :: l2) in *.
      assert (N1 : (1 <= length q1)%nat) by (cbn; lia). assert (N2 : (1 <= length q2)%nat) by (cbn; lia).
      pose proof (pe_pa q1) as A1. pose proof (pe_pa q2) as A2. pose proof (step_bound _ _ _ (pa q1) (pa q2) eq_refl N1 N2 P1 P2) as SB.
      pose proof (bnd_pos _ _ N1 P1) as B1. pose proof (bnd_pos _ _ N2 P2) as B2.
      assert (D : Rabs (B2R r1 + B2R r2 - (pe q1 + pe q2)) <= bnd (length q1) (pa q1) + bnd (length q2) (pa q2)).
      { replace (B2R r1 + B2R r2 - (pe q1 + pe q2)) with ((B2R r1 - pe q1) + (B2R r2 - pe q2)) by ring. eapply Rle_trans; [apply Rabs_triang|]. lra. }
      assert (M : Rabs (B2R r1 + B2R r2) <= pa q1 + pa q2 + (bnd (length q1) (pa q1) + bnd (length q2) (pa q2))).
      { replace (B2R r1 + B2R r2) with ((pe q1 + pe q2) + (B2R r1 + B2R r2 - (pe q1 + pe q2))) by ring. eapply Rle_trans; [apply Rabs_triang|].
        pose proof (Rabs_triang (pe q1) (pe q2)). lra. }
      assert (U : 0 <= u * (bnd (length q1) (pa q1) + bnd (length q2) (pa q2))) by (apply Rmult_le_pos; lra).
      assert (U' : 0 <= u * (pa q1 + pa q2)) by (apply Rmult_le_pos; lra).
      assert (B : Rabs (B2R r1 + B2R r2) <= bpow radix2 1000).
      { eapply Rle_trans; [exact M|]. eapply Rle_trans; [|exact HC]. eapply Rle_trans; [|apply bnd_cap; lra]. lra. }
      destruct (add_correct r1 r2 F1 F2 B) as [F E]. split; [exact F|]. split; [intros ->; discriminate HL|]. intros _. rewrite E.
      replace (rnd64 (B2R r1 + B2R r2) - (pe q1 + pe q2)) with ((rnd64 (B2R r1 + B2R r2) - (B2R r1 + B2R r2)) + (B2R r1 + B2R r2 - (pe q1 + pe q2))) by ring.
      eapply Rle_trans; [apply Rabs_triang|]. pose proof (rnd_any (B2R r1 + B2R r2)) as RA.
      assert (u * Rabs (B2R r1 + B2R r2) <= u * (pa q1 + pa q2 + (bnd (length q1) (pa q1) + bnd (length q2) (pa q2)))) by (apply Rmult_le_compat_l; lra). lra.
  - assert (HL : length l = S (length l1)) by (rewrite (Permutation_length HP); reflexivity).
    rewrite (pa_perm _ _ HP) in *. rewrite (pe_perm _ _ HP). rewrite HL in *.
    assert (HF' : pfin ((a, b) :: l1)) by (unfold pfin; rewrite <- HP; exact HF). pose proof (Forall_inv HF') as [Fa Fb]. apply Forall_inv_tail in HF'. cbn [fst snd] in *.
    assert (EA : pa ((a, b) :: l1) = Rabs (B2R a * B2R b) + pa l1) by reflexivity. assert (EE : pe ((a, b) :: l1) = B2R a * B2R b + pe l1) by reflexivity.
    rewrite EA in *. rewrite EE. set (x := Rabs (B2R a * B2R b)) in *. assert (X0 : 0 <= x) by apply Rabs_pos. pose proof (pa_pos l1) as P1.
    destruct IH1 as (F1 & Z1 & E1); [exact HF'|eapply Rle_trans; [|exact HC]; apply cap_mono; lia || lra|].
    assert (D : exists e, 0 <= e /\ Rabs (B2R r1 - pe l1) <= e /\ (1 + u) * e + u * (x + pa l1) + s <= bnd (S (length l1)) (x + pa l1)).
    { destruct l1 as [|p1 l1].
      - exists 0. rewrite Z1 by reflexivity. change (pe []) with 0. change (pa []) with 0. rewrite Rminus_0_r, Rabs_R0. repeat split; try lra. rewrite !Rplus_0_r. cbn [length]. pose proof (one_bound x). lra.
      - exists (bnd (length (p1 :: l1)) (pa (p1 :: l1))). assert (N1 : (1 <= length (p1 :: l1))%nat) by (cbn; lia). split; [apply bnd_pos; auto|]. split; [apply E1; discriminate|].
        apply fma_bound; auto. }
    destruct D as (e & E0 & ER & EB). pose proof (pe_pa l1) as A1.
    assert (M : Rabs (B2R a * B2R b + B2R r1) <= x + pa l1 + e).
    { eapply Rle_trans; [apply Rabs_triang|]. fold x. replace (B2R r1) with (pe l1 + (B2R r1 - pe l1)) by ring. pose proof (Rabs_triang (pe l1) (B2R r1 - pe l1)). lra. }
    assert (U : 0 <= u * e) by (apply Rmult_le_pos; lra). assert (U' : 0 <= u * (x + pa l1)) by (apply Rmult_le_pos; lra).
    assert (B : Rabs (B2R a * B2R b + B2R r1) <= bpow radix2 1000).
    { eapply Rle_trans; [exact M|]. eapply Rle_trans; [|exact HC]. eapply Rle_trans; [|apply bnd_cap; lra]. lra. }
    destruct (fma_correct a b r1 Fa Fb F1 B) as [F E]. split; [exact F|]. split; [intros ->; discriminate HL|]. intros _. rewrite E.
    replace (rnd64 (B2R a * B2R b + B2R r1) - (B2R a * B2R b + pe l1)) with ((rnd64 (B2R a * B2R b + B2R r1) - (B2R a * B2R b + B2R r1)) + (B2R r1 - pe l1)) by ring.
    eapply Rle_trans; [apply Rabs_triang|]. pose proof (rnd_any (B2R a * B2R b + B2R r1)) as RA.
    assert (u * Rabs (B2R a * B2R b + B2R r1) <= u * (x + pa l1 + e)) by (apply Rmult_le_compat_l; lra). lra.
Qed.

(** (1+u)^n to first order *)
Lemma up_lin n : INR n * u <= / 2 -> (1 + u) ^ n <= 1 + 2 * INR n * u.
Proof.
  pose proof u_pos as U0. induction n as [|n IH]; intro H; [cbn; lra|]. rewrite S_INR in *. rewrite up_S.
  assert (A : INR n * u <= / 2) by lra. specialize (IH A).
  assert ((1 + u) * (1 + u) ^ n <= (1 + u) * (1 + 2 * INR n * u)) by (apply Rmult_le_compat_l; lra).
  assert (2 * INR n * u * u <= u) by (replace (2 * INR n * u * u) with (2 * (INR n * u) * u) by ring; rewrite <- (Rmult_1_l u) at 3; apply Rmult_le_compat_r; lra). nra.
Qed.
Lemma summed_simple l r : summed l r -> pfin l -> INR (length l) * u <= / 2 -> 2 * (pa l + 1) <= bpow radix2 1000 ->
  is_finite r = true /\ Rabs (B2R r - pe l) <= 2 * INR (length l) * u * pa l + 4 * INR (length l) * s.
Proof.
  intros HS HF HN HB. pose proof u_pos as U0. pose proof s_pos as S0. pose proof (pa_pos l) as P. pose proof (up_ge1 (length l)) as G. pose proof (up_lin _ HN) as L.
  pose proof (pos_INR (length l)) as N0.
  assert (SU : 2 * s <= u). { unfold smallest, unit_roundoff. replace (2 * bpow radix2 (-1074)) with (bpow radix2 (-1073)) by (rewrite (bpow_plus radix2 1 (-1074)) || idtac; change (-1073)%Z with (1 + -1074)%Z; rewrite bpow_plus; reflexivity). apply bpow_le. lia. }
  assert (NS : 2 * INR (length l) * s <= / 2).
  { apply Rle_trans with (INR (length l) * u); [|exact HN]. replace (2 * INR (length l) * s) with (INR (length l) * (2 * s)) by ring. apply Rmult_le_compat_l; lra. }
  assert (U2 : (1 + u) ^ length l <= 2) by lra.
  assert (C : cap (length l) (pa l) <= bpow radix2 1000).
  { eapply Rle_trans; [|exact HB]. unfold cap. apply Rmult_le_compat; try lra. assert (0 <= 2 * INR (length l) * s) by (apply Rmult_le_pos; lra). lra. }
  destruct (summed_ok l r HS HF C) as (F & Z & E). split; [exact F|]. destruct l as [|p l].
  - rewrite Z by reflexivity. unfold pe, pa. cbn [map fold_right length INR]. rewrite Rminus_0_r, Rabs_R0. lra.
  - eapply Rle_trans; [apply E; discriminate|]. unfold bnd. set (n := length (p :: l)) in *. set (S := pa (p :: l)) in *.
    apply Rplus_le_compat; [apply Rmult_le_compat_r; lra|]. apply Rmult_le_compat_r; [lra|].
    assert (N1 : 1 <= INR n) by (apply INR1; cbn; lia). replace (4 * INR n) with (2 * INR n * 2) by ring. apply Rmult_le_compat; lra.
Qed.
Lemma combine_fin a b : all_finite a -> all_finite b -> pfin (combine a b).
Proof.
  intro Ha. revert b. induction Ha as [|x a Hx Ha IH]; intros b Hb; [constructor|]. destruct b as [|y b]; [constructor|]. cbn [combine].
  constructor; [split; [exact Hx|exact (Forall_inv Hb)]|]. apply IH. exact (Forall_inv_tail Hb).
Qed.
Lemma combine_len {A B} (a : list A) (b : list B) : (length (combine a b) <= length b)%nat.
Proof. rewrite combine_length. lia. Qed.
Lemma product_ok (row sl : list b64) (r : b64) : all_finite row -> all_finite sl -> summed (combine row sl) r ->
  let n := INR (length sl) in n * unit_roundoff <= / 2 -> 2 * (abs_sum row sl + 1) <= bpow radix2 1000 ->
  is_finite r = true /\ Rabs (B2R r - exact_sum row sl) <= 2 * n * unit_roundoff * abs_sum row sl + 4 * n * smallest.
Proof.
  intros HR HS H n HN HB. change (abs_sum row sl) with (pa (combine row sl)) in *. change (exact_sum row sl) with (pe (combine row sl)).
  pose proof u_pos as U0. pose proof s_pos as S0. pose proof (pa_pos (combine row sl)) as P.
  assert (L : INR (length (combine row sl)) <= n) by (apply le_INR, combine_len). pose proof (pos_INR (length (combine row sl))) as N0.
  destruct (summed_simple _ _ H (combine_fin _ _ HR HS)) as [F E]; [|exact HB|].
  - apply Rle_trans with (n * u); [apply Rmult_le_compat_r; lra|exact HN].
  - split; [exact F|]. eapply Rle_trans; [exact E|]. apply Rplus_le_compat; [|apply Rmult_le_compat_r; lra].
    apply Rmult_le_compat_r; [exact P|]. apply Rmult_le_compat_r; lra.
Qed.
Lemma forall2_nth {A B} (P : A -> B -> Prop) l l' : Forall2 P l l' -> forall n y, nth_error l' n = Some y -> exists x, nth_error l n = Some x /\ P x y.
Proof.
  induction 1 as [|x y l l' H HF IH]; intros n z Hn; [destruct n; discriminate|]. destruct n as [|n]; cbn [nth_error] in *; [|apply IH; exact Hn].
  injection Hn as <-. exists x. auto.
Qed.
Lemma owner_lt ms x m : fl_owner ms x = Some m -> (x < fl_total ms)%nat.
Proof.
  revert x. induction ms as [|a ms IH]; intros x H; [discriminate|]. cbn [fl_owner] in H. change (fl_total (a :: ms)) with (fm_acts a + fl_total ms)%nat.
  destruct (Nat.ltb_spec x (fm_acts a)); [lia|]. apply IH in H. lia.
Qed.
Lemma product_accurate ms nmeas ctrl range delta eta M t sl f :
  length ctrl = fl_total ms -> Forall all_finite ctrl -> 0 <= M -> INR nmeas * u <= / 2 -> 2 * (M + 1) <= bpow radix2 1000 ->
  slopes_accurate ms nmeas ctrl range delta eta M t sl -> (forall c, control_product ctrl (sl c) (f c)) ->
  fl_accurate ms range delta (eta + 2 * INR nmeas * u * M + 4 * INR nmeas * s) t f.
Proof.
  intros HC HF HM Hu HB HS HP c E HW HE. specialize (HP c). destruct (HS c E HW HE) as (LS & FS & A). unfold control_product in HP.
  assert (LF : length ctrl = length (f c)) by (clear -HP; induction HP; cbn; congruence). split; [congruence|]. intros x m O. pose proof (owner_lt _ _ _ O) as Hx.
  assert (X : exists y, nth_error (f c) x = Some y). { destruct (nth_error (f c) x) eqn:N; [eauto|]. apply nth_error_None in N. lia. }
  destruct X as (y & Hy). destruct (forall2_nth _ _ _ HP x y Hy) as (row & Hrow & Hs). rewrite (nth_error_nth _ _ fzero Hy).
  assert (FR : all_finite row) by (rewrite Forall_forall in HF; apply HF; eapply nth_error_In; exact Hrow).
  destruct (A x m row O Hrow) as [A1 A2].
  destruct (product_ok row (sl c) y FR FS Hs) as [F EE]; [rewrite LS; exact Hu|lra|]. split; [exact F|]. rewrite LS in EE.
  set (tt := if fm_closed m then t x - B2R (nth x c fzero) else t x) in *.
  replace (B2R y - tt) with ((B2R y - exact_sum row (sl c)) + (exact_sum row (sl c) - tt)) by ring. eapply Rle_trans; [apply Rabs_triang|].
  pose proof u_pos. pose proof (pos_INR nmeas).
  assert (2 * INR nmeas * u * abs_sum row (sl c) <= 2 * INR nmeas * u * M) by (apply Rmult_le_compat_l; [apply Rmult_le_pos; lra|exact A2]). lra.
Qed.

From Verif.Base Require Import Vec.
From Verif.Model Require Import Wfs.
From Verif.Spec Require Import WfsSpec.

(** ** Schedule of a single WFS *)
Fixpoint flags1 (sched : scheduler) (lt et : Qc) (it fno : Z) (n : nat) : list bool :=
  match n with
  | O => []
  | S m => let '(b, f') := sched lt et it fno in b :: flags1 sched lt et (it + 1) f' m
  end.
Fixpoint fno1 (sched : scheduler) (lt et : Qc) (it fno : Z) (n : nat) : Z :=
  match n with
  | O => fno
  | S m => fno1 sched lt et (it + 1) (snd (sched lt et it fno)) m
  end.

Lemma flags1_length sched lt et it fno n : length (flags1 sched lt et it fno n) = n.
Proof. revert it fno; induction n; intros; simpl; auto. destruct (sched lt et it fno). simpl. f_equal. auto. Qed.

Fixpoint sched_after (sched : scheduler) (lt : Qc) (ets : list Qc) (s : sched_state) (ops : list sched_op) :=
  match ops with
  | [] => s
  | SFrame :: r => sched_after sched lt ets (snd (sched_frame sched lt ets s)) r
  | SReset :: r => sched_after sched lt ets (mkSched 0 (frameNos s)) r
  end.

Lemma sched_run_app sched lt ets a : forall s b,
  sched_run sched lt ets s (a ++ b) = sched_run sched lt ets s a ++ sched_run sched lt ets (sched_after sched lt ets s a) b.
Proof.
  induction a as [|o a IH]; intros s b; [reflexivity|].
  destruct o; cbn [sched_run sched_after app].
  - destruct (sched_frame sched lt ets s) as [f s'] eqn:E. simpl. f_equal. apply IH.
  - apply IH.
Qed.

Lemma sched_frame_nth sched lt ets s w et fno :
  nth_error ets w = Some et -> nth_error (frameNos s) w = Some fno ->
  nth_error (fst (sched_frame sched lt ets s)) w = Some (fst (sched lt et (iters s) fno)) /\
  nth_error (frameNos (snd (sched_frame sched lt ets s))) w = Some (snd (sched lt et (iters s) fno)).
Proof.
  intros He Hf. unfold sched_frame; simpl.
  assert (H : nth_error (combine ets (frameNos s)) w = Some (et, fno)).
  { revert w He Hf. generalize (frameNos s). induction ets as [|e l IH]; intros fs w He Hf; destruct w; destruct fs; simpl in *; try discriminate.
    - congruence.
    - apply IH; auto. }
  rewrite !map_map. split.
  - rewrite nth_error_map, H. reflexivity.
  - rewrite nth_error_map, H. reflexivity.
Qed.

Lemma sched_frames_nth sched lt ets w et n : nth_error ets w = Some et -> forall s fno k,
  nth_error (frameNos s) w = Some fno -> (k < n)%nat ->
  flag (sched_run sched lt ets s (repeat SFrame n)) k w = nth_error (flags1 sched lt et (iters s) fno n) k.
Proof.
  intros He. induction n as [|n IH]; intros s fno k Hf Hk; [lia|].
  cbn [repeat sched_run flags1].
  pose proof (sched_frame_nth sched lt ets s w et fno He Hf) as [H1 H2].
  destruct (sched_frame sched lt ets s) as [f s'] eqn:Es.
  destruct (sched lt et (iters s) fno) as [b f'] eqn:Ed. simpl in H1, H2.
  destruct k as [|k]; cbn [nth_error].
  - unfold flag; simpl. exact H1.
  - unfold flag; simpl. change (match nth_error (sched_run sched lt ets s' (repeat SFrame n)) k with Some f0 => nth_error f0 w | None => None end)
      with (flag (sched_run sched lt ets s' (repeat SFrame n)) k w).
    rewrite (IH s' f' k) by (auto; lia).
    f_equal. f_equal. unfold sched_frame in Es. inversion Es; reflexivity.
Qed.

Lemma sched_after_frames sched lt ets w et n : nth_error ets w = Some et -> forall s fno,
  nth_error (frameNos s) w = Some fno ->
  nth_error (frameNos (sched_after sched lt ets s (repeat SFrame n))) w = Some (fno1 sched lt et (iters s) fno n) /\
  iters (sched_after sched lt ets s (repeat SFrame n)) = iters s + Z.of_nat n.
Proof.
  intros He. induction n as [|n IH]; intros s fno Hf; cbn [repeat sched_after fno1].
  - split; auto. lia.
  - pose proof (sched_frame_nth sched lt ets s w et fno He Hf) as [H1 H2].
    destruct (IH _ _ H2) as [E1 E2]. split.
    + rewrite E1. reflexivity.
    + rewrite E2. simpl. lia.
Qed.

Lemma sched_run_frames_length sched lt ets n : forall s, length (sched_run sched lt ets s (repeat SFrame n)) = n.
Proof. induction n; intros; cbn [repeat sched_run]; auto. destruct (sched_frame sched lt ets s). simpl. f_equal. auto. Qed.

Lemma sched_init_nth ets w et : nth_error ets w = Some et -> nth_error (frameNos (sched_init ets)) w = Some 0.
Proof. intros H. simpl. rewrite nth_error_map, H. reflexivity. Qed.

(** ** Counting exposures *)
Lemma Qcdiv_nonneg x y : (0 <= x)%Qc -> (0 < y)%Qc -> (0 <= x / y)%Qc.
Proof.
  intros Hx Hy. unfold Qcdiv.
  assert (0 < / y)%Qc.
  { unfold Qclt. simpl. rewrite Qred_correct. apply Qinv_lt_0_compat. exact Hy. }
  apply Qcmult_le_compat_r with (z := (/ y)%Qc) in Hx; [|apply Qclt_le_weak; auto].
  rewrite Qcmult_0_l in Hx. exact Hx.
Qed.
Lemma Qcpos_neq0 y : (0 < y)%Qc -> y <> 0%Qc.
Proof. intros H E. subst. qclra. Qed.
Lemma Qcdiv_le1 x y : (0 < y)%Qc -> (x <= y)%Qc -> (x / y <= 1)%Qc.
Proof.
  intros Hy Hx. assert (N := Qcpos_neq0 y Hy).
  assert (0 <= (y - x) / y)%Qc by (apply Qcdiv_nonneg; auto; qclra).
  replace ((y - x) / y)%Qc with (1 - x / y)%Qc in H by (field; auto). qclra.
Qed.
Lemma Qcdiv_lt1 x y : (0 < y)%Qc -> (x < y)%Qc -> (x / y < 1)%Qc.
Proof.
  intros Hy Hx. assert (N := Qcpos_neq0 y Hy).
  pose proof (Qcdiv_le1 x y Hy (Qclt_le_weak _ _ Hx)) as H.
  destruct (Qc_eq_dec (x / y) 1) as [E|E].
  - exfalso. assert (x = y). { transitivity (x / y * y)%Qc; [field; auto|]. rewrite E. ring. } subst. qclra.
  - qc_unfold. destruct (Qlt_le_dec (x / y)%Qc 1%Qc) as [G|G]; [exact G|]. exfalso. apply E. qclra.
Qed.
Lemma Qcdiv_ge1 x y : (0 < y)%Qc -> (y <= x)%Qc -> (1 <= x / y)%Qc.
Proof.
  intros Hy Hx. assert (N := Qcpos_neq0 y Hy).
  assert (0 <= (x - y) / y)%Qc by (apply Qcdiv_nonneg; auto; qclra).
  replace ((x - y) / y)%Qc with (x / y - 1)%Qc in H by (field; auto). qclra.
Qed.

Lemma due_floor lt et it fno : (0 < lt)%Qc -> (0 < et)%Qc -> 0 <= it ->
  due lt et it fno = negb (exposures_completed lt et (it + 1) =? fno).
Proof.
  intros Hl He Hi. unfold due, exposures_completed. f_equal. f_equal.
  rewrite qc_int_nonneg.
  - f_equal. rewrite (Qcmult_comm lt). reflexivity.
  - apply Qcdiv_nonneg; auto.
    assert (0 <= qz (it + 1))%Qc by (rewrite <- qz_0; apply qz_le; lia). qcnra.
Qed.

Lemma exposures_0 lt et : exposures_completed lt et 0 = 0.
Proof.
  unfold exposures_completed. rewrite qz_0. unfold Qcdiv. rewrite Qcmult_0_l, Qcmult_0_l.
  apply (qc_floor_qz 0).
Qed.

Lemma exposures_step lt et n : (0 < lt)%Qc -> (lt <= et)%Qc ->
  exposures_completed lt et n <= exposures_completed lt et (n + 1) <= exposures_completed lt et n + 1.
Proof.
  intros Hl He. unfold exposures_completed.
  assert (Hp : (0 < et)%Qc) by qclra. assert (N := Qcpos_neq0 et Hp).
  assert (E : (qz (n + 1) * lt / et = qz n * lt / et + lt / et)%Qc) by (rewrite qz_add, qz_1; field; auto).
  rewrite E. pose proof (Qcdiv_le1 lt et Hp He). pose proof (Qcdiv_nonneg lt et (Qclt_le_weak _ _ Hl) Hp).
  split.
  - apply qc_floor_mono. qclra.
  - rewrite <- qc_floor_add_z. apply qc_floor_mono. rewrite qz_1. qclra.
Qed.

Lemma exposures_mono lt et n m : (0 < lt)%Qc -> (0 < et)%Qc -> n <= m ->
  exposures_completed lt et n <= exposures_completed lt et m.
Proof.
  intros Hl He H. unfold exposures_completed. apply qc_floor_mono. assert (N := Qcpos_neq0 et He).
  assert (0 <= qz (m - n))%Qc by (rewrite <- qz_0; apply qz_le; lia).
  assert (0 <= qz (m - n) * lt / et)%Qc by (apply Qcdiv_nonneg; auto; qcnra).
  replace (qz m * lt / et)%Qc with (qz n * lt / et + qz (m - n) * lt / et)%Qc by (rewrite qz_sub; field; auto).
  qclra.
Qed.

Lemma exposures_ge lt et n : (0 < et)%Qc -> (et <= lt)%Qc -> 0 <= n -> n <= exposures_completed lt et n.
Proof.
  intros He Hl Hn. unfold exposures_completed. rewrite <- (qc_floor_qz n) at 1. apply qc_floor_mono.
  assert (N := Qcpos_neq0 et He).
  replace (qz n * lt / et)%Qc with (qz n * (lt / et))%Qc by (field; auto).
  assert (1 <= lt / et)%Qc by (apply Qcdiv_ge1; auto).
  assert (0 <= qz n)%Qc by (rewrite <- qz_0; apply qz_le; lia). qcnra.
Qed.

Lemma exposures_le lt et n : (0 < lt)%Qc -> (lt <= et)%Qc -> 0 <= n -> exposures_completed lt et n <= n.
Proof.
  intros Hl He. revert n. apply (Znonneg_ind (fun n => exposures_completed lt et n <= n)).
  - rewrite exposures_0. lia.
  - intros n Hn IH. pose proof (exposures_step lt et n Hl He). lia.
Qed.

Lemma exposures_lt lt et n : (0 < lt)%Qc -> (lt < et)%Qc -> 0 < n -> exposures_completed lt et n < n.
Proof.
  intros Hl He Hn. assert (Hp : (0 < et)%Qc) by qclra. assert (N := Qcpos_neq0 et Hp).
  unfold exposures_completed. destruct (qc_floor_spec (qz n * lt / et)%Qc) as [F _].
  apply qz_lt.
  replace (qz n * lt / et)%Qc with (qz n * (lt / et))%Qc in F |- * by (field; auto).
  assert (lt / et < 1)%Qc by (apply Qcdiv_lt1; auto).
  assert (0 < qz n)%Qc by (rewrite <- qz_0; apply qz_lt; lia). qcnra.
Qed.

Lemma exposures_multiple lt k n : (0 < lt)%Qc -> 0 < k -> 0 <= n ->
  exposures_completed lt (qz k * lt) n = n / k.
Proof.
  intros Hl Hk Hn. unfold exposures_completed.
  assert (N := Qcpos_neq0 lt Hl). assert (Nk : qz k <> 0%Qc) by (apply qz_neq0; lia).
  replace (qz n * lt / (qz k * lt))%Qc with (qz n / qz k)%Qc by (field; auto).
  assert (0 < qz k)%Qc by (rewrite <- qz_0; apply qz_lt; lia).
  assert (E : (qz n / qz k = qz (n / k) + qz (n mod k) / qz k)%Qc).
  { rewrite (Z.div_mod n k) at 1 by lia. rewrite qz_add, qz_mul. field; auto. }
  rewrite E. pose proof (Z.mod_pos_bound n k Hk).
  apply qc_floor_unique.
  - assert (0 <= qz (n mod k) / qz k)%Qc.
    { apply Qcdiv_nonneg; auto. rewrite <- qz_0. apply qz_le. lia. }
    qclra.
  - assert (qz (n mod k) / qz k < 1)%Qc by (apply Qcdiv_lt1; auto; apply qz_lt; lia).
    qclra.
Qed.

(** ** The fresh schedule *)
Lemma flags1_fresh lt et n : (0 < lt)%Qc -> (lt <= et)%Qc -> forall it k, 0 <= it -> (k < n)%nat ->
  nth_error (flags1 sched_noMP lt et it (exposures_completed lt et it) n) k
  = Some (negb (exposures_completed lt et (it + Z.of_nat k + 1) =? exposures_completed lt et (it + Z.of_nat k))).
Proof.
  intros Hl He. assert (Hp : (0 < et)%Qc) by qclra.
  induction n as [|n IH]; intros it k Hi Hk; [lia|].
  cbn [flags1]. unfold sched_noMP at 1.
  rewrite due_floor by auto.
  pose proof (exposures_step lt et it Hl He).
  destruct (Z.eqb_spec (exposures_completed lt et (it + 1)) (exposures_completed lt et it)) as [E|E]; simpl negb; cbv iota.
  - destruct k as [|k]; simpl nth_error.
    + rewrite Z.add_0_r, E, Z.eqb_refl. reflexivity.
    + rewrite <- E. rewrite (IH (it + 1) k) by lia. f_equal.
      replace (it + 1 + Z.of_nat k) with (it + Z.of_nat (S k)) by lia. reflexivity.
  - destruct k as [|k]; simpl nth_error.
    + rewrite Z.add_0_r. destruct (Z.eqb_spec (exposures_completed lt et (it + 1)) (exposures_completed lt et it)); [contradiction|reflexivity].
    + replace (exposures_completed lt et it + 1) with (exposures_completed lt et (it + 1)) by lia.
      rewrite (IH (it + 1) k) by lia. f_equal.
      replace (it + 1 + Z.of_nat k) with (it + Z.of_nat (S k)) by lia. reflexivity.
Qed.

Lemma fno1_fresh lt et n : (0 < lt)%Qc -> (lt <= et)%Qc -> forall it, 0 <= it ->
  fno1 sched_noMP lt et it (exposures_completed lt et it) n = exposures_completed lt et (it + Z.of_nat n).
Proof.
  intros Hl He. assert (Hp : (0 < et)%Qc) by qclra.
  induction n as [|n IH]; intros it Hi; cbn [fno1]; [f_equal; lia|].
  unfold sched_noMP at 2. rewrite due_floor by auto. pose proof (exposures_step lt et it Hl He).
  destruct (Z.eqb_spec (exposures_completed lt et (it + 1)) (exposures_completed lt et it)) as [E|E]; simpl.
  - rewrite <- E, IH by lia. f_equal. lia.
  - replace (exposures_completed lt et it + 1) with (exposures_completed lt et (it + 1)) by lia.
    rewrite IH by lia. f_equal. lia.
Qed.

(** a WFS faster than the loop: frameNo never overtakes *)
Lemma flags1_fast lt et n : (0 < et)%Qc -> (et <= lt)%Qc -> forall it fno, 0 <= it -> fno <= it ->
  flags1 sched_noMP lt et it fno n = repeat true n.
Proof.
  intros He Hl. assert (0 < lt)%Qc by qclra.
  induction n as [|n IH]; intros it fno Hi Hf; [reflexivity|].
  cbn [flags1 repeat]. unfold sched_noMP at 1. rewrite due_floor by auto.
  pose proof (exposures_ge lt et (it + 1) He Hl ltac:(lia)).
  destruct (Z.eqb_spec (exposures_completed lt et (it + 1)) fno); [lia|]. simpl.
  f_equal. apply IH; lia.
Qed.

Lemma repeat_nth_error {A} (x : A) n k : (k < n)%nat -> nth_error (repeat x n) k = Some x.
Proof. revert k; induction n; intros [|k] H; simpl; auto; try lia. apply IHn; lia. Qed.

Lemma schedule_slow lt ets w et n k : (0 < lt)%Qc -> (lt <= et)%Qc -> nth_error ets w = Some et -> (k < n)%nat ->
  flag (sched_run sched_noMP lt ets (sched_init ets) (repeat SFrame n)) k w
  = Some (negb (exposures_completed lt et (Z.of_nat k + 1) =? exposures_completed lt et (Z.of_nat k))).
Proof.
  intros Hl He Hw Hk.
  rewrite (sched_frames_nth sched_noMP lt ets w et n Hw _ 0 k) by (auto; eapply sched_init_nth; eauto).
  pose proof (flags1_fresh lt et n Hl He 0 k ltac:(lia) Hk) as F.
  rewrite exposures_0, Z.add_0_l in F. exact F.
Qed.

Lemma schedule_fast lt ets w et n k : (0 < et)%Qc -> (et <= lt)%Qc -> nth_error ets w = Some et -> (k < n)%nat ->
  flag (sched_run sched_noMP lt ets (sched_init ets) (repeat SFrame n)) k w = Some true.
Proof.
  intros Hl He Hw Hk.
  rewrite (sched_frames_nth sched_noMP lt ets w et n Hw _ 0 k) by (auto; eapply sched_init_nth; eauto).
  rewrite flags1_fast by (auto; simpl; lia). apply repeat_nth_error; auto.
Qed.

Lemma schedule_every_kth lt ets w p n k : (0 < lt)%Qc -> 0 < p -> nth_error ets w = Some (qz p * lt)%Qc -> (k < n)%nat ->
  flag (sched_run sched_noMP lt ets (sched_init ets) (repeat SFrame n)) k w
  = Some ((Z.of_nat k + 1) mod p =? 0).
Proof.
  intros Hl Hp Hw Hk.
  assert (1 <= qz p)%Qc by (rewrite <- qz_1; apply qz_le; lia).
  rewrite (schedule_slow lt ets w (qz p * lt)%Qc n k) by (auto; qcnra).
  f_equal. rewrite !exposures_multiple by (auto; lia).
  destruct (Z.eqb_spec ((Z.of_nat k + 1) mod p) 0) as [M|M];
    destruct (Z.eqb_spec ((Z.of_nat k + 1) / p) (Z.of_nat k / p)) as [D|D]; simpl; auto; exfalso.
  - pose proof (Z.div_mod (Z.of_nat k) p ltac:(lia)). pose proof (Z.div_mod (Z.of_nat k + 1) p ltac:(lia)).
    pose proof (Z.mod_pos_bound (Z.of_nat k) p Hp). rewrite D, M in *. lia.
  - apply D. apply Z.div_unique with (r := (Z.of_nat k + 1) mod p - 1).
    + left. pose proof (Z.mod_pos_bound (Z.of_nat k + 1) p Hp). lia.
    + pose proof (Z.div_mod (Z.of_nat k + 1) p ltac:(lia)). lia.
Qed.

Lemma reads_ext fs gs w n : (forall k, (k < n)%nat -> flag fs k w = flag gs k w) -> reads fs w n = reads gs w n.
Proof. induction n; intros H; simpl; auto. rewrite IHn by (intros; apply H; lia). rewrite (H n) by lia. reflexivity. Qed.

Lemma schedule_count lt ets w et n m : (0 < lt)%Qc -> (lt <= et)%Qc -> nth_error ets w = Some et -> (m <= n)%nat ->
  reads (sched_run sched_noMP lt ets (sched_init ets) (repeat SFrame n)) w m
  = exposures_completed lt et (Z.of_nat m).
Proof.
  intros Hl He Hw. induction m as [|m IH]; intros Hm.
  - simpl. symmetry. apply exposures_0.
  - cbn [reads]. rewrite IH by lia. rewrite (schedule_slow lt ets w et n m) by (auto; lia).
    pose proof (exposures_step lt et (Z.of_nat m) Hl He).
    replace (Z.of_nat (S m)) with (Z.of_nat m + 1) by lia.
    destruct (Z.eqb_spec (exposures_completed lt et (Z.of_nat m + 1)) (exposures_completed lt et (Z.of_nat m))); simpl; lia.
Qed.

Lemma schedule_count_fast lt ets w et n m : (0 < et)%Qc -> (et <= lt)%Qc -> nth_error ets w = Some et -> (m <= n)%nat ->
  reads (sched_run sched_noMP lt ets (sched_init ets) (repeat SFrame n)) w m = Z.of_nat m.
Proof.
  intros Hl He Hw. induction m as [|m IH]; intros Hm; auto.
  cbn [reads]. rewrite IH by lia. rewrite (schedule_fast lt ets w et n m) by (auto; lia). lia.
Qed.

(** ** After a reset *)
Lemma flags1_always lt et n : (0 < lt)%Qc -> (lt < et)%Qc -> forall it fno, 0 <= it -> it + 1 <= fno ->
  flags1 sched_noMP lt et it fno n = repeat true n.
Proof.
  intros Hl He. assert (0 < et)%Qc by qclra.
  induction n as [|n IH]; intros it fno Hi Hf; [reflexivity|].
  cbn [flags1 repeat]. unfold sched_noMP at 1. rewrite due_floor by auto.
  pose proof (exposures_lt lt et (it + 1) Hl He ltac:(lia)).
  destruct (Z.eqb_spec (exposures_completed lt et (it + 1)) fno); [lia|]. simpl.
  f_equal. apply IH; lia.
Qed.

Lemma run_after_reset lt ets w et m n k : nth_error ets w = Some et -> (k < n)%nat ->
  flag (sched_run sched_noMP lt ets (sched_init ets) (repeat SFrame m ++ SReset :: repeat SFrame n)) (m + k) w
  = nth_error (flags1 sched_noMP lt et 0 (fno1 sched_noMP lt et 0 0 m) n) k.
Proof.
  intros Hw Hk. rewrite sched_run_app. unfold flag.
  rewrite nth_error_app2 by (rewrite sched_run_frames_length; lia).
  rewrite sched_run_frames_length. replace (m + k - m)%nat with k by lia.
  cbn [sched_run].
  destruct (sched_after_frames sched_noMP lt ets w et m Hw (sched_init ets) 0 (sched_init_nth _ _ _ Hw)) as [E _].
  change (match nth_error (sched_run sched_noMP lt ets
             {| iters := 0; frameNos := frameNos (sched_after sched_noMP lt ets (sched_init ets) (repeat SFrame m)) |}
             (repeat SFrame n)) k with Some f => nth_error f w | None => None end)
    with (flag (sched_run sched_noMP lt ets
             {| iters := 0; frameNos := frameNos (sched_after sched_noMP lt ets (sched_init ets) (repeat SFrame m)) |}
             (repeat SFrame n)) k w).
  set (s1 := sched_after sched_noMP lt ets (sched_init ets) (repeat SFrame m)) in *.
  rewrite (sched_frames_nth sched_noMP lt ets w et n Hw (mkSched 0 (frameNos s1)) _ k E Hk). reflexivity.
Qed.

Lemma reset_reads_every_frame lt ets w et m n k : (0 < lt)%Qc -> (lt < et)%Qc -> nth_error ets w = Some et ->
  1 <= exposures_completed lt et (Z.of_nat m) -> (k < n)%nat ->
  flag (sched_run sched_noMP lt ets (sched_init ets) (repeat SFrame m ++ SReset :: repeat SFrame n)) (m + k) w
  = Some true.
Proof.
  intros Hl He Hw Hm Hk. rewrite (run_after_reset lt ets w et) by auto.
  pose proof (fno1_fresh lt et m Hl (Qclt_le_weak _ _ He) 0 ltac:(lia)) as E.
  rewrite exposures_0, Z.add_0_l in E. rewrite E.
  rewrite flags1_always by (auto; lia). apply repeat_nth_error; auto.
Qed.

Lemma reset_same_when_unread lt ets w et m n k : (0 < lt)%Qc -> (lt <= et)%Qc -> nth_error ets w = Some et ->
  exposures_completed lt et (Z.of_nat m) = 0 -> (k < n)%nat ->
  flag (sched_run sched_noMP lt ets (sched_init ets) (repeat SFrame m ++ SReset :: repeat SFrame n)) (m + k) w
  = flag (sched_run sched_noMP lt ets (sched_init ets) (repeat SFrame n)) k w.
Proof.
  intros Hl He Hw Hm Hk. rewrite (run_after_reset lt ets w et) by auto.
  pose proof (fno1_fresh lt et m Hl He 0 ltac:(lia)) as E.
  rewrite exposures_0, Z.add_0_l in E. rewrite E, Hm.
  symmetry. rewrite (sched_frames_nth sched_noMP lt ets w et n Hw _ 0 k) by (auto; eapply sched_init_nth; eauto).
  reflexivity.
Qed.

Lemma flags1_equal_after lt n : (0 < lt)%Qc -> forall it fno, 0 <= it -> it + 2 <= fno ->
  flags1 sched_noMP lt lt it fno n = repeat true n.
Proof.
  intros Hl. induction n as [|n IH]; intros it fno Hi Hf; [reflexivity|].
  cbn [flags1 repeat]. unfold sched_noMP at 1. rewrite due_floor by auto.
  pose proof (exposures_le lt lt (it + 1) Hl ltac:(qclra) ltac:(lia)).
  destruct (Z.eqb_spec (exposures_completed lt lt (it + 1)) fno); [lia|]. simpl.
  f_equal. apply IH; lia.
Qed.

Lemma exposures_same lt n : (0 < lt)%Qc -> 0 <= n -> exposures_completed lt lt n = n.
Proof.
  intros Hl Hn. pose proof (exposures_le lt lt n Hl ltac:(qclra) Hn).
  pose proof (exposures_ge lt lt n Hl ltac:(qclra) Hn). lia.
Qed.

Lemma reset_same_default lt ets w m n k : (0 < lt)%Qc -> nth_error ets w = Some lt ->
  m <> 1%nat -> (k < n)%nat ->
  flag (sched_run sched_noMP lt ets (sched_init ets) (repeat SFrame m ++ SReset :: repeat SFrame n)) (m + k) w
  = Some true.
Proof.
  intros Hl Hw Hm Hk. rewrite (run_after_reset lt ets w lt) by auto.
  pose proof (fno1_fresh lt lt m Hl ltac:(qclra) 0 ltac:(lia)) as E.
  rewrite exposures_0, Z.add_0_l, exposures_same in E by (auto; lia). rewrite E.
  destruct m as [|m].
  - rewrite flags1_fast by (auto; try lia; qclra). apply repeat_nth_error; auto.
  - rewrite flags1_equal_after by (auto; lia). apply repeat_nth_error; auto.
Qed.

(** ** Multi-process decisions *)
Lemma mp_flags_later lt et n : (0 < lt)%Qc -> (lt < et)%Qc -> forall k, (k < n)%nat ->
  nth_error (flags1 sched_MP lt et 0 0 n) k =
  if (k =? 0)%nat then Some true else nth_error (flags1 sched_noMP lt et 0 0 n) k.
Proof.
  intros Hl He k Hk. destruct n as [|n]; [lia|].
  assert (Hp : (0 < et)%Qc) by qclra.
  assert (G : forall m it fno, 0 < it -> flags1 sched_MP lt et it fno m = flags1 sched_noMP lt et it fno m).
  { clear. induction m; intros; cbn [flags1]; auto.
    assert (E : sched_MP lt et it fno = sched_noMP lt et it fno).
    { unfold sched_MP. destruct (Z.eqb_spec it 0); [lia|reflexivity]. }
    rewrite E. destruct (sched_noMP lt et it fno). f_equal. apply IHm. lia. }
  assert (E1 : sched_MP lt et 0 0 = (true, 0)) by reflexivity.
  assert (E0 : exposures_completed lt et 1 = 0).
  { pose proof (exposures_lt lt et 1 Hl He ltac:(lia)). pose proof (exposures_step lt et 0 Hl (Qclt_le_weak _ _ He)).
    rewrite exposures_0 in *. simpl in *. lia. }
  assert (E2 : sched_noMP lt et 0 0 = (false, 0)).
  { unfold sched_noMP. rewrite due_floor by (auto; lia). simpl (0 + 1). rewrite E0. reflexivity. }
  cbn [flags1]. rewrite E1, E2. destruct k as [|k]; [reflexivity|]. cbn [nth_error Nat.eqb].
  rewrite G by lia. reflexivity.
Qed.

Lemma mp_flags_fast lt et n : (0 < et)%Qc -> (et <= lt)%Qc ->
  flags1 sched_MP lt et 0 0 n = flags1 sched_noMP lt et 0 0 n.
Proof.
  intros He Hl. rewrite flags1_fast by (auto; lia). destruct n as [|n]; auto.
  cbn [flags1 repeat]. change (sched_MP lt et 0 0) with (true, 0). cbv iota beta.
  assert (G : forall m it fno, 0 < it -> flags1 sched_MP lt et it fno m = flags1 sched_noMP lt et it fno m).
  { clear. induction m; intros; cbn [flags1]; auto.
    assert (E : sched_MP lt et it fno = sched_noMP lt et it fno).
    { unfold sched_MP. destruct (Z.eqb_spec it 0); [lia|reflexivity]. }
    rewrite E. destruct (sched_noMP lt et it fno). f_equal. apply IHm. lia. }
  rewrite G by lia. rewrite flags1_fast by (auto; lia). reflexivity.
Qed.

Lemma mp_agree_later lt ets w et n k : (0 < lt)%Qc -> (0 < et)%Qc -> nth_error ets w = Some et -> (0 < k < n)%nat ->
  flag (sched_run sched_MP lt ets (sched_init ets) (repeat SFrame n)) k w
  = flag (sched_run sched_noMP lt ets (sched_init ets) (repeat SFrame n)) k w.
Proof.
  intros Hl He Hw Hk.
  rewrite (sched_frames_nth sched_MP lt ets w et n Hw _ 0 k) by (try lia; eapply sched_init_nth; eauto).
  rewrite (sched_frames_nth sched_noMP lt ets w et n Hw _ 0 k) by (try lia; eapply sched_init_nth; eauto).
  simpl iters. destruct (Qclt_le_dec lt et) as [H|H].
  - rewrite mp_flags_later by (auto; lia). destruct (Nat.eqb_spec k 0); [lia|reflexivity].
  - rewrite mp_flags_fast; auto.
Qed.

Lemma mp_differs_first lt ets w et n : (0 < lt)%Qc -> (lt < et)%Qc -> nth_error ets w = Some et -> (0 < n)%nat ->
  flag (sched_run sched_MP lt ets (sched_init ets) (repeat SFrame n)) 0 w = Some true /\
  flag (sched_run sched_noMP lt ets (sched_init ets) (repeat SFrame n)) 0 w = Some false.
Proof.
  intros Hl He Hw Hn. split.
  - rewrite (sched_frames_nth sched_MP lt ets w et n Hw _ 0 0) by (try lia; eapply sched_init_nth; eauto).
    simpl iters. rewrite mp_flags_later by (auto; lia). reflexivity.
  - rewrite (schedule_slow lt ets w et n 0) by (auto; qclra). f_equal.
    pose proof (exposures_lt lt et 1 Hl He ltac:(lia)). pose proof (exposures_step lt et 0 Hl (Qclt_le_weak _ _ He)).
    rewrite exposures_0 in *. simpl in *. replace (exposures_completed lt et 1) with 0 by lia. reflexivity.
Qed.

(** ** The measurement vector *)
Lemma splice_app (a b c v : vec) : length v = length b -> splice (a ++ b ++ c) (length a) v = a ++ v ++ c.
Proof.
  intros E. unfold splice.
  rewrite firstn_app, Nat.sub_diag, firstn_all. simpl. rewrite app_nil_r. f_equal. f_equal.
  rewrite E, <- app_length, app_assoc, skipn_app, skipn_all, Nat.sub_diag. reflexivity.
Qed.

Lemma fold_counts_shift {A} (f : A -> nat) l t : fold_left (fun t p => (t + f p)%nat) l t = (t + fold_left (fun t p => (t + f p)%nat) l 0)%nat.
Proof. revert t; induction l as [|x l IH]; intros t; simpl; [lia|]. rewrite IH, (IH (f x)). lia. Qed.

Lemma fold_add_shift l : forall t, fold_left Nat.add l t = (t + fold_left Nat.add l 0)%nat.
Proof. induction l as [|x l IH]; intros t; simpl; [lia|]. rewrite IH, (IH x). lia. Qed.

Lemma fill_slopes_ok rs vs : Forall2 (fun p v => snd p = Ok v /\ length v = fst p) rs vs ->
  forall done k, k = fold_left (fun t p => (t + fst p)%nat) rs 0%nat ->
  fill_slopes (done ++ vzero k) (length done) rs = Ok (done ++ concat vs).
Proof.
  induction 1 as [|[n r] v rs vs [Hr Hn] HF IH]; intros don k Ek; simpl in *.
  - subst k. simpl. reflexivity.
  - subst r. simpl. rewrite Hn, Nat.eqb_refl.
    rewrite fold_counts_shift in Ek.
    replace (vzero k) with (vzero n ++ vzero (k - n)).
    2: { unfold vzero. rewrite <- repeat_app. f_equal. lia. }
    rewrite splice_app by (rewrite vzero_length; auto).
    rewrite app_assoc. replace (length don + n)%nat with (length (don ++ v)) by (rewrite app_length; lia).
    rewrite (IH (don ++ v) (k - n)%nat) by lia. rewrite app_assoc. reflexivity.
Qed.

Lemma run_wfs_slopes_ok rs vs : Forall2 (fun p v => snd p = Ok v /\ length v = fst p) rs vs ->
  run_wfs_slopes rs = Ok (concat vs).
Proof. intros H. apply (fill_slopes_ok rs vs H [] _ eq_refl). Qed.

Lemma fill_slopes_mismatch rs : forall buf s,
  Exists (fun p => exists v, snd p = Ok v /\ length v <> fst p /\ length v <> 1%nat) rs ->
  (forall p, In p rs -> exists v, snd p = Ok v) -> fill_slopes buf s rs = Err ValueError.
Proof.
  induction rs as [|[n r] rs IH]; intros buf s HE HA; [inversion HE|].
  destruct (HA (n, r) (or_introl eq_refl)) as [v Hv]. simpl in Hv. subst r. cbn [fill_slopes bind].
  inversion HE as [? ? (v' & E1 & E2 & E3)|? ? HE']; subst.
  - simpl in *. inversion E1; subst v'.
    destruct (Nat.eqb_spec (length v) n); [congruence|].
    destruct v as [|x [|y v]]; auto. simpl in E3; congruence.
  - assert (R : forall b t, fill_slopes b t rs = Err ValueError) by (intros; apply IH; auto; intros; apply HA; right; auto).
    destruct (Nat.eqb_spec (length v) n); [apply R|].
    destruct v as [|x [|y v]]; auto.
Qed.

Lemma data_starts_nth ns : forall t i n, nth_error ns i = Some n ->
  nth_error (data_starts t ns) i = Some (t + Z.of_nat (fold_left Nat.add (firstn i ns) 0%nat)).
Proof.
  induction ns as [|m ns IH]; intros t [|i] n H; simpl in *; try discriminate.
  - f_equal. lia.
  - rewrite (IH _ i n H). f_equal.
    rewrite (fold_add_shift (firstn i ns) m). lia.
Qed.

Lemma concat_segment (vs : list vec) : forall i v, nth_error vs i = Some v ->
  firstn (length v) (skipn (fold_left Nat.add (firstn i (map (@length Qc) vs)) 0%nat) (concat vs)) = v.
Proof.
  induction vs as [|u vs IH]; intros [|i] v H; simpl in *; try discriminate.
  - inversion H; subst. rewrite firstn_app, Nat.sub_diag, firstn_all. simpl. apply app_nil_r.
  - rewrite fold_add_shift.
    rewrite skipn_app. rewrite skipn_all2 by lia. simpl.
    replace (length u + fold_left Nat.add (firstn i (map (length (A:=Qc)) vs)) 0 - length u)%nat
      with (fold_left Nat.add (firstn i (map (length (A:=Qc)) vs)) 0%nat) by lia.
    apply IH; auto.
Qed.

Lemma Forall2_lengths rs vs : Forall2 (fun (p : nat * result vec) (v : vec) => snd p = Ok v /\ length v = fst p) rs vs ->
  map fst rs = map (@length Qc) vs.
Proof. induction 1 as [|p v rs vs [H1 H2] _ IH]; simpl; auto. congruence. Qed.

Lemma fold_left_Zadd ns t : fold_left (fun t n => t + Z.of_nat n) ns t = t + Z.of_nat (fold_left Nat.add ns 0%nat).
Proof.
  revert t; induction ns as [|n ns IH]; intros t; simpl; [lia|]. rewrite IH.
  rewrite (fold_add_shift ns n). lia.
Qed.

Lemma concat_length_fold (vs : list vec) : length (concat vs) = fold_left Nat.add (map (@length Qc) vs) 0%nat.
Proof.
  induction vs as [|v vs IH]; simpl; auto. rewrite app_length, IH.
  rewrite (fold_add_shift _ (length v)). reflexivity.
Qed.

Lemma fold_firstn_le ns i n : nth_error ns i = Some n ->
  (fold_left Nat.add (firstn i ns) 0 + n <= fold_left Nat.add ns 0)%nat.
Proof.
  revert i; induction ns as [|m ns IH]; intros [|i] H; simpl in *; try discriminate.
  - inversion H; subst. rewrite (fold_add_shift ns n). lia.
  - rewrite (fold_add_shift ns m), (fold_add_shift (firstn i ns) m).
    specialize (IH i H). lia.
Qed.

Lemma layout (rs : list (nat * result vec)) (vs : list vec) : Forall2 (fun p v => snd p = Ok v /\ length v = fst p) rs vs ->
  exists out, run_wfs_slopes rs = Ok out /\
    Z.of_nat (length out) = total_data (map fst rs) /\
    forall i v, nth_error vs i = Some v ->
      exists st, nth_error (data_starts 0 (map fst rs)) i = Some st /\
                 pyslice out st (st + Z.of_nat (length v)) = v.
Proof.
  intros H. exists (concat vs). split; [apply run_wfs_slopes_ok; auto|].
  rewrite (Forall2_lengths rs vs H). split.
  - unfold total_data. rewrite fold_left_Zadd, concat_length_fold. lia.
  - intros i v Hv. assert (Hn : nth_error (map (length (A:=Qc)) vs) i = Some (length v)) by exact (map_nth_error (length (A:=Qc)) i vs Hv).
    eexists. split; [apply (data_starts_nth _ 0 i (length v) Hn)|].
    pose proof (fold_firstn_le _ _ _ Hn) as L.
    rewrite Z.add_0_l.
    pose proof (concat_length_fold vs) as CL.
    rewrite pyslice_in by lia.
    rewrite !Nat2Z.id. apply concat_segment. exact Hv.
Qed.

Lemma data_starts_contiguous ns : forall t i s n, nth_error (data_starts t ns) i = Some s -> nth_error ns i = Some n ->
  match nth_error (data_starts t ns) (S i) with
  | Some s' => s' = s + Z.of_nat n
  | None => s + Z.of_nat n = t + total_data ns
  end.
Proof.
  assert (T : forall m l, total_data (m :: l) = Z.of_nat m + total_data l).
  { intros. unfold total_data. simpl. rewrite !fold_left_Zadd. lia. }
  induction ns as [|m ns IH]; intros t [|i] s n Hs Hn; simpl in *; try discriminate.
  - inversion Hs; inversion Hn; subst. destruct ns as [|m2 ns]; simpl.
    + rewrite T. unfold total_data; simpl. lia.
    + reflexivity.
  - specialize (IH _ i s n Hs Hn). destruct ns as [|m2 ns]; [destruct i; discriminate|].
    simpl in IH |- *. destruct (nth_error (data_starts (t + Z.of_nat m + Z.of_nat m2) ns) i); auto.
    rewrite T. lia.
Qed.

(** ** Multi-process mode never returns *)
Lemma mp_blocks rs : rs <> [] -> run_wfs_MP rs = BlocksForever.
Proof.
  destruct rs as [|[n r] rs]; [congruence|]. intros _. unfold run_wfs_MP. simpl.
  destruct r; reflexivity.
Qed.

(** ** The detector *)
Section DetectorProofs.
  Variables nfoc ndet nmeas : nat.
  Variable to_detector : vec -> vec.
  Variable read_out : vec -> vec.
  Variable centroid : vec -> vec.
  Hypothesis to_detector_shape : forall x, length x = nfoc -> length (to_detector x) = ndet.

  Notation wfs_frame := (wfs_frame nfoc ndet nmeas to_detector read_out centroid).
  Notation wfs_run := (wfs_run nfoc ndet nmeas to_detector read_out centroid).
  Notation wfs_after := (wfs_after nfoc ndet nmeas to_detector read_out centroid).

  Definition plain (p : bool * frame_in) : Prop := length (fi_intensity (snd p)) = nfoc /\ fi_uplink (snd p) = None.

  Lemma wfs_run_nth fs : forall s k p, nth_error fs k = Some p ->
    nth_error (wfs_run s fs) k =
      Some (let '(s', sl, im) := wfs_frame (wfs_after s (firstn k fs)) (fst p) (snd p) in (sl, im)).
  Proof.
    induction fs as [|[r i] fs IH]; intros s k p H; destruct k as [|k]; simpl in H; try discriminate.
    - inversion H; subst. cbn [Wfs.wfs_run firstn Wfs.wfs_after fst snd]. destruct (wfs_frame s r i) as [[s' sl] im]. reflexivity.
    - cbn [Wfs.wfs_run firstn Wfs.wfs_after].
      destruct (wfs_frame s r i) as [[s' sl] im]. simpl nth_error. rewrite (IH s' k p H). reflexivity.
  Qed.

  Lemma fold_vadd_acc ims : forall a, length a = nfoc -> Forall (fun v => length v = nfoc) ims ->
    length (fold_left vadd ims a) = nfoc /\ fold_left vadd ims a = vadd a (fold_left vadd ims (vzero nfoc)).
  Proof.
    induction ims as [|v ims IH]; intros a Ha HF; simpl.
    - split; auto. rewrite vadd_0_r; auto.
    - inversion HF; subst. rewrite (vadd_0_l (length a)) by congruence.
      destruct (IH (vadd a v)) as [L E]; auto. { rewrite vadd_length; congruence. }
      split; auto. rewrite E. destruct (IH v) as [_ E2]; auto. rewrite E2. now rewrite vadd_assoc.
  Qed.

  Lemma focus_after_plain fs : forall s, length (focus s) = nfoc -> Forall plain fs ->
    Forall (fun p => fst p = false) fs ->
    focus (wfs_after s fs) = fold_left vadd (map (fun p => fi_intensity (snd p)) fs) (focus s).
  Proof.
    induction fs as [|[r i] fs IH]; intros s Hs HP HR; auto.
    apply Forall_cons_iff in HP as [[H1 H2] HP']. apply Forall_cons_iff in HR as [H3 HR'].
    cbn [fst snd] in *. subst r. cbn [Wfs.wfs_after map fold_left snd].
    unfold Wfs.wfs_frame. rewrite H2. cbn [fst]. rewrite IH; auto. simpl. rewrite vadd_length; congruence.
  Qed.

  Lemma focus_after_read s fs i : focus (wfs_after s (fs ++ [(true, i)])) = vzero nfoc.
  Proof.
    revert s; induction fs as [|[r j] fs IH]; intros s; simpl; auto.
  Qed.

  Lemma wfs_after_app s a b : wfs_after s (a ++ b) = wfs_after (wfs_after s a) b.
  Proof. revert s; induction a as [|[r i] a IH]; intros s; simpl; auto. Qed.

  Lemma wfs_after_shape fs : forall s, length (focus s) = nfoc -> Forall plain fs -> length (focus (wfs_after s fs)) = nfoc.
  Proof.
    induction fs as [|[r i] fs IH]; intros s Hs HP; auto. apply Forall_cons_iff in HP as [[H1 H2] HP'].
    cbn [fst snd] in *. cbn [Wfs.wfs_after]. unfold Wfs.wfs_frame. rewrite H2. apply IH; auto. destruct r; simpl; [apply vzero_length|]. rewrite vadd_length; congruence.
  Qed.

  Lemma image_is_exposure fs k i first :
    Forall plain fs -> nth_error fs k = Some (true, i) ->
    exposure_start (fun j => match nth_error fs j with Some (r, _) => r | None => false end) first k ->
    let image := to_detector (image_sum nfoc
        (map (fun p => fi_intensity (snd p)) (firstn (S k - first) (skipn first fs)))) in
    nth_error (wfs_run (wfs_init nfoc ndet nmeas) fs) k = Some (centroid (read_out image), Some image).
  Proof.
    intros HP Hk (H1 & H2 & H3) image.
    rewrite (wfs_run_nth fs _ k _ Hk). simpl fst; simpl snd.
    assert (Hpi : plain (true, i)). { rewrite Forall_forall in HP. apply HP. eapply nth_error_In; eauto. }
    destruct Hpi as [Hi1 Hi2]. simpl in Hi1, Hi2.
    assert (HPf : forall n, Forall plain (firstn n fs)).
    { intros n. apply Forall_forall. intros p Hin. rewrite Forall_forall in HP. apply HP.
      rewrite <- (firstn_skipn n fs). apply in_or_app; auto. }
    (* the frames before k split at [first] *)
    assert (Hlen : (k < length fs)%nat) by (apply nth_error_Some; congruence).
    assert (Es : firstn k fs = firstn first fs ++ firstn (k - first) (skipn first fs)).
    { rewrite firstn_skipn_comm. replace (first + (k - first))%nat with k by lia.
      rewrite <- (firstn_skipn first (firstn k fs)) at 1. rewrite firstn_firstn, Nat.min_l by lia. reflexivity. }
    assert (F0 : focus (wfs_after (wfs_init nfoc ndet nmeas) (firstn first fs)) = vzero nfoc).
    { destruct H3 as [->|(p & -> & Hp)]; [reflexivity|].
      destruct (nth_error fs p) as [[r j]|] eqn:Ep; [|discriminate]. subst r.
      rewrite (firstn_skipn_comm 1 p fs) || idtac.
      assert (Ef : firstn (S p) fs = firstn p fs ++ [(true, j)]).
      { clear -Ep. revert fs Ep. induction p as [|p IH]; intros [|x fs] Ep; simpl in *; try discriminate; [congruence|].
        f_equal. apply IH; auto. }
      rewrite Ef. apply focus_after_read. }
    set (seg := firstn (k - first) (skipn first fs)) in *.
    assert (Hseg : Forall (fun p => fst p = false) seg).
    { apply Forall_forall. intros [r j] Hin. simpl. apply In_nth_error in Hin as [q Hq].
      unfold seg in Hq.
      assert (q < k - first)%nat.
      { assert (q < length (firstn (k - first) (skipn first fs)))%nat by (apply nth_error_Some; congruence).
        rewrite firstn_length in *. lia. }
      rewrite nth_error_firstn_lt in Hq by auto. rewrite nth_error_skipn in Hq.
      specialize (H2 (first + q)%nat ltac:(lia)). rewrite Hq in H2. exact H2. }
    assert (Hpseg : Forall plain seg).
    { apply Forall_forall. intros p Hin. rewrite Forall_forall in HP. apply HP. unfold seg in Hin.
      assert (In p (skipn first fs)). { rewrite <- (firstn_skipn (k - first) (skipn first fs)). apply in_or_app; auto. }
      rewrite <- (firstn_skipn first fs). apply in_or_app; auto. }
    assert (Ff : focus (wfs_after (wfs_init nfoc ndet nmeas) (firstn k fs))
                 = fold_left vadd (map (fun p => fi_intensity (snd p)) seg) (vzero nfoc)).
    { rewrite Es, wfs_after_app. rewrite focus_after_plain; auto.
      - rewrite F0. reflexivity.
      - rewrite F0. apply vzero_length. }
    unfold Wfs.wfs_frame. rewrite Hi2, Ff.
    assert (Eimg : to_detector (vadd (fold_left vadd (map (fun p => fi_intensity (snd p)) seg) (vzero nfoc)) (fi_intensity i)) = image).
    { unfold image, image_sum. f_equal.
      replace (S k - first)%nat with (S (k - first))%nat by lia.
      assert (Ef : firstn (S (k - first)) (skipn first fs) = seg ++ [(true, i)]).
      { unfold seg. assert (Ek : nth_error (skipn first fs) (k - first) = Some (true, i)).
        { rewrite nth_error_skipn. replace (first + (k - first))%nat with k by lia. exact Hk. }
        clear -Ek. revert Ek. generalize (skipn first fs) as l. generalize (k - first)%nat as q.
        induction q as [|q IH]; intros [|x l] Ek; simpl in *; try discriminate; [congruence|].
        f_equal. apply IH; auto. }
      rewrite Ef, map_app, fold_left_app. reflexivity. }
    rewrite Eimg.
    assert (Himg : length image = ndet).
    { rewrite <- Eimg. apply to_detector_shape. rewrite vadd_length.
      - destruct (fold_vadd_acc (map (fun p => fi_intensity (snd p)) seg) (vzero nfoc)) as [L _]; auto.
        + apply vzero_length.
        + apply Forall_forall. intros v Hv. apply in_map_iff in Hv as (p & <- & Hp).
          rewrite Forall_forall in Hpseg. apply (proj1 (Hpseg p Hp)).
      - destruct (fold_vadd_acc (map (fun p => fi_intensity (snd p)) seg) (vzero nfoc)) as [L _].
        + apply vzero_length.
        + apply Forall_forall. intros v Hv. apply in_map_iff in Hv as (p & <- & Hp).
          rewrite Forall_forall in Hpseg. apply (proj1 (Hpseg p Hp)).
        + congruence. }
    rewrite vadd_0_l by auto. reflexivity.
  Qed.

  Lemma unread_zero fs k i : nth_error fs k = Some (false, i) -> forall s,
    nth_error (wfs_run s fs) k = Some (vzero nmeas, None).
  Proof. intros Hk s. rewrite (wfs_run_nth fs s k _ Hk). reflexivity. Qed.

  Lemma unread_keep fs : Forall (fun p => fst p = false) fs -> forall s, last_slopes (wfs_after s fs) = last_slopes s.
  Proof.
    induction 1 as [|[r i] fs E F IH]; intros s; [reflexivity|]. cbn [fst] in E. subst r. cbn [Wfs.wfs_after]. rewrite IH. reflexivity.
  Qed.
  Lemma read_kept fs1 i fs2 s sl im : Forall (fun p => fst p = false) fs2 ->
    nth_error (wfs_run s (fs1 ++ (true, i) :: fs2)) (length fs1) = Some (sl, im) ->
    last_slopes (wfs_after s (fs1 ++ (true, i) :: fs2)) = sl.
  Proof.
    intros F H. rewrite wfs_after_app. cbn [Wfs.wfs_after]. rewrite unread_keep by assumption.
    rewrite (wfs_run_nth _ s (length fs1) (true, i)) in H by (rewrite nth_error_app2, Nat.sub_diag by lia; reflexivity).
    rewrite firstn_app, Nat.sub_diag, firstn_all, app_nil_r in H. cbn in H. injection H as H _. exact H.
  Qed.
End DetectorProofs.

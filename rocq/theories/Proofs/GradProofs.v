From Verif.Base Require Import Vec PyFacts.
From Verif.Model Require Import Numerics Sh Grad.
From Verif.Spec Require Import NumericsSpec ShSpec GradSpec.
From Verif.Proofs Require Import NumericsProofs LosProofs ShProofs.

Section Sums.
  Open Scope Qc_scope.
  Variable m : Z.
  Hypothesis Hm : (1 <= m)%Z.
  Lemma dsum_ext f g : (forall i j, 0 <= i < m -> 0 <= j < m -> f i j = g i j)%Z ->
    zsum m (fun i => zsum m (fun j => f i j)) = zsum m (fun i => zsum m (fun j => g i j)).
  Proof. intros H. apply zsum_ext. intros i Hi. apply zsum_ext. intros j Hj. apply H; auto. Qed.
  Lemma dsum_lin (a b : Qc) f g :
    zsum m (fun i => zsum m (fun j => a * f i j + b * g i j)) =
    a * zsum m (fun i => zsum m (fun j => f i j)) + b * zsum m (fun i => zsum m (fun j => g i j)).
  Proof.
    rewrite <- !zsum_scale. rewrite <- zsum_add. apply zsum_ext. intros i Hi. rewrite <- !zsum_scale. rewrite <- zsum_add. reflexivity.
  Qed.
  Lemma dsum_const c : zsum m (fun _ => zsum m (fun _ => c)) = qz (m * m) * c.
  Proof. rewrite (zsum_ext m _ (fun _ => qz m * c)); [|intros; apply zsum_const; lia]. rewrite zsum_const by lia. rewrite qz_mul. ring. Qed.
  Lemma qm : qz m <> 0.
  Proof. apply qz_neq0. lia. Qed.
  Lemma qmm : qz (m * m) <> 0.
  Proof. apply qz_neq0. nia. Qed.

  Variables (amp : Qc) (P : Z).
  Let c := sub_coord amp P m.
  Lemma coord_sum : zsum m c = 0.
  Proof.
    unfold c, sub_coord. rewrite (zsum_ext m _ (fun k => (-(1)) * lin_coord amp P k + (zsum m (lin_coord amp P) / qz m))) by (intros; ring).
    rewrite zsum_add, zsum_scale, zsum_const by lia. field. apply qm.
  Qed.
End Sums.

Lemma zsum_ge n f k : (forall i, 0 <= i < n -> (0 <= f i)%Qc) -> 0 <= k < n -> (f k <= zsum n f)%Qc.
Proof.
  intros H Hk. apply (Qcle_trans _ (zsum n (fun i => if i =? k then f k else 0%Qc))).
  - rewrite (zsum_single n k).
    + rewrite Z.eqb_refl. apply Qcle_refl.
    + exact Hk.
    + intros i Hi Hne. destruct (Z.eqb_spec i k); [lia|reflexivity].
  - apply zsum_le. intros i Hi. destruct (Z.eqb_spec i k) as [->|]; [apply Qcle_refl|apply H; auto].
Qed.
Lemma sq_nonneg x : (0 <= x * x)%Qc.
Proof. qcnra. Qed.
Lemma sq_zero x : (x * x <= 0)%Qc -> x = 0%Qc.
Proof.
  intros H. pose proof (sq_nonneg x). assert (E : (x * x = 0)%Qc) by (apply Qcle_antisym; auto).
  apply Qcmult_integral in E. tauto.
Qed.

Lemma norm_neq amp P m : 2 <= m -> 2 <= P -> amp <> 0%Qc ->
  zsum m (fun i => zsum m (fun j => sub_coord amp P m j * sub_coord amp P m j))%Qc <> 0%Qc.
Proof.
  intros Hm HP Ha E. set (c := sub_coord amp P m) in *.
  assert (N : forall j, (0 <= c j * c j)%Qc) by (intros; apply sq_nonneg).
  assert (L : forall k, 0 <= k < m -> c k = 0%Qc).
  { intros k Hk. apply sq_zero. rewrite <- E.
    apply (Qcle_trans _ (zsum m (fun j => c j * c j)%Qc)).
    - apply (zsum_ge m (fun j => c j * c j)%Qc k); auto.
    - apply (zsum_ge m (fun _ => zsum m (fun j => c j * c j)%Qc) 0); [|lia]. intros. apply zsum_nonneg. auto. }
  pose proof (L 0 ltac:(lia)) as L0. pose proof (L 1 ltac:(lia)) as L1. unfold c, sub_coord, lin_coord in L0, L1.
  destruct (Z.eqb_spec P 1); [lia|].
  assert (X : (amp * qz 1 / qz (P - 1) = amp * qz 0 / qz (P - 1))%Qc).
  { set (M := (zsum m _ / _)%Qc) in *.
    transitivity (M - - (amp * qz 1 / qz (P - 1) - M) - 0 + (0 - M) + M - 0)%Qc; [ring|]. rewrite L1.
    transitivity (M - - (amp * qz 0 / qz (P - 1) - M) - 0 + (0 - M) + M - 0)%Qc; [rewrite L0; ring|ring]. }
  assert (qz (P - 1) <> 0%Qc) by (apply qz_neq0; lia). rewrite qz_0, qz_1 in X. apply Ha.
  transitivity (amp * 1 / qz (P - 1) * qz (P - 1))%Qc; [field; auto|]. rewrite X. field; auto.
Qed.

Lemma slopes_lin amp P a b x y m : nrow x = m -> nrow y = m -> ncol x = m -> ncol y = m -> forall s t, grad_slopes amp P x = Some s -> grad_slopes amp P y = Some t ->
  grad_slopes amp P (comb2 a b x y) = Some (pcomb a b s t).
Proof.
  intros Hx Hy Cx Cy s t Es Et. unfold grad_slopes in *. cbn [comb2 nrow at2]. rewrite Hx in *. rewrite Hy in *.
  destruct (Z.eqb_spec m 0) as [|Hm0]; [discriminate|]. cbn [orb] in *.
  set (nrm := zsum m (fun i => zsum m (fun j => sub_coord amp P m j * sub_coord amp P m j)%Qc)) in *.
  destruct (qc_eqb nrm 0); [discriminate|]. injection Es as <-. injection Et as <-. f_equal. unfold pcomb. cbn [fst snd].
  rewrite (dsum_lin m a b). set (A := zsum m (fun i => zsum m (fun j => at2 x i j))). set (B := zsum m (fun i => zsum m (fun j => at2 y i j))).
  f_equal; rewrite <- dsum_lin; apply dsum_ext; intros i j Hi Hj; unfold Qcdiv; ring.
Qed.

Lemma slopes_piston amp P x k m : nrow x = m -> 1 <= m ->
  grad_slopes amp P (mkArr m m (fun i j => at2 x i j + k)%Qc) = grad_slopes amp P x.
Proof.
  intros Hx Hm. unfold grad_slopes. cbn [nrow at2]. rewrite Hx. destruct (_ || _); [reflexivity|].
  assert (E : (zsum m (fun i => zsum m (fun j => at2 x i j + k)) / qz (m * m) = zsum m (fun i => zsum m (fun j => at2 x i j)) / qz (m * m) + k)%Qc).
  { rewrite (dsum_ext m _ (fun i j => 1 * at2 x i j + 1 * k)%Qc) by (intros; ring). rewrite (dsum_lin m 1 1 (fun i j => at2 x i j) (fun _ _ => k)).
    rewrite dsum_const by auto. field. apply qmm; auto. }
  rewrite E. f_equal. f_equal; apply dsum_ext; intros i j Hi Hj; ring.
Qed.

Lemma slopes_tilt amp P m tx ty c u0 v0 : 2 <= m -> 2 <= P -> amp <> 0%Qc ->
  grad_slopes amp P (mkArr m m (fun i j => tx * (amp * qz (v0 + j) / qz (P - 1)) + ty * (amp * qz (u0 + i) / qz (P - 1)) + c)%Qc) = Some (- tx, - ty)%Qc.
Proof.
  intros Hm HP Ha. pose proof (norm_neq amp P m Hm HP Ha) as HN. unfold grad_slopes. cbn [nrow at2].
  set (cc := sub_coord amp P m) in *. set (nrm := zsum m (fun i => zsum m (fun j => cc j * cc j)%Qc)) in *.
  destruct (Z.eqb_spec m 0) as [|_]; [lia|]. cbn [orb]. destruct (qc_eqb nrm 0) eqn:E0; [apply qc_eqb_true in E0; contradiction|].
  assert (QP : qz (P - 1) <> 0%Qc) by (apply qz_neq0; lia). assert (Qm : qz m <> 0%Qc) by (apply qz_neq0; lia).
  set (S := zsum m (lin_coord amp P)).
  set (K := (tx * (amp * qz v0 / qz (P - 1)) + ty * (amp * qz u0 / qz (P - 1)) + c)%Qc).
  assert (LC : forall k, lin_coord amp P k = (amp * qz k / qz (P - 1))%Qc).
  { intros k. unfold lin_coord. destruct (Z.eqb_spec P 1); [lia|reflexivity]. }
  assert (A : forall i j, (tx * (amp * qz (v0 + j) / qz (P - 1)) + ty * (amp * qz (u0 + i) / qz (P - 1)) + c = tx * lin_coord amp P j + ty * lin_coord amp P i + K)%Qc).
  { intros i j. rewrite !LC, !qz_add. unfold K. field. auto. }
  assert (MEAN : (zsum m (fun i => zsum m (fun j => tx * (amp * qz (v0 + j) / qz (P - 1)) + ty * (amp * qz (u0 + i) / qz (P - 1)) + c)) / qz (m * m) = tx * (S / qz m) + ty * (S / qz m) + K)%Qc).
  { rewrite (dsum_ext m _ (fun i j => 1 * (tx * lin_coord amp P j + ty * lin_coord amp P i) + 1 * K)%Qc) by (intros; rewrite A; ring).
    rewrite (dsum_lin m 1 1 (fun i j => tx * lin_coord amp P j + ty * lin_coord amp P i)%Qc (fun _ _ => K)).
    rewrite (dsum_lin m tx ty (fun i j => lin_coord amp P j) (fun i j => lin_coord amp P i)). rewrite dsum_const by lia.
    rewrite (zsum_const m) by lia. rewrite (zsum_ext m (fun i => zsum m (fun _ => lin_coord amp P i)) (fun i => qz m * lin_coord amp P i)%Qc) by (intros; apply zsum_const; lia).
    rewrite zsum_scale. change (fun j => lin_coord amp P j) with (lin_coord amp P). fold S. rewrite qz_mul. field. auto. }
  rewrite MEAN.
  assert (D : forall i j, (tx * (amp * qz (v0 + j) / qz (P - 1)) + ty * (amp * qz (u0 + i) / qz (P - 1)) + c - (tx * (S / qz m) + ty * (S / qz m) + K) = - tx * cc j + - ty * cc i)%Qc).
  { intros i j. rewrite A. unfold cc, sub_coord. fold S. ring. }
  assert (CS : zsum m cc = 0%Qc) by (apply coord_sum; lia).
  assert (CROSS : zsum m (fun i => zsum m (fun j => cc i * cc j))%Qc = 0%Qc).
  { rewrite (zsum_ext m _ (fun i => cc i * 0)%Qc); [|intros i Hi; rewrite zsum_scale, CS; reflexivity].
    rewrite zsum_scale_r. ring. }
  assert (SQT : zsum m (fun i => zsum m (fun j => cc i * cc i))%Qc = nrm).
  { unfold nrm. rewrite zsum_swap. reflexivity. }
  f_equal. f_equal.
  - rewrite (dsum_ext m _ (fun i j => (- tx / nrm) * (cc j * cc j) + (- ty / nrm) * (cc i * cc j))%Qc).
    + rewrite dsum_lin. fold nrm. rewrite CROSS. field. auto.
    + intros i j Hi Hj. rewrite D. field. auto.
  - rewrite (dsum_ext m _ (fun i j => (- tx / nrm) * (cc i * cc j) + (- ty / nrm) * (cc i * cc i))%Qc).
    + rewrite dsum_lin. rewrite SQT, CROSS. field. auto.
    + intros i j Hi Hj. rewrite D. field. auto.
Qed.

Lemma slopes_ext amp P a b : nrow a = ncol a -> arr_eq a b -> grad_slopes amp P a = grad_slopes amp P b.
Proof.
  intros Hs (Hr & Hc & V). unfold grad_slopes. rewrite <- Hr. set (m := nrow a) in *.
  rewrite (dsum_ext m (fun i j => at2 a i j) (fun i j => at2 b i j)) by (intros; apply V; lia).
  destruct (_ || _); [reflexivity|]. f_equal. f_equal; apply dsum_ext; intros i j Hi Hj; rewrite V by lia; reflexivity.
Qed.
Lemma pupil_shape pad mask phase P : 1 <= pad -> 0 <= P -> square (P + 2 * pad) phase ->
  square P (grad_pupil pad mask phase) /\
  forall i j, 0 <= i < P -> 0 <= j < P -> at2 (grad_pupil pad mask phase) i j = (at2 phase (pad + i)%Z (pad + j)%Z * at2 mask (pad + i)%Z (pad + j)%Z)%Qc.
Proof.
  intros Hp HP [Hr Hc]. unfold grad_pupil, square. cbn [slice2 nrow ncol at2]. rewrite Hr, Hc.
  assert (E : slice_len (P + 2 * pad) pad (- pad) = P).
  { unfold slice_len. rewrite norm_ix_neg by lia. rewrite norm_ix_in by lia. lia. }
  rewrite E. split; [auto|]. intros i j Hi Hj. rewrite !norm_ix_in by lia. reflexivity.
Qed.
Lemma grad_frame_div amp P n pad mask phase x y : 0 < n -> P mod n = 0 -> 1 <= P / n -> 1 <= pad -> square (P + 2 * pad) phase ->
  on_grid n (x, y) ->
  let s := P / n in
  grad_frame amp P n pad mask phase x y =
    Ok (grad_slopes amp P (mkArr s s (fun i j => at2 phase (pad + x * s + i)%Z (pad + y * s + j)%Z * at2 mask (pad + x * s + i)%Z (pad + y * s + j)%Z)%Qc)).
Proof.
  intros Hn Hd Hs Hp Hph [Hx Hy] s. cbn [fst snd] in *. pose proof (Z.div_mod P n ltac:(lia)) as E. rewrite Hd in E. fold s in E, Hs.
  destruct (pupil_shape pad mask phase P Hp ltac:(nia) Hph) as [[Sr Sc] V].
  unfold grad_frame, grad_subap, grad_size. cbn [slice2 nrow ncol at2]. rewrite Sr, Sc. fold s.
  replace (x * P) with ((x * s) * n) by nia. replace ((x + 1) * P) with (((x + 1) * s) * n) by nia.
  replace (y * P) with ((y * s) * n) by nia. replace ((y + 1) * P) with (((y + 1) * s) * n) by nia.
  rewrite !round_div_mul by lia.
  assert (0 <= x * s /\ (x + 1) * s <= P /\ 0 <= y * s /\ (y + 1) * s <= P) by nia.
  rewrite !slice_len_in by nia. replace ((x + 1) * s - x * s) with s by ring. replace ((y + 1) * s - y * s) with s by ring.
  unfold bc_ok. rewrite Z.eqb_refl. cbn [orb andb bind]. f_equal. apply slopes_ext; [reflexivity|].
  split; [reflexivity|]. split; [reflexivity|]. cbn [nrow ncol at2]. intros i j Hi Hj. rewrite !norm_ix_in by nia.
  assert (B : forall k, 0 <= k < s -> bc_ix s k = k) by (intros k Hk; unfold bc_ix; destruct (Z.eqb_spec s 1); lia).
  rewrite !B by auto. rewrite V by nia. f_equal; f_equal; lia.
Qed.

Lemma grad_tilt amp P n pad mask tx ty c x y : 0 < n -> P mod n = 0 -> 2 <= P / n -> 1 <= pad -> amp <> 0%Qc ->
  on_grid n (x, y) -> lit_subap (P / n) pad mask x y ->
  grad_frame amp P n pad mask (tilt_phase amp tx ty c P (P + 2 * pad)) x y = Ok (Some (- tx, - ty)%Qc).
Proof.
  intros Hn Hd Hs Hp Ha Hq Hl. rewrite grad_frame_div; auto; [|lia|split; reflexivity]. cbv zeta. f_equal.
  set (s := P / n) in *. pose proof (Z.div_mod P n ltac:(lia)) as E. rewrite Hd in E. fold s in E.
  rewrite <- (slopes_tilt amp P s tx ty c (pad + x * s) (pad + y * s)) by (auto; nia).
  apply slopes_ext; [reflexivity|]. split; [reflexivity|]. split; [reflexivity|]. cbn [nrow ncol at2 tilt_phase]. intros i j Hi Hj.
  rewrite Hl; [ring|]. unfold in_subap. lia.
Qed.
Lemma grad_linear amp P n pad mask a b p q x y s t : 0 < n -> P mod n = 0 -> 1 <= P / n -> 1 <= pad ->
  square (P + 2 * pad) p -> square (P + 2 * pad) q -> on_grid n (x, y) ->
  grad_frame amp P n pad mask p x y = Ok (Some s) -> grad_frame amp P n pad mask q x y = Ok (Some t) ->
  grad_frame amp P n pad mask (comb2 a b p q) x y = Ok (Some (pcomb a b s t)).
Proof.
  intros Hn Hd Hs Hp Sp Sq Hg. rewrite !grad_frame_div; auto. cbv zeta. set (w := P / n) in *. intros Es Et.
  assert (Es' := f_equal (fun r => match r with Ok o => o | _ => None end) Es). cbn in Es'.
  assert (Et' := f_equal (fun r => match r with Ok o => o | _ => None end) Et). cbn in Et'.
  f_equal. eapply eq_trans; [|refine (slopes_lin amp P a b _ _ w _ _ _ _ s t Es' Et'); reflexivity].
  apply slopes_ext; [reflexivity|]. split; [reflexivity|]. split; [reflexivity|]. cbn [nrow ncol at2 comb2]. intros i j Hi Hj. ring.
Qed.
Lemma grad_piston amp P n pad mask p c x y : 0 < n -> P mod n = 0 -> 1 <= P / n -> 1 <= pad ->
  square (P + 2 * pad) p -> on_grid n (x, y) -> lit_subap (P / n) pad mask x y ->
  grad_frame amp P n pad mask (mkArr (nrow p) (ncol p) (fun u v => at2 p u v + c)%Qc) x y = grad_frame amp P n pad mask p x y.
Proof.
  intros Hn Hd Hs Hp Sp Hg Hl. rewrite !grad_frame_div; auto. cbv zeta. set (w := P / n) in *. f_equal.
  match goal with |- _ = grad_slopes _ _ ?b => rewrite <- (slopes_piston amp P b c w eq_refl) by lia end.
  apply slopes_ext; [reflexivity|]. split; [reflexivity|]. split; [reflexivity|]. cbn [nrow ncol at2]. intros i j Hi Hj.
  rewrite !Hl; [ring|]. unfold in_subap. lia.
Qed.

Lemma wide_window P n : 0 < n -> 0 <= P -> forall k, 0 <= k ->
  pup_edge P n k <= k * (P / n) \/ exists x, 0 <= x < k /\ P / n < pup_edge P n (x + 1) - pup_edge P n x.
Proof.
  intros Hn HP k Hk. pattern k. apply Znonneg_ind; auto.
  - left. rewrite pup_edge_0 by auto. lia.
  - intros m Hm [IH|(x & Hx & H)].
    + destruct (Z.lt_ge_cases (P / n) (pup_edge P n (m + 1) - pup_edge P n m)) as [L|L].
      * right. exists m. split; [lia|exact L].
      * left. lia.
    + right. exists x. split; [lia|exact H].
Qed.
Lemma grad_nodiv amp P n : 0 < n -> n <= P -> P mod n <> 0 -> exists x, 0 <= x < n /\
  forall pad mask phase y, 1 <= pad -> square (P + 2 * pad) phase -> grad_frame amp P n pad mask phase x y = Err ValueError.
Proof.
  intros Hn HP Hm. destruct (wide_window P n Hn ltac:(lia) n ltac:(lia)) as [H|(x & Hx & H)].
  - rewrite pup_edge_n in H by auto. pose proof (Z.div_mod P n ltac:(lia)). pose proof (Z.mod_pos_bound P n Hn). lia.
  - exists x. split; [exact Hx|]. intros pad mask phase y Hp Hph.
    destruct (pupil_shape pad mask phase P Hp ltac:(lia) Hph) as [[Sr Sc] V].
    unfold grad_frame, grad_subap, grad_size. cbn [slice2 nrow ncol at2]. rewrite Sr, Sc.
    pose proof (pup_edge_range P n x Hn ltac:(lia) ltac:(lia)). pose proof (pup_edge_range P n (x + 1) Hn ltac:(lia) ltac:(lia)).
    unfold pup_edge in *. assert (1 <= P / n) by (apply Z.div_le_lower_bound; lia).
    rewrite (slice_len_in P (round_div (x * P) n)) by lia.
    assert (B : bc_ok (P / n) (round_div ((x + 1) * P) n - round_div (x * P) n) = false) by (unfold bc_ok; apply orb_false_intro; apply Z.eqb_neq; lia).
    rewrite B. reflexivity.
Qed.
Lemma grad_all_nodiv amp P n pad mask phase subs : 0 < n -> n <= P -> P mod n <> 0 -> 1 <= pad -> square (P + 2 * pad) phase ->
  (forall x, 0 <= x < n -> exists y, In (x, y) subs) -> grad_all amp P n pad mask phase subs = Err ValueError.
Proof.
  intros Hn HP Hm Hp Hph HA. destruct (grad_nodiv amp P n Hn HP Hm) as (x & Hx & F). destruct (HA x Hx) as [y Hin]. clear HA.
  induction subs as [|[a b] r IH]; [destruct Hin|]. cbn [grad_all].
  destruct Hin as [E|Hin].
  - injection E as -> ->. rewrite F by auto. reflexivity.
  - assert (G : forall e, grad_frame amp P n pad mask phase a b = Err e -> e = ValueError).
    { unfold grad_frame. intros e. destruct (grad_subap P n (grad_pupil pad mask phase) a b) eqn:Q; cbn [bind]; [discriminate|].
      unfold grad_subap in Q. destruct (_ && _) in Q; [discriminate|]. intros R. congruence. }
    destruct (grad_frame amp P n pad mask phase a b) as [o|e]; cbn [bind]; [rewrite IH by auto; reflexivity|]. rewrite (G e eq_refl). reflexivity.
Qed.
Lemma grad_all_div amp P n pad mask phase subs : 0 < n -> P mod n = 0 -> 1 <= P / n -> 1 <= pad -> square (P + 2 * pad) phase ->
  Forall (on_grid n) subs -> exists l, grad_all amp P n pad mask phase subs = Ok l /\ length l = length subs.
Proof.
  intros Hn Hd Hs Hp Hph. induction subs as [|[x y] r IH]; intros HF; [exists []; auto|].
  inversion HF; subst. destruct (IH ltac:(auto)) as (l & E & L). cbn [grad_all]. rewrite grad_frame_div by auto. cbn [bind]. rewrite E. cbn [bind].
  eexists. split; [reflexivity|]. cbn. rewrite L. reflexivity.
Qed.

Lemma ow_last {Ph Im} (make : Ph -> Im) slopes nm im h ph :
  last (ow_run (overwrite make) base_zero_data slopes nm im (h ++ [(true, ph)])) [] = slopes (make ph).
Proof.
  revert im. induction h as [|[r q] h IH]; intros im; [reflexivity|]. rewrite <- app_comm_cons. cbn [ow_run].
  destruct (ow_frame _ _ _ _ im r q) as [im' s]. rewrite <- (IH im').
  destruct (ow_run _ _ _ _ im' (h ++ [(true, ph)])) eqn:E; [|reflexivity].
  destruct h as [|[? ?] ?]; cbn [app ow_run] in E; destruct (ow_frame _ _ _ _ _ _ _) in E; discriminate.
Qed.
Lemma init_gradient ws acc : (exists n, In (CGradient, n) ws) -> Forall (fun w => fst w <> CZernike) ws -> init_wfss ws acc = Err AttributeError.
Proof.
  intros [n Hn] HF. revert acc. induction ws as [|[c k] r IH]; [destruct Hn|]. intros acc. inversion HF as [|? ? Hz HF']; subst. cbn [fst] in Hz.
  cbn [init_wfss]. destruct Hn as [E|Hn].
  - injection E as -> ->. reflexivity.
  - destruct c; cbn [construct bind has_n_measurements]; auto; contradiction.
Qed.
Lemma init_zernike ws acc : (exists n, In (CZernike, n) ws) -> exists e, init_wfss ws acc = Err e /\ (e = NameError \/ e = AttributeError).
Proof.
  intros [n Hn]. revert acc. induction ws as [|[c k] r IH]; [destruct Hn|]. intros acc. cbn [init_wfss]. destruct Hn as [E|Hn].
  - injection E as -> ->. exists NameError. auto.
  - destruct c; cbn [construct bind has_n_measurements]; auto; [exists AttributeError; auto|exists NameError; auto].
Qed.
Lemma init_others ws acc : Forall (fun w => fst w = CShackHartmann \/ fst w = CShackHartmannLegacy \/ fst w = CPyramid) ws -> init_wfss ws acc = Ok (fold_left (fun t w => t + snd w) ws acc).
Proof.
  revert acc. induction ws as [|[c k] r IH]; intros acc HF; [reflexivity|]. inversion HF as [|? ? H HF']; subst. cbn [fst] in H.
  cbn [init_wfss fold_left snd]. destruct H as [->|[-> | ->]]; cbn [construct bind has_n_measurements]; apply IH; auto.
Qed.
Lemma elong_others c layers : elong_calls c layers = if takes_los c then Ok tt else match layers with O => Ok tt | _ => Err TypeError end.
Proof. induction layers as [|k IH]; cbn [elong_calls]; destruct (takes_los c); auto. Qed.

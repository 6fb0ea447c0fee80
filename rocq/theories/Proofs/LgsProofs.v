From Verif.Base Require Import Vec PyFacts.
From Verif.Model Require Import Los Lgs.
From Verif.Spec Require Import LgsSpec.
From Coq Require Import Lia.

Lemma launch_beam R gs l H h : R <> 0%Qc -> H <> 0%Qc -> launch_meta_pupil R gs l H h = beam l (gs / R)%Qc H h.
Proof. intros HR HH. unfold launch_meta_pupil, beam. field. auto. Qed.
Lemma launch_los R gs l H h : R <> 0%Qc -> H <> 0%Qc -> centre true H (gs / R)%Qc l h = launch_meta_pupil R gs l H h.
Proof.
  intros HR HH. unfold launch_meta_pupil, centre. destruct (qc_eqb H 0) eqn:E; [apply qc_eqb_true in E; contradiction|]. field. auto.
Qed.
Lemma fold_max_ge l : forall x, (x <= fold_left qc_max l x)%Qc /\ forall y, In y l -> (y <= fold_left qc_max l x)%Qc.
Proof.
  induction l as [|a l IH]; intros x; cbn [fold_left]; [split; [apply Qcle_refl | intros y []]|].
  destruct (IH (qc_max x a)) as (A & B). split.
  - eapply Qcle_trans; [apply (qc_max_l x a) | exact A].
  - intros y [-> | H]; [|apply B; exact H]. eapply Qcle_trans; [apply (qc_max_r x y) | exact A].
Qed.
Lemma qmax_ge l y : In y l -> (y <= qmax_list l)%Qc.
Proof.
  destruct l as [|x l]; [intros []|]. cbn [qmax_list]. destruct (fold_max_ge l x) as (A & B). intros [-> | H]; [exact A | apply B; exact H].
Qed.
Lemma fold_max_in l : forall x, fold_left qc_max l x = x \/ In (fold_left qc_max l x) l.
Proof.
  induction l as [|a l IH]; intros x; cbn [fold_left]; [auto|]. destruct (IH (qc_max x a)) as [E|E]; [|right; right; exact E].
  rewrite E. unfold qc_max. destruct (Qclt_le_dec x a); [right; left; reflexivity | left; reflexivity].
Qed.
Lemma qmax_in l : l <> [] -> In (qmax_list l) l.
Proof. destruct l as [|x l]; [congruence|]. intros _. cbn [qmax_list]. destruct (fold_max_in l x) as [E|E]; [left; auto | right; auto]. Qed.

Lemma qz2_11 : qz 2 = (1 + 1)%Qc. Proof. apply Qc_is_canon. reflexivity. Qed.
Lemma qz2 : qz 2 <> 0%Qc. Proof. apply qz_neq0; lia. Qed.
Lemma elong_sym H E n i : 1 < n -> (elong_height H E n i + elong_height H E n (n - 1 - i) = H + H)%Qc.
Proof.
  intros Hn. unfold elong_height, linspace. destruct (Z.eqb_spec n 1); [lia|].
  assert (D : qz (n - 1) <> 0%Qc) by (apply qz_neq0; lia).
  replace (qz (n - 1 - i)) with (qz (n - 1) - qz i)%Qc by (rewrite <- qz_sub; reflexivity). pose proof qz2. field. auto.
Qed.
Lemma elong_ends H E n : 1 < n -> (elong_height H E n 0 = H - E / qz 2 /\ elong_height H E n (n - 1) = H + E / qz 2)%Qc.
Proof.
  intros Hn. unfold elong_height, linspace. destruct (Z.eqb_spec n 1); [lia|].
  assert (D : qz (n - 1) <> 0%Qc) by (apply qz_neq0; lia). pose proof qz2. rewrite qz_0. split; field; auto.
Qed.
Lemma elong_step H E n i : 1 < n -> (elong_height H E n (i + 1) - elong_height H E n i = E / qz (n - 1))%Qc.
Proof.
  intros Hn. unfold elong_height, linspace. destruct (Z.eqb_spec n 1); [lia|].
  assert (D : qz (n - 1) <> 0%Qc) by (apply qz_neq0; lia). pose proof qz2. rewrite (qz_add i 1), qz_1. rewrite qz2_11 in *. field. auto.
Qed.
Lemma elong_mid H E m : 0 < m -> elong_height H E (2 * m + 1) m = H.
Proof.
  intros Hm. unfold elong_height, linspace. destruct (Z.eqb_spec (2 * m + 1) 1); [lia|].
  replace (2 * m + 1 - 1) with (2 * m) by lia. rewrite qz_mul. assert (qz m <> 0%Qc) by (apply qz_neq0; lia). pose proof qz2. rewrite qz2_11 in *. field. auto.
Qed.
Lemma elong_single H E i : elong_height H E 1 i = (H - E / qz 2)%Qc.
Proof. reflexivity. Qed.
Lemma elong_pos_zero xl H h : H <> 0%Qc -> h <> 0%Qc -> elong_pos 0 xl H h = (rad2asec * seen_at xl 0 H h)%Qc.
Proof.
  intros H1 H2. unfold elong_pos, seen_at, beam. replace (H + (h - H))%Qc with h by ring. field. auto.
Qed.
Lemma elong_pos_wrong gs xl H h : H <> 0%Qc -> h <> 0%Qc -> elong_pos gs xl H h = (rad2asec * seen_at xl (gs / rad2asec) H h)%Qc -> gs = 0%Qc.
Proof.
  intros H1 H2 E. assert (R0 : rad2asec <> 0%Qc) by discriminate.
  assert (A : (gs * (qz 2 * rad2asec * rad2asec - 1) = 0)%Qc).
  { unfold elong_pos in E. replace (H + (h - H))%Qc with h in E by ring.
    assert (L : ((gs * rad2asec + (gs * rad2asec - (h - H) * xl / (H * h))) * rad2asec = qz 2 * rad2asec * rad2asec * gs - rad2asec * ((h - H) * xl / (H * h)))%Qc)
      by (replace (qz 2) with (1 + 1)%Qc by (apply Qc_is_canon; reflexivity); ring).
    rewrite L in E. clear L.
    assert (Rr : (rad2asec * seen_at xl (gs / rad2asec) H h = gs - rad2asec * ((h - H) * xl / (H * h)))%Qc) by (unfold seen_at, beam; field; auto).
    rewrite Rr in E. transitivity (qz 2 * rad2asec * rad2asec * gs - rad2asec * ((h - H) * xl / (H * h)) - (gs - rad2asec * ((h - H) * xl / (H * h))))%Qc; [ring|]. rewrite E. ring. }
  apply Qcmult_integral in A as [A|A]; [exact A|]. exfalso. revert A. qc_neq.
Qed.

Lemma weighted_len ws : forall imgs n, Forall (fun s => length s = n) imgs -> length (weighted ws imgs n) = n.
Proof.
  induction ws as [|w ws IH]; intros imgs n F; [apply repeat_length|]. destruct imgs as [|s t]; [apply repeat_length|]. inversion F; subst. cbn [weighted].
  rewrite vadd_length; rewrite ?vscale_length; auto. rewrite IH; auto.
Qed.
Lemma elong_focus_ok : forall imgs ws f n, Forall (fun s => length s = n) imgs -> length f = n -> (length imgs <= length ws)%nat ->
  elong_focus imgs ws f = Ok (vadd f (weighted ws imgs n)).
Proof.
  induction imgs as [|s t IH]; intros ws f n F L Le.
  - cbn [elong_focus]. destruct ws; cbn [weighted]; rewrite vadd_0_r; auto.
  - destruct ws as [|w ws]; [cbn in Le; lia|]. inversion F; subst. cbn [elong_focus]. rewrite (IH ws _ (length f)); auto.
    + cbn [weighted]. rewrite vadd_assoc. reflexivity.
    + rewrite vadd_length; rewrite ?vscale_length; auto.
    + cbn in Le. lia.
Qed.
Lemma weighted_scale c : forall ws imgs n, weighted (vscale c ws) imgs n = vscale c (weighted ws imgs n).
Proof.
  induction ws as [|w ws IH]; intros imgs n; [cbn [weighted vscale map]; symmetry; apply vscale_zero|].
  destruct imgs as [|s t]; [cbn [weighted vscale map]; symmetry; apply vscale_zero|]. change (vadd (vscale (c * w) s) (weighted (vscale c ws) t n) = vscale c (vadd (vscale w s) (weighted ws t n))). rewrite IH, vscale_add, vscale_scale. reflexivity.
Qed.
Lemma lsum_vscale c a : lsum (vscale c a) = (c * lsum a)%Qc.
Proof. induction a as [|x a IH]; cbn [vscale map lsum fold_right]; [ring|]. fold (vscale c a). unfold lsum in *. cbn [fold_right]. rewrite IH. ring. Qed.
Lemma flux_scale flux c d : c <> 0%Qc -> scale_flux flux (vscale c d) = scale_flux flux d.
Proof.
  intros Hc. unfold scale_flux. rewrite lsum_vscale.
  destruct (qc_eqb (lsum d) 0) eqn:E.
  - apply qc_eqb_true in E. rewrite E. replace (c * 0)%Qc with 0%Qc by ring. reflexivity.
  - destruct (qc_eqb (c * lsum d) 0) eqn:E2.
    + apply qc_eqb_true in E2. apply Qcmult_integral in E2 as [?|E2]; [contradiction|]. apply qc_eqb_true in E2. congruence.
    + f_equal. rewrite vscale_scale. f_equal. assert (lsum d <> 0%Qc) by (intros X; apply qc_eqb_true in X; congruence). field. auto.
Qed.
Lemma scale_flux_sum flux d v : scale_flux flux d = Some v -> lsum v = flux.
Proof.
  unfold scale_flux. destruct (qc_eqb (lsum d) 0) eqn:E; [discriminate|]. intros H. injection H as <-. rewrite lsum_vscale.
  assert (lsum d <> 0%Qc) by (intros X; apply qc_eqb_true in X; congruence). field. auto.
Qed.
Lemma slice_in n a b : 0 <= a <= b -> b <= n -> py_slice_len n a b = b - a.
Proof.
  intros H1 H2. unfold py_slice_len. destruct (Z.ltb_spec a 0), (Z.ltb_spec b 0); try lia.
Qed.
Lemma half_even L : L mod 2 = 0 -> L / 2 + L / 2 = L.
Proof. intros H. pose proof (Z.div_mod L 2 ltac:(lia)). lia. Qed.
Lemma half_odd L : L mod 2 <> 0 -> L / 2 + L / 2 + 1 = L.
Proof. intros H. pose proof (Z.div_mod L 2 ltac:(lia)). pose proof (Z.mod_pos_bound L 2 ltac:(lia)). lia. Qed.
Lemma physical_ok n L : 0 < n -> 0 <= L -> L <= 3 * n -> physical_sizes n L = Ok n.
Proof.
  intros Hn HL Hle. unfold physical_sizes, physical_slot.
  pose proof (Z.div_mod (3 * n) 2 ltac:(lia)) as D. pose proof (Z.mod_pos_bound (3 * n) 2 ltac:(lia)) as B.
  assert (P0 : py_slice_len (3 * n) n (- n) = n).
  { unfold py_slice_len. destruct (Z.ltb_spec n 0), (Z.ltb_spec (- n) 0); lia. }
  destruct (Z.eqb_spec (L mod 2) 0) as [E|E].
  - pose proof (half_even L E). rewrite slice_in by lia. destruct (Z.eqb_spec (3 * n / 2 + L / 2 - (3 * n / 2 - L / 2)) L); [|lia]. rewrite P0. reflexivity.
  - pose proof (half_odd L E).
    assert (3 * n / 2 + L / 2 + 1 <= 3 * n) by lia.
    rewrite slice_in by lia. destruct (Z.eqb_spec (3 * n / 2 + L / 2 + 1 - (3 * n / 2 - L / 2)) L); [|lia]. rewrite P0. reflexivity.
Qed.
Lemma physical_bad n L : 0 < n -> 3 * n < L -> physical_sizes n L = Err ValueError.
Proof.
  intros Hn HL. unfold physical_sizes, physical_slot.
  assert (S : forall a b, py_slice_len (3 * n) a b <= 3 * n).
  { intros a b. unfold py_slice_len. lia. }
  destruct (L mod 2 =? 0); match goal with |- context [py_slice_len _ ?a ?b =? L] => specialize (S a b); destruct (Z.eqb_spec (py_slice_len (3 * n) a b) L); [lia | reflexivity] end.
Qed.
Lemma scales oversize diam fov wl k padding : 0 < oversize -> 0 < k -> 0 < padding -> diam <> 0%Qc -> wl <> 0%Qc -> fov <> 0%Qc -> (diam * fov / wl = qz k)%Qc ->
  spot_scale oversize diam fov wl padding = (qz oversize * beacon_scale fov padding)%Qc.
Proof.
  intros Ho Hk Hp Hd Hw Hf E. unfold spot_scale, subap_interp, beacon_scale. rewrite E, qc_round_qz, qz_mul.
  assert (K : qz k <> 0%Qc) by (apply qz_neq0; lia). assert (Pp : qz padding <> 0%Qc) by (apply qz_neq0; lia). assert (O : qz oversize <> 0%Qc) by (apply qz_neq0; lia).
  rewrite <- E in *. field. repeat split; auto.
Qed.

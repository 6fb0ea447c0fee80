(** Proofs about the legacy line of sight. *)
From Verif.Base Require Import Vec.
From Verif.Model Require Import Recon Numerics Los LegacyLos.
From Verif.Spec Require Import LosSpec LegacyLosSpec.
From Verif.Proofs Require Import NumericsProofs LosProofs.

Local Open Scope Qc_scope.

Lemma qz_pos n : (0 < n)%Z -> 0 < qz n.
Proof. intros H. rewrite <- qz_0. apply qz_lt. exact H. Qed.
Lemma qz_nz n : (0 < n)%Z -> qz n <> 0.
Proof. intros H. apply qz_neq0. lia. Qed.
Lemma qz2 : qz 2 = 1 + 1.
Proof. apply Qc_is_canon. reflexivity. Qed.
Lemma pos_nz x : 0 < x -> x <> 0.
Proof. intros H E. rewrite E in H. exact (Qclt_not_le _ _ H (Qcle_refl 0)). Qed.
Lemma ltb_false a b : b <= a -> qc_ltb a b = false.
Proof. intros H. unfold qc_ltb. destruct (Qclt_le_dec a b); [exfalso; qclra|reflexivity]. Qed.
(** the cone *)
Lemma cone_radius l h : consistent l -> below_source l h ->
  cone_scale l (Some (meta_radius l h / ll_pix l)) = (if qc_eqb (ll_height l) 0 then 1 else 1 - h / ll_height l) /\ qc_eqb (meta_radius l h / ll_pix l) 0 = false.
Proof.
  intros (P1 & P2 & P3 & P4 & P5) B. pose proof (qz_pos _ P2) as PP. pose proof (pos_nz _ P1) as N1. pose proof (pos_nz _ PP) as N2.
  assert (T2 : qz 2 <> 0) by (apply qz_nz; lia).
  unfold cone_scale, meta_radius. destruct (qc_eqb (ll_height l) 0) eqn:E.
  - rewrite P3. split; [field; auto|]. apply qc_eqb_false. intros Z. apply N2. transitivity (qz (ll_pupil l) * ll_pix l / qz 2 / ll_pix l * qz 2); [field; auto|rewrite Z; ring].
  - apply qc_eqb_false in E. destruct B as [B|B]; [contradiction|]. assert (HP : 0 < ll_height l) by (destruct (Qclt_le_dec 0 (ll_height l)); auto; exfalso; apply E; apply Qcle_antisym; auto).
    assert (L : qc_leb (ll_height l) h = false) by (unfold qc_leb, qc_ltb; destruct (Qclt_le_dec h (ll_height l)); [reflexivity|exfalso; qclra]). rewrite L, P3.
    split; [field; auto|]. apply qc_eqb_false. intros Z.
    assert (Q : qz (ll_pupil l) * (ll_height l - h) = 0).
    { transitivity (qz (ll_pupil l) * ll_pix l / qz 2 * (1 - h / ll_height l) / ll_pix l * qz 2 * ll_height l); [field; auto|rewrite Z; ring]. }
    apply Qcmult_integral in Q. destruct Q as [Q|Q]; [contradiction|]. assert (ll_height l = h) by (transitivity (ll_height l - h + h); [ring|rewrite Q; ring]). rewrite H in B. exact (Qclt_not_le _ _ B (Qcle_refl h)).
Qed.
Lemma sorted_up a b n i : a <= b -> (2 <= n)%Z -> sorted_linspace a b n i = a + qz i * ((b - a) / qz (n - 1)).
Proof.
  intros H Hn. unfold sorted_linspace, linspace. rewrite (proj2 (qc_leb_true _ _) H). destruct (Z.eqb_spec n 1); [lia|reflexivity].
Qed.
Lemma linspace_between a b n i : a <= b -> (2 <= n)%Z -> (0 <= i < n)%Z -> a <= a + qz i * ((b - a) / qz (n - 1)) <= b.
Proof.
  intros H Hn Hi. assert (P : 0 < qz (n - 1)) by (apply qz_pos; lia). pose proof (pos_nz _ P) as NZ.
  assert (I0 : 0 <= qz i) by (rewrite <- qz_0; apply qz_le; lia). assert (I1 : qz i <= qz (n - 1)) by (apply qz_le; lia).
  set (st := (b - a) / qz (n - 1)). assert (E : st * qz (n - 1) = b - a) by (unfold st; field; auto).
  assert (S0 : 0 <= st). { destruct (Qclt_le_dec st 0) as [L|L]; auto. exfalso. assert (Q : st * qz (n - 1) < 0 * qz (n - 1)) by (apply Qcmult_lt_compat_r; auto). qclra. }
  assert (Q1 : 0 * st <= qz i * st) by (apply Qcmult_le_compat_r; auto). assert (Q2 : qz i * st <= qz (n - 1) * st) by (apply Qcmult_le_compat_r; auto).
  rewrite (Qcmult_comm (qz (n - 1))), E in Q2. split; qclra.
Qed.
(** interpolation on the grid *)
Lemma interp2d_between a N x y : nrow a = N -> ncol a = N -> (2 <= N)%Z -> 0 <= x <= qz (N - 1) -> 0 <= y <= qz (N - 1) -> interp2d_at a x y = between_pixels a y x.
Proof.
  intros E1 E2 HN Hx Hy. unfold interp2d_at. rewrite E1, E2.
  assert (C : forall z, 0 <= z <= qz (N - 1) -> grid_clip N z = z).
  { intros z [Z0 Z1]. unfold grid_clip, clip, qc_min, qc_max. destruct (Qclt_le_dec z 0); [exfalso; qclra|]. destruct (Qclt_le_dec z (qz (N - 1))); [reflexivity|apply Qcle_antisym; auto]. }
  rewrite !C by assumption.
  assert (G : forall z, 0 <= z <= qz (N - 1) -> grid_cell N z = qc_floor z \/ (z = qz (N - 1) /\ grid_cell N z = N - 2)%Z).
  { intros z [Z0 Z1]. unfold grid_cell. destruct (Z.le_gt_cases (qc_floor z) (N - 2)) as [L|L]; [left; apply Z.min_l; exact L|right]. rewrite Z.min_r by lia. split; [|reflexivity].
    destruct (qc_floor_spec z) as [F _]. assert (qz (N - 1) <= qz (qc_floor z)) by (apply qz_le; lia). apply Qcle_antisym; [exact Z1|qclra]. }
  unfold between_pixels.
  assert (EN : forall k, qz (k - 1) - qz (k - 2) = 1) by (intros k; rewrite <- qz_sub, <- qz_1; f_equal; lia).
  destruct (G x Hx) as [Gx|[Ex Gx]], (G y Hy) as [Gy|[Ey Gy]]; rewrite Gx, Gy.
  - ring.
  - rewrite Ey, qc_floor_qz, EN. replace (N - 2 + 1)%Z with (N - 1)%Z by lia. replace (qz (N - 1) - qz (N - 1)) with 0 by ring. ring.
  - rewrite Ex, qc_floor_qz, EN. replace (N - 2 + 1)%Z with (N - 1)%Z by lia. replace (qz (N - 1) - qz (N - 1)) with 0 by ring. ring.
  - rewrite Ex, Ey, qc_floor_qz, EN. replace (N - 2 + 1)%Z with (N - 1)%Z by lia. replace (qz (N - 1) - qz (N - 1)) with 0 by ring. ring.
Qed.
(** what one layer gives *)
Definition seen_radius (l : llos) (h : Qc) (radius : option Qc) : Prop := (radius = None /\ ll_height l = 0) \/ radius = Some (meta_radius l h / ll_pix l).
Lemma spot_range l N t h k : (2 <= ll_nout l)%Z -> axis_fits l N t h -> wide l h -> (0 <= k < ll_nout l)%Z -> 0 <= spot l N t h k <= qz (N - 1).
Proof.
  intros Hn [A1 A2] W Hk. unfold spot, wide in *. set (b := beam_start l N t h) in *. set (w := qz 2 * half_beam l h) in *.
  pose proof (linspace_between b (b + w - 1) (ll_nout l) k ltac:(qclra) Hn Hk) as [B1 B2]. replace (b + w - 1 - b) with (w - 1) in * by ring.
  assert (E : qz (N - 1) = qz N - 1) by (rewrite qz_sub, qz_1; reflexivity). rewrite E. split; qclra.
Qed.
Lemma reach_beam l N radius h t : consistent l -> below_source l h -> seen_radius l h radius -> reach l N radius (t * h / ll_pix l) = (beam_start l N t h, beam_start l N t h + qz 2 * half_beam l h).
Proof.
  intros C B R. assert (E : cone_scale l radius * qz (phase_coord l) = half_beam l h).
  { unfold half_beam. change (phase_coord l) with (half_width l). destruct R as [[-> Z]| ->].
    - rewrite Z, (proj2 (qc_eqb_true _ _) eq_refl). reflexivity.
    - destruct (cone_radius l h C B) as [-> _]. reflexivity. }
  unfold reach. rewrite E. unfold beam_start. rewrite qz2. f_equal; ring.
Qed.
Lemma layer_seen l N a h radius i j : consistent l -> below_source l h -> seen_radius l h radius -> nrow a = N -> ncol a = N -> (2 <= N)%Z -> fits l N h -> wide l h ->
  (0 <= i < ll_nout l)%Z -> (0 <= j < ll_nout l)%Z -> meta_pupil_phase l a h radius None i j = Ok (legacy_see l N a h i j).
Proof.
  intros C B R E1 E2 HN [F1 F2] W Hi Hj. unfold meta_pupil_phase.
  assert (Z : match radius with Some r => qc_eqb r 0 | None => false end = false).
  { destruct R as [[-> _]| ->]; [reflexivity|]. apply (cone_radius l h C B). }
  rewrite Z. cbn [fst snd]. rewrite E1, E2, !(reach_beam l N radius h) by assumption. cbn [fst snd].
  pose proof C as (_ & _ & _ & Hn & _).
  destruct F1 as [A1 A2], F2 as [B1 B2]. rewrite !ltb_false by assumption. cbn [orb]. rewrite Z.eqb_refl. cbn [negb]. f_equal. unfold wide in W.
  rewrite !sorted_up by (try exact Hn; qclra).
  replace (beam_start l N (fst (ll_tan l)) h + qz 2 * half_beam l h - 1 - beam_start l N (fst (ll_tan l)) h) with (qz 2 * half_beam l h - 1) by ring.
  replace (beam_start l N (snd (ll_tan l)) h + qz 2 * half_beam l h - 1 - beam_start l N (snd (ll_tan l)) h) with (qz 2 * half_beam l h - 1) by ring.
  change (interp2d_at a (spot l N (fst (ll_tan l)) h j) (spot l N (snd (ll_tan l)) h i) = legacy_see l N a h i j).
  apply (interp2d_between a N); auto; apply spot_range; auto; split; auto.
Qed.
Lemma layer_refused l N a h radius i j : consistent l -> below_source l h -> seen_radius l h radius -> nrow a = N -> ncol a = N -> ~ fits l N h ->
  meta_pupil_phase l a h radius None i j = Err ValueError.
Proof.
  intros C B R E1 E2 NF. unfold meta_pupil_phase.
  assert (Z : match radius with Some r => qc_eqb r 0 | None => false end = false).
  { destruct R as [[-> _]| ->]; [reflexivity|]. apply (cone_radius l h C B). }
  rewrite Z. cbn [fst snd]. rewrite E1, E2, !(reach_beam l N radius h) by assumption. cbn [fst snd].
  destruct (_ || _ || _ || _) eqn:E; [reflexivity|]. exfalso. apply NF. apply orb_false_iff in E. destruct E as [E E4]. apply orb_false_iff in E. destruct E as [E E3]. apply orb_false_iff in E. destruct E as [E1' E2'].
  unfold qc_ltb in *. unfold fits, axis_fits.
  repeat match goal with K : (if Qclt_le_dec ?a ?b then _ else _) = false |- _ => destruct (Qclt_le_dec a b); [discriminate|clear K] end. auto.
Qed.

Lemma mapM_ok {A B} (f : A -> result B) (g : A -> B) xs : (forall x, In x xs -> f x = Ok (g x)) -> mapM f xs = Ok (map g xs).
Proof. induction xs as [|x xs IH]; intros H; cbn; [reflexivity|]. rewrite H by (left; auto). cbn. rewrite IH by (intros; apply H; right; auto). reflexivity. Qed.
Lemma pyget_nth {A} (xs : list A) k x : nth_error xs k = Some x -> pyget xs (Z.of_nat k) = Ok x.
Proof.
  intros E. assert (L : (k < length xs)%nat) by (apply nth_error_Some; congruence). unfold pyget.
  destruct (Z.ltb_spec (Z.of_nat k) 0); [lia|]. destruct (Z.leb_spec 0 (Z.of_nat k)); [|lia]. destruct (Z.ltb_spec (Z.of_nat k) (Z.of_nat (length xs))); [|lia].
  cbn [andb]. rewrite Nat2Z.id, E. reflexivity.
Qed.
Lemma radii_ok l : ll_scrns l = length (ll_heights l) -> ll_height l <> 0 -> layer_radii l = Ok (Some (map (fun h => meta_radius l h / ll_pix l) (ll_heights l))).
Proof.
  intros E NZ. unfold layer_radii. rewrite (proj2 (qc_eqb_false _ _) NZ), E.
  assert (K : forall xs ys, exists g, mapM (fun i => let* h := pyget (xs ++ ys) (Z.of_nat i) in Ok (meta_radius l h / ll_pix l)) (seq (length xs) (length ys)) = Ok (map g (seq (length xs) (length ys))) /\ map g (seq (length xs) (length ys)) = map (fun h => meta_radius l h / ll_pix l) ys).
  { intros xs ys. exists (fun i => meta_radius l (nth i (xs ++ ys) 0) / ll_pix l). split.
    - apply mapM_ok. intros i I. apply in_seq in I. erewrite pyget_nth; [reflexivity|]. apply nth_error_nth'. rewrite app_length. lia.
    - rewrite <- (map_map (fun i => nth i (xs ++ ys) 0) (fun h => meta_radius l h / ll_pix l)). f_equal.
      clear. revert xs. induction ys as [|y ys IH]; intros xs; cbn [length seq map]; [reflexivity|]. f_equal.
      + rewrite app_nth2 by lia. rewrite Nat.sub_diag. reflexivity.
      + specialize (IH (xs ++ [y])). rewrite app_length in IH. cbn [length] in IH. replace (length xs + 1)%nat with (S (length xs)) in IH by lia.
        rewrite <- app_assoc in IH. exact IH. }
  destruct (K [] (ll_heights l)) as (g & G1 & G2). cbn [app length] in *. rewrite G1. cbn [bind]. rewrite G2. reflexivity.
Qed.
Lemma skipn_next {A} (h : A) : forall k xs hs, h :: hs = skipn k xs -> hs = skipn (Datatypes.S k) xs.
Proof.
  induction k as [|k IH]; intros xs hs E; destruct xs as [|x xs]; cbn in *; try discriminate; [inversion E; reflexivity|]. apply IH in E. exact E.
Qed.
Lemma lsum_cons' x xs : lsum (x :: xs) = x + lsum xs.
Proof. reflexivity. Qed.
Lemma layers_sum l N radii i j : consistent l -> (2 <= N)%Z -> ll_meta l = None -> (0 <= i < ll_nout l)%Z -> (0 <= j < ll_nout l)%Z ->
  (radii = None /\ ll_height l = 0 \/ radii = Some (map (fun h => meta_radius l h / ll_pix l) (ll_heights l))) ->
  forall scrns k hs ph, hs = skipn k (ll_heights l) -> (length scrns <= length hs)%nat -> screens_ok N scrns ->
    Forall (fun h => below_source l h /\ fits l N h /\ wide l h) (firstn (length scrns) hs) ->
    add_layers l radii i j k scrns ph = Ok (ph + legacy_stack l N scrns hs i j).
Proof.
  intros C HN HM Hi Hj HR. induction scrns as [|a rest IH]; intros k hs ph E L S F; cbn [add_layers].
  - unfold legacy_stack. cbn. f_equal. ring.
  - destruct hs as [|h hs]; [cbn in L; lia|]. cbn [length firstn] in *. inversion F as [|? ? (B & Fi & W) F' ]; subst. inversion S as [|? ? [S1 S2] S']; subst.
    assert (K : nth_error (ll_heights l) k = Some h).
    { rewrite <- (firstn_skipn k (ll_heights l)), <- E. assert (k <= length (ll_heights l))%nat.
      { destruct (Nat.le_gt_cases k (length (ll_heights l))); auto. rewrite skipn_all2 in E by lia. discriminate. }
      rewrite nth_error_app2; rewrite firstn_length_le by auto; [|lia]. rewrite Nat.sub_diag. reflexivity. }
    assert (R : (match radii with None => Ok None | Some rs => match nth_error rs k with Some r => Ok (Some r) | None => Err KeyError end end) =
                Ok (match radii with None => None | Some _ => Some (meta_radius l h / ll_pix l) end)).
    { destruct HR as [[-> _]| ->]; [reflexivity|]. rewrite nth_error_map, K. reflexivity. }
    rewrite R, HM, (pyget_nth _ _ _ K). cbn [bind].
    assert (SR : seen_radius l h (match radii with None => None | Some _ => Some (meta_radius l h / ll_pix l) end)) by (destruct HR as [[-> Z]| ->]; unfold seen_radius; auto).
    rewrite (layer_seen l (nrow a) a h) by auto. cbn [bind].
    rewrite (IH (Datatypes.S k) hs) by (try lia; auto; eapply skipn_next; exact E).
    unfold legacy_stack. cbn [combine map fst snd]; rewrite ?lsum_cons'. f_equal. ring.
Qed.
Lemma corrections_sum l N i j : consistent l -> (2 <= N)%Z -> ll_rad l <> 0 -> (0 <= i < ll_nout l)%Z -> (0 <= j < ll_nout l)%Z ->
  forall cs hs s, length cs = length hs -> screens_ok N cs -> Forall (fun h => below_source l h /\ fits l N h /\ wide l h) hs ->
    exists s', legacy_correction l i j (at_heights cs hs) s = Ok s' /\ q_phase s' = q_phase s - ll_rad l * legacy_stack l N cs hs i j /\
      q_field s' = q_field s - ll_rad l * legacy_stack l N cs hs i j /\ (cs = [] \/ q_resid s' = q_phase s / ll_rad l - legacy_stack l N cs hs i j).
Proof.
  intros C HN Hr Hi Hj. induction cs as [|a cs IH]; intros [|h hs] s L S F; try discriminate.
  - exists s. unfold legacy_stack. cbn. repeat split; auto; ring.
  - inversion F as [|? ? (B & Fi & W) F' ]; subst. inversion S as [|? ? [S1 S2] S']; subst. cbn [at_heights combine map legacy_correction fst snd].
    rewrite (layer_seen l (nrow a) a h) by (auto; right; auto). cbn [bind].
    destruct (IH hs (mkLpx ((q_phase s / ll_rad l - legacy_see l (nrow a) a h i j) * ll_rad l) (q_field s - legacy_see l (nrow a) a h i j * ll_rad l) (q_phase s / ll_rad l - legacy_see l (nrow a) a h i j))) as (s' & E & P1 & P2 & P3); auto.
    exists s'. cbn [q_phase q_field q_resid] in *. unfold at_heights in E. rewrite E. unfold legacy_stack in *. cbn [combine map fst snd]; rewrite ?lsum_cons'. repeat split.
    + rewrite P1. field. auto.
    + rewrite P2. ring.
    + right. destruct P3 as [-> | P3].
      * destruct hs; [|discriminate]. cbn in E. inversion E; subst. cbn. ring.
      * rewrite P3. field. auto.
Qed.
Lemma frame_ok l N i j scrns cs dmh : consistent l -> (2 <= N)%Z -> ll_rad l <> 0 -> ll_meta l = None -> ll_scrns l = length (ll_heights l) -> (0 <= i < ll_nout l)%Z -> (0 <= j < ll_nout l)%Z ->
  all_seen l N scrns (ll_heights l) -> all_seen l N cs dmh ->
  let d := sgn l * legacy_stack l N scrns (ll_heights l) i j in let c := legacy_stack l N cs dmh i j in
  (legacy_frame l i j (Some scrns) None = Ok (mkLpx (ll_rad l * d) (ll_rad l * d) (ll_rad l * d))) /\
  (cs <> [] -> legacy_frame l i j (Some scrns) (Some (at_heights cs dmh)) = Ok (mkLpx (ll_rad l * (d - c)) (ll_rad l * (d - c)) (d - c))).
Proof.
  intros C HN Hr HM HS Hi Hj (A1 & A2 & A3) (B1 & B2 & B3) d c. unfold legacy_frame.
  assert (E : exists radii, layer_radii l = Ok radii /\ (radii = None /\ ll_height l = 0 \/ radii = Some (map (fun h => meta_radius l h / ll_pix l) (ll_heights l)))).
  { destruct (qc_eqb (ll_height l) 0) eqn:E.
    - exists None. unfold layer_radii. rewrite E. apply qc_eqb_true in E. auto.
    - apply qc_eqb_false in E. eexists. split; [apply radii_ok; auto|]. right. reflexivity. }
  destruct E as (radii & E & R). rewrite E. cbn [bind].
  assert (G : make_phase_geometric l radii i j scrns 0 = Ok (ll_rad l * d)).
  { unfold make_phase_geometric. rewrite (layers_sum l N radii i j C HN HM Hi Hj R scrns 0%nat (ll_heights l)) by (auto; try lia; rewrite A2, firstn_all; auto).
    cbn [bind]. f_equal. unfold d, sgn. destruct (ll_up l); ring. }
  rewrite G. cbn [bind]. split; [reflexivity|]. intros NE.
  destruct (corrections_sum l N i j C HN Hr Hi Hj cs dmh (mkLpx (ll_rad l * d) (ll_rad l * d) (ll_rad l * d)) B2 B1 B3) as ([p f r] & E1 & P1 & P2 & P3).
  rewrite E1. cbn [q_phase q_field q_resid] in *. destruct P3 as [P3|P3]; [contradiction|]. fold c in P1, P2, P3.
  rewrite P1, P2, P3. f_equal. f_equal; try ring. field. auto.
Qed.
(** agreement with the current line of sight *)
Lemma coord_spot l N dmalts p t h k : consistent l -> even_width l -> (2 <= N)%Z -> below_source l h -> axis_fits l N t h -> wide l h -> (0 <= k < ll_nout l)%Z ->
  beam_start l N t h + qz 2 * half_beam l h <= qz N - interp_eps ->
  coord (same_line l N dmalts p) (edges (same_line l N dmalts p) (t * h) h) k = spot l N t h k.
Proof.
  intros C EV HN B F W Hk CL. pose proof C as (P1 & P2 & P3 & P4 & P5). pose proof (pos_nz _ P1) as N1.
  set (g := same_line l N dmalts p). assert (T2 : qz 2 <> 0) by (apply qz_nz; lia).
  assert (HB : meta_pupil_size g h / qz 2 / ll_pix l = half_beam l h).
  { unfold half_beam, meta_pupil_size. cbn [g same_line g_src g_nout g_outscale]. rewrite EV. destruct (qc_eqb (ll_height l) 0) eqn:E; [field; auto|].
    apply qc_eqb_false in E. field. auto. }
  assert (E : raw_coord g (edges g (t * h) h) k = spot l N t h k).
  { unfold raw_coord, linspace, spot, edges. cbn [fst snd]. change (g_nout g) with (ll_nout l). change (g_inscale g) with (ll_pix l). change (g_nscrn g) with N.
    destruct (Z.eqb_spec (ll_nout l) 1); [lia|].
    assert (X1 : (t * h - meta_pupil_size g h / qz 2) / ll_pix l + qz N / qz 2 = beam_start l N t h) by (unfold beam_start; rewrite <- HB; field; auto).
    assert (X2 : (t * h + meta_pupil_size g h / qz 2) / ll_pix l + qz N / qz 2 = beam_start l N t h + qz 2 * half_beam l h) by (unfold beam_start; rewrite <- HB, qz2; field; repeat split; auto using two_neq').
    rewrite X1, X2. f_equal. f_equal. f_equal. ring. }
  rewrite <- E. destruct (spot_range l N t h k P4 F W Hk) as [S1 S2]. apply coord_inside.
  - rewrite E. exact S1.
  - rewrite E. change (g_nscrn g) with N. unfold spot. set (b := beam_start l N t h) in *. unfold wide in W. set (w := qz 2 * half_beam l h) in *.
    pose proof (linspace_between b (b + w - 1) (ll_nout l) k ltac:(qclra) P4 Hk) as [B1 B2]. replace (b + w - 1 - b) with (w - 1) in * by ring. qclra.
Qed.
Lemma stack_same l N dmalts ls hs i j : consistent l -> even_width l -> (2 <= N)%Z -> (0 <= i < ll_nout l)%Z -> (0 <= j < ll_nout l)%Z ->
  all_seen l N ls hs -> Forall (clear_of_end l N) hs -> stack_sum (same_line l N dmalts (swap (ll_tan l))) i j ls hs = legacy_stack l N ls hs i j.
Proof.
  intros C EV HN Hi Hj (A1 & A2 & A3) CL. unfold stack_sum, legacy_stack. revert hs A2 A3 CL. induction ls as [|a ls IH]; intros [|h hs] A2 A3 CL; try discriminate; [reflexivity|].
  inversion A1; subst. inversion A3 as [|? ? (B & [F1 F2] & W) A3']; subst. inversion CL as [|? ? [C1 C2] CL']; subst. cbn [combine map fst snd]; rewrite ?lsum_cons'. f_equal; [|apply IH; auto].
  unfold legacy_see. f_equal.
  - unfold x_edges, centre. cbn [same_line g_up g_posx swap fst snd]. apply coord_spot; auto.
  - unfold y_edges, centre. cbn [same_line g_up g_posy swap fst snd]. apply coord_spot; auto.
Qed.
Lemma between_transposed a x y : between_pixels (transposed a) x y = between_pixels a y x.
Proof. unfold between_pixels, transposed, at2. cbn. ring. Qed.
Lemma stack_transposed l N dmalts ls hs i j : consistent l -> even_width l -> (2 <= N)%Z -> (0 <= i < ll_nout l)%Z -> (0 <= j < ll_nout l)%Z ->
  all_seen l N ls hs -> Forall (clear_of_end l N) hs -> stack_sum (same_line l N dmalts (ll_tan l)) j i (map transposed ls) hs = legacy_stack l N ls hs i j.
Proof.
  intros C EV HN Hi Hj (A1 & A2 & A3) CL. unfold stack_sum, legacy_stack. revert hs A2 A3 CL. induction ls as [|a ls IH]; intros [|h hs] A2 A3 CL; try discriminate; [reflexivity|].
  inversion A1; subst. inversion A3 as [|? ? (B & [F1 F2] & W) A3']; subst. inversion CL as [|? ? [C1 C2] CL']; subst. cbn [combine map fst snd]; rewrite ?lsum_cons'. f_equal; [|apply IH; auto].
  rewrite between_transposed. unfold legacy_see. f_equal.
  - unfold y_edges, centre. cbn [same_line g_up g_posy fst snd]. apply coord_spot; auto.
  - unfold x_edges, centre. cbn [same_line g_up g_posx fst snd]. apply coord_spot; auto.
Qed.

Lemma spots_inside l N h i j : consistent l -> fits l N h -> wide l h -> (0 <= i < ll_nout l)%Z -> (0 <= j < ll_nout l)%Z ->
  0 <= spot l N (snd (ll_tan l)) h i <= qz (N - 1) /\ 0 <= spot l N (fst (ll_tan l)) h j <= qz (N - 1).
Proof. intros (_ & _ & _ & Hn & _) [F1 F2] W Hi Hj. split; apply spot_range; auto. Qed.
Lemma layers_refused l N radii i j : consistent l -> (2 <= N)%Z -> ll_meta l = None -> (0 <= i < ll_nout l)%Z -> (0 <= j < ll_nout l)%Z ->
  (radii = None /\ ll_height l = 0 \/ radii = Some (map (fun h => meta_radius l h / ll_pix l) (ll_heights l))) ->
  forall scrns k hs ph, hs = skipn k (ll_heights l) -> length scrns = length hs -> screens_ok N scrns ->
    Forall (fun h => below_source l h /\ wide l h) hs -> (exists h, In h hs /\ ~ fits l N h) ->
    add_layers l radii i j k scrns ph = Err ValueError.
Proof.
  intros C HN HM Hi Hj HR. induction scrns as [|a rest IH]; intros k hs ph E L S F (h0 & I0 & NF0).
  - destruct hs; [destruct I0|discriminate].
  - destruct hs as [|h hs]; [discriminate|]. cbn [length add_layers] in *. inversion F as [|? ? (B & W) F' ]; subst. inversion S as [|? ? [S1 S2] S']; subst.
    assert (K : nth_error (ll_heights l) k = Some h).
    { rewrite <- (firstn_skipn k (ll_heights l)), <- E. assert (k <= length (ll_heights l))%nat.
      { destruct (Nat.le_gt_cases k (length (ll_heights l))); auto. rewrite skipn_all2 in E by lia. discriminate. }
      rewrite nth_error_app2; rewrite firstn_length_le by auto; [|lia]. rewrite Nat.sub_diag. reflexivity. }
    assert (R : (match radii with None => Ok None | Some rs => match nth_error rs k with Some r => Ok (Some r) | None => Err KeyError end end) =
                Ok (match radii with None => None | Some _ => Some (meta_radius l h / ll_pix l) end)).
    { destruct HR as [[-> _]| ->]; [reflexivity|]. rewrite nth_error_map, K. reflexivity. }
    rewrite R, HM, (pyget_nth _ _ _ K). cbn [bind].
    assert (SR : seen_radius l h (match radii with None => None | Some _ => Some (meta_radius l h / ll_pix l) end)) by (destruct HR as [[-> Z]| ->]; unfold seen_radius; auto).
    assert (D : fits l (nrow a) h \/ ~ fits l (nrow a) h).
    { unfold fits, axis_fits. set (x1 := beam_start _ _ (fst _) _). set (x2 := beam_start _ _ (snd _) _). set (w := qz 2 * half_beam l h).
      destruct (Qclt_le_dec x1 0); [right; intros [[? _] _]; qclra|]. destruct (Qclt_le_dec x2 0); [right; intros [_ [? _]]; qclra|].
      destruct (Qclt_le_dec (qz (nrow a)) (x1 + w)); [right; intros [[_ ?] _]; qclra|]. destruct (Qclt_le_dec (qz (nrow a)) (x2 + w)); [right; intros [_ [_ ?]]; qclra|]. left; auto. }
    destruct D as [D|D].
    + rewrite (layer_seen l (nrow a) a h) by auto. cbn [bind]. apply (IH (Datatypes.S k) hs); auto; [eapply skipn_next; exact E|].
      destruct I0 as [I0|I0]; [subst; contradiction|eauto].
    + rewrite (layer_refused l (nrow a) a h) by auto. reflexivity.
Qed.
Lemma frame_refused l N i j scrns corr : consistent l -> (2 <= N)%Z -> ll_meta l = None -> ll_scrns l = length (ll_heights l) -> (0 <= i < ll_nout l)%Z -> (0 <= j < ll_nout l)%Z ->
  screens_ok N scrns -> length scrns = length (ll_heights l) -> Forall (fun h => below_source l h /\ wide l h) (ll_heights l) -> (exists h, In h (ll_heights l) /\ ~ fits l N h) ->
  legacy_frame l i j (Some scrns) corr = Err ValueError.
Proof.
  intros C HN HM HS Hi Hj S L F NF. unfold legacy_frame, make_phase_geometric. destruct (qc_eqb (ll_height l) 0) eqn:E.
  - assert (R : layer_radii l = Ok None) by (unfold layer_radii; rewrite E; reflexivity). rewrite R. cbn [bind]. apply qc_eqb_true in E.
    rewrite (layers_refused l N None i j C HN HM Hi Hj (or_introl (conj eq_refl E)) scrns 0%nat (ll_heights l)); auto.
  - apply qc_eqb_false in E. rewrite (radii_ok l HS E). cbn [bind].
    rewrite (layers_refused l N _ i j C HN HM Hi Hj (or_intror eq_refl) scrns 0%nat (ll_heights l)); auto.
Qed.
Lemma above_source_layer l a h i j : 0 < ll_height l -> ll_height l <= h -> ll_scrns l = 1%nat -> ll_heights l = [h] -> ll_meta l = None ->
  legacy_frame l i j (Some [a]) None = (if ((ll_sim l =? ll_nout l) || (ll_sim l =? 1))%Z then Ok (mkLpx 0 0 0) else Err ValueError).
Proof.
  intros HP HL HS HH HM. pose proof (pos_nz _ HP) as NZ. unfold legacy_frame. rewrite radii_ok by (auto; rewrite HH, HS; reflexivity). cbn [bind]. rewrite HH. cbn [map].
  unfold make_phase_geometric. cbn [add_layers nth_error]. rewrite HM, HH. change (pyget [h] (Z.of_nat 0)) with (Ok h). cbn [bind].
  assert (R : qc_eqb (meta_radius l h / ll_pix l) 0 = true).
  { apply qc_eqb_true. unfold meta_radius. rewrite (proj2 (qc_eqb_false _ _) NZ), (proj2 (qc_leb_true _ _) HL). unfold Qcdiv. ring. }
  unfold meta_pupil_phase. rewrite R. destruct (_ || _)%bool; [|reflexivity]. cbn [bind].
  destruct (ll_up l); f_equal; f_equal; ring.
Qed.
Lemma seen_lists l N ls hs : all_seen l N ls hs -> screens_ok N ls /\ (length ls <= length hs)%nat.
Proof. intros (A & B & _). split; [exact A|lia]. Qed.
Lemma transposed_ok N ls : screens_ok N ls -> screens_ok N (map transposed ls).
Proof. intros H. induction H as [|a ls [H1 H2] _ IH]; constructor; auto. Qed.

Lemma loop_cons n ht hf alts i rest zt : legacy_prop_loop n ht hf alts (i :: rest) zt =
  let* z := if (i =? n - 1)%Z then Ok (qc_abs (hf - ht) - zt) else let* a := pyget alts (i + 1)%Z in let* b := pyget alts i in Ok (qc_abs (a - b)) in
  let* r := legacy_prop_loop n ht hf alts rest (zt + z) in Ok (Screen i :: Travel z :: r).
Proof. reflexivity. Qed.
Lemma loop_up_legacy n src pre : forall l a zt, n = (Z.of_nat (length pre) + Z.of_nat (Datatypes.S (length l)))%Z -> increasing_from a l -> 0 <= src ->
  exists ops, legacy_prop_loop n 0 src (pre ++ a :: l) (map Z.of_nat (seq (length pre) (Datatypes.S (length l)))) zt = Ok ops /\
    journey 1 a ops = (combine (map Z.of_nat (seq (length pre) (Datatypes.S (length l)))) (a :: l), a + src - zt) /\
    (zt + (last l a - a) <= src -> never_backwards ops).
Proof.
  intros l. revert pre. induction l as [|b l IH]; intros pre a zt En HI Hs.
  - cbn [length seq map legacy_prop_loop]. assert (E : (Z.of_nat (length pre) =? n - 1)%Z = true) by (apply Z.eqb_eq; cbn in En; lia). rewrite E. cbn [bind].
    assert (A : qc_abs (src - 0) = src) by (replace (src - 0) with src by ring; apply abs_of_nonneg; auto). rewrite A.
    eexists. split; [reflexivity|]. split; [cbn; f_equal; ring|]. intros H z [K|[K|[]]]; inversion K; subst. cbn in H. revert H. replace (a - a) with 0 by ring. intros H. qclra.
  - cbn [increasing_from] in HI. destruct HI as [Hab HI]. cbn [length] in En |- *. change (seq (length pre) (Datatypes.S (Datatypes.S (length l)))) with (length pre :: seq (Datatypes.S (length pre)) (Datatypes.S (length l))). cbn [map]. rewrite loop_cons.
    assert (E : (Z.of_nat (length pre) =? n - 1)%Z = false) by (apply Z.eqb_neq; lia). rewrite E.
    replace (Z.of_nat (length pre) + 1)%Z with (Z.of_nat (Datatypes.S (length pre))) by lia.
    rewrite (pyget_nth (pre ++ a :: b :: l) (Datatypes.S (length pre)) b), (pyget_nth (pre ++ a :: b :: l) (length pre) a).
    2: rewrite nth_error_app2 by lia; rewrite Nat.sub_diag; reflexivity.
    2: rewrite nth_error_app2 by lia; replace (Datatypes.S (length pre) - length pre)%nat with 1%nat by lia; reflexivity.
    cbn [bind]. assert (A : qc_abs (b - a) = b - a) by (apply abs_of_nonneg; qclra). rewrite A.
    destruct (IH (pre ++ [a]) b (zt + (b - a))) as (ops & E1 & J & NB); auto.
    { rewrite app_length. cbn [length]. lia. }
    rewrite app_length in E1, J. cbn [length] in E1, J. replace (length pre + 1)%nat with (Datatypes.S (length pre)) in E1, J by lia.
    rewrite <- app_assoc in E1. cbn [app] in E1. rewrite E1. cbn [bind]. eexists. split; [reflexivity|]. split.
    + cbn [journey combine]. replace (a + 1 * (b - a)) with b by ring. rewrite J. f_equal. ring.
    + intros H z [K|[K|K]]; try discriminate; [inversion K; subst; qclra|]. apply NB; [|exact K].
      assert (L : last (b :: l) a = last l b) by (destruct l as [|? l']; [reflexivity|exact (last_default l' _ _ _)]). rewrite L in H.
      replace (zt + (b - a) + (last l b - b)) with (zt + (last l b - a)) by ring. exact H.
Qed.
Lemma legacy_up alts src : altitudes alts -> 0 < src ->
  exists ops, legacy_propagate true (length alts) alts src = Ok ops /\ journey 1 0 ops = (stations alts, src + nth 0 alts 0) /\
    (top alts - nth 0 alts 0 <= src -> never_backwards ops).
Proof.
  destruct alts as [|a l]; [contradiction|]. intros [Ha HI] Hs. unfold legacy_propagate.
  assert (E : qc_eqb src 0 = false) by (apply qc_eqb_false, pos_nz; exact Hs). rewrite E. cbn [bind fst snd].
  rewrite (pyget_nth (a :: l) 0%nat a eq_refl : pyget (a :: l) 0 = Ok a). cbn [bind].
  destruct (loop_up_legacy (Z.of_nat (length (a :: l))) src [] l a 0 ltac:(cbn; lia) HI ltac:(qclra)) as (ops & E1 & J & NB).
  cbn [app length] in *. rewrite E1. cbn [bind nth].
  assert (Az : qc_abs (a - 0) = a) by (replace (a - 0) with a by ring; apply abs_of_nonneg; auto).
  eexists. split; [reflexivity|]. unfold stations. cbn [length].
  assert (L : top (a :: l) = last l a) by (unfold top; destruct l as [|? l']; [reflexivity|exact (last_default l' _ _ _)]).
  destruct (qc_eqb 0 a) eqn:E0; cbn [app].
  - apply qc_eqb_true in E0. subst a. split; [rewrite J; f_equal; ring|]. intros H. apply NB. rewrite L in H. qclra.
  - rewrite Az. split; [cbn [journey]; replace (0 + 1 * a) with a by ring; rewrite J; f_equal; ring|].
    intros H z [K|K]; [inversion K; subst; auto|]. apply NB; auto. rewrite L in H. qclra.
Qed.
(** down *)
Lemma increasing_nth l : forall a i, increasing_from a l -> (i < length l)%nat -> nth i (a :: l) 0 <= nth i l 0.
Proof.
  induction l as [|b l IH]; intros a i H L; cbn in L; [lia|]. destruct H as [H1 H2]. destruct i; cbn [nth]; [qclra|]. apply (IH b i); auto. lia.
Qed.
Lemma rev_decreasing l i : altitudes l -> (Datatypes.S i < length l)%nat -> nth (Datatypes.S i) (rev l) 0 <= nth i (rev l) 0.
Proof.
  intros A L. destruct l as [|a l]; [contradiction|]. destruct A as [_ A]. rewrite !rev_nth by (cbn in *; lia). cbn [length] in *.
  replace (Datatypes.S (length l) - Datatypes.S i)%nat with (Datatypes.S (Datatypes.S (length l) - Datatypes.S (Datatypes.S i))) by lia.
  set (k := (Datatypes.S (length l) - Datatypes.S (Datatypes.S i))%nat). apply (increasing_nth l a k A). unfold k. lia.
Qed.
Lemma loop_down_legacy n ht hf alts : (forall i, (Datatypes.S i < length alts)%nat -> nth (Datatypes.S i) alts 0 <= nth i alts 0) ->
  forall m zt, (m < length alts)%nat -> (Z.of_nat m < n)%Z ->
  exists ops, legacy_prop_loop n ht hf alts (rev (map Z.of_nat (seq 0 m))) zt = Ok ops /\ never_backwards ops /\
    forall p, exists v, journey (-(1)) p ops = (v, p - (nth 0 alts 0 - nth m alts 0)) /\ map fst v = rev (map Z.of_nat (seq 0 m)) /\ Forall (fun s => snd s <= p) v.
Proof.
  intros D. induction m as [|m IH]; intros zt Hm Hn.
  - exists []. split; [reflexivity|]. split; [intros z []|]. intros p. exists []. cbn. repeat split; auto. f_equal. ring.
  - rewrite seq_S, map_app, rev_app_distr. cbn [Nat.add map rev app legacy_prop_loop].
    assert (E : (Z.of_nat m =? n - 1)%Z = false) by (apply Z.eqb_neq; lia). rewrite E.
    replace (Z.of_nat m + 1)%Z with (Z.of_nat (Datatypes.S m)) by lia.
    rewrite (pyget_nth alts (Datatypes.S m) (nth (Datatypes.S m) alts 0)), (pyget_nth alts m (nth m alts 0)) by (apply nth_error_nth'; lia).
    cbn [bind]. set (z := qc_abs _). assert (Z0 : z = nth m alts 0 - nth (Datatypes.S m) alts 0).
    { unfold z. specialize (D m Hm). unfold qc_abs. destruct (Qclt_le_dec (nth (Datatypes.S m) alts 0 - nth m alts 0) 0); [ring|]. assert (X : nth (Datatypes.S m) alts 0 = nth m alts 0) by (apply Qcle_antisym; qclra). rewrite X. ring. }
    assert (ZN : 0 <= z) by (specialize (D m Hm); qclra).
    destruct (IH (zt + z)%Qc) as (ops & E1 & NB & J); [lia|lia|]. rewrite E1. cbn [bind]. eexists. split; [reflexivity|]. split.
    + intros y [K|[K|K]]; try discriminate; [inversion K; subst; auto|apply NB; exact K].
    + intros p. cbn [journey]. destruct (J (p + - (1) * z)) as (v & Jv & M & F). rewrite Jv. eexists. split; [f_equal; rewrite Z0; ring|]. cbn [map fst]. split; [f_equal; exact M|].
      constructor; [apply Qcle_refl|]. eapply Forall_impl; [|exact F]. intros s Hs. cbn in Hs. qclra.
Qed.
Lemma legacy_down alts src : altitudes alts ->
  exists ops v, legacy_propagate false (length alts) alts src = Ok ops /\ never_backwards ops /\
    journey (-(1)) (top alts) ops = ((Z.of_nat (length alts) - 1, top alts)%Z :: v, nth 0 alts 0 - top alts) /\
    map fst v = rev (map Z.of_nat (seq 0 (length alts - 1))) /\ Forall (fun s => snd s <= 0) v.
Proof.
  intros A. destruct alts as [|a l]; [contradiction|]. unfold legacy_propagate. rewrite pyget_last. cbn [bind fst snd].
  destruct (rev_top a l) as (r & R & L). rewrite R. rewrite (pyget_nth (top (a :: l) :: r) 0%nat (top (a :: l)) eq_refl : pyget (top (a :: l) :: r) 0 = Ok _). cbn [bind].
  rewrite (proj2 (qc_eqb_true _ _) eq_refl). cbn [length app].
  assert (T : 0 <= top (a :: l)). { destruct A as [A0 A1]. assert (E : top (a :: l) = last l a) by (unfold top; destruct l as [|? l']; [reflexivity|exact (last_default l' _ _ _)]). rewrite E. pose proof (increasing_last a l A1). qclra. }
  rewrite seq_S, map_app, rev_app_distr. cbn [Nat.add map rev app legacy_prop_loop].
  assert (E : (Z.of_nat (length l) =? Z.of_nat (Datatypes.S (length l)) - 1)%Z = true) by (apply Z.eqb_eq; lia). rewrite E. cbn [bind].
  destruct (loop_down_legacy (Z.of_nat (Datatypes.S (length l))) (top (a :: l)) 0 (rev (a :: l)) (fun i H => rev_decreasing (a :: l) i A ltac:(rewrite rev_length in H; exact H)) (length l) (0 + (qc_abs (0 - top (a :: l)) - 0)) ltac:(rewrite rev_length; cbn; lia) ltac:(lia)) as (ops & E1 & NB & J).
  rewrite R in E1. rewrite E1. cbn [bind]. assert (AB : qc_abs (0 - top (a :: l)) = top (a :: l)).
  { unfold qc_abs. destruct (Qclt_le_dec (0 - top (a :: l)) 0); [ring|]. assert (X : top (a :: l) = 0) by (apply Qcle_antisym; qclra). rewrite X. ring. }
  destruct (J 0) as (v & Jv & M & F). eexists. exists v. split; [reflexivity|]. split.
  - intros z [K|[K|K]]; try discriminate; [inversion K; subst; rewrite AB; qclra|apply NB; exact K].
  - cbn [journey]. rewrite AB. replace (top (a :: l) + - (1) * (top (a :: l) - 0)) with 0 by ring. rewrite Jv. split; [f_equal; [f_equal; f_equal; lia|]|].
    + rewrite (rev_nth (a :: l) 0 (n := 0)), (rev_nth (a :: l) 0 (n := length l)) by (cbn; lia). cbn [length]. replace (Datatypes.S (length l) - Datatypes.S (length l))%nat with 0%nat by lia.
      replace (Datatypes.S (length l) - 1)%nat with (length l) by lia.
      assert (X : nth (length l) (a :: l) 0 = top (a :: l)).
      { assert (K : nth_error (a :: l) (length l) = Some (top (a :: l))).
        { assert (K : a :: l = rev r ++ [top (a :: l)]) by (rewrite <- (rev_involutive (a :: l)), R at 1; reflexivity). rewrite K at 1. rewrite nth_error_app2; rewrite rev_length, L; [rewrite Nat.sub_diag; reflexivity|lia]. }
        apply nth_error_nth with (d := 0) in K. exact K. }
      rewrite X. ring.
    + replace (Datatypes.S (length l) - 1)%nat with (length l) by lia. auto.
Qed.

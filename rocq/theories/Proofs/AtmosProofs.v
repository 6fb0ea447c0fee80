(** Proofs about the moving atmosphere. *)
From Verif.Base Require Import Vec.
From Verif.Model Require Import Numerics Atmos.
From Verif.Spec Require Import AtmosSpec.
From Verif.Proofs Require Import NumericsProofs.

(** ** One axis *)
Section Axis.
  Variables (W s : Z).
  Hypothesis Hs : 1 <= s.
  Hypothesis HW : s <= W.

  (** what [wrap_axis] does: the roll and the new axis *)
  Definition wrap_roll (a : axis) : Z :=
    if qc_leb (qz W) (ax_pos a + qz s) then qc_int (- ax_pos a)
    else if qc_ltb (ax_pos a) 0 then qc_int (qz W - ax_pos a - qz s) else 0.
  Definition wrap_to (a : axis) : axis :=
    if qc_leb (qz W) (ax_pos a + qz s) then mkAxis 0%Qc 0%Qc
    else if qc_ltb (ax_pos a) 0 then mkAxis (qz (W - s)) (qz (W - s)) else a.
  Definition wraps (a : axis) : bool := qc_leb (qz W) (ax_pos a + qz s) || qc_ltb (ax_pos a) 0.

  Lemma wrap_axis_eq rl f a : (forall g, rl 0 g = g) \/ True ->
    wrap_axis W s rl f a = ((if wraps a then rl (wrap_roll a) f else f), wrap_to a).
  Proof.
    intros _. unfold wrap_axis, wraps, wrap_roll, wrap_to.
    destruct (qc_leb (qz W) (ax_pos a + qz s)) eqn:E1; cbn [orb].
    - cbn [ax_pos]. replace (qc_ltb 0 0) with false by reflexivity. reflexivity.
    - destruct (qc_ltb (ax_pos a) 0) eqn:E2; reflexivity.
  Qed.

  Lemma wrap_to_eqpos a : ax_off a = ax_pos a -> ax_off (wrap_to a) = ax_pos (wrap_to a).
  Proof. intros E. unfold wrap_to. destruct (qc_leb _ _); [reflexivity|]. destruct (qc_ltb _ _); auto. Qed.

  Lemma qz_nn k : 0 <= k -> (0 <= qz k)%Qc.
  Proof. intros. rewrite <- qz_0. apply qz_le; auto. Qed.

  Lemma wrap_to_inside a : ax_off a = ax_pos a -> inside W s (ax_off (wrap_to a)).
  Proof.
    intros E. unfold wrap_to, inside.
    pose proof (qz_sub W 1). pose proof (qz_sub s 1). rewrite qz_1 in *.
    destruct (qc_leb_spec (qz W) (ax_pos a + qz s)) as [H1|H1].
    - cbn [ax_off]. split; [apply Qcle_refl|]. assert (qz s <= qz W)%Qc by (apply qz_le; auto). qclra.
    - destruct (qc_ltb_spec (ax_pos a) 0) as [H2|H2].
      + cbn [ax_off]. split; [apply qz_nn; lia|]. rewrite <- qz_add. apply qz_le. lia.
      + rewrite E. split; auto. qclra.
  Qed.
End Axis.

Definition axis_ok (a : axis) : Prop := ax_off a = ax_pos a.

Lemma wrap_layer_eq W s l :
  wrap_layer W s l =
  let f1 := if wraps W s (ly_x l) then roll_x W (wrap_roll W s (ly_x l)) (ly_scr l) else ly_scr l in
  let f2 := if wraps W s (ly_y l) then roll_y W (wrap_roll W s (ly_y l)) f1 else f1 in
  mkLayer f2 (wrap_to W s (ly_x l)) (wrap_to W s (ly_y l)).
Proof. unfold wrap_layer. rewrite !wrap_axis_eq by auto. reflexivity. Qed.

Lemma before_ok W s f vx vy n : axis_ok (ly_x (before_frame W s f vx vy n)) /\ axis_ok (ly_y (before_frame W s f vx vy n)).
Proof.
  induction n as [|n [IHx IHy]]; cbn [before_frame].
  - split; reflexivity.
  - rewrite wrap_layer_eq. unfold axis_ok in *. cbn. rewrite (wrap_to_eqpos W s _ IHx), (wrap_to_eqpos W s _ IHy). auto.
Qed.

Lemma sampled_inside W s f vx vy n : 1 <= s -> s <= W ->
  inside W s (ax_off (ly_x (sampled W s f vx vy n))) /\ inside W s (ax_off (ly_y (sampled W s f vx vy n))).
Proof.
  intros Hs HW. destruct (before_ok W s f vx vy n) as [Hx Hy]. unfold sampled. rewrite wrap_layer_eq. cbn.
  split; apply wrap_to_inside; auto.
Qed.

(** ** Integer winds: exact frozen flow *)
Lemma mod_shift W a b k : 0 < W -> a mod W = b mod W -> (a + k) mod W = (b + k) mod W.
Proof. intros HW E. rewrite Zplus_mod, E, <- Zplus_mod. reflexivity. Qed.

(** the invariant of an axis before frame n: integer position p, total roll K with p + ... *)
Lemma int_wrap W s p : 1 <= s -> s <= W -> exists k q, wrap_roll W s (mkAxis (qz p) (qz p)) = k /\
  wrap_to W s (mkAxis (qz p) (qz p)) = mkAxis (qz q) (qz q) /\ 0 <= q /\ q + s <= W /\
  (wraps W s (mkAxis (qz p) (qz p)) = true -> q - k = p) /\ (wraps W s (mkAxis (qz p) (qz p)) = false -> q = p).
Proof.
  intros Hs HW. unfold wrap_roll, wrap_to, wraps. cbn [ax_pos].
  rewrite <- qz_add.
  destruct (qc_leb_spec (qz W) (qz (p + s))) as [H1|H1]; cbn [orb].
  - apply (proj1 (qz_le _ _)) in H1. exists (- p), 0. rewrite <- qz_opp, qc_int_qz. rewrite qz_0.
    split; [reflexivity|]. split; [reflexivity|]. split; [lia|]. split; [lia|]. split; intros; [lia | congruence].
  - apply (proj1 (qz_lt _ _)) in H1. destruct (qc_ltb_spec (qz p) 0) as [H2|H2].
    + rewrite <- qz_0 in H2. apply (proj1 (qz_lt _ _)) in H2. exists (W - p - s), (W - s). rewrite <- !qz_sub, qc_int_qz.
      split; [reflexivity|]. split; [reflexivity|]. split; [lia|]. split; [lia|]. split; intros; [lia | congruence].
    + rewrite <- qz_0 in H2. apply (proj1 (qz_le _ _)) in H2. exists 0, p.
      split; [reflexivity|]. split; [reflexivity|]. split; [lia|]. split; [lia|]. split; intros; [congruence | lia].
Qed.

Section Int.
  Variables (W s : Z) (f : screen) (mx my : Z).
  Hypothesis Hs : 1 <= s.
  Hypothesis HW : s <= W.

  Definition int_inv (n : Z) (l : layer) : Prop :=
    exists px py kx ky,
      ly_x l = mkAxis (qz px) (qz px) /\ ly_y l = mkAxis (qz py) (qz py) /\
      rolled W kx ky f (ly_scr l) /\
      px - kx = start W s (qz mx) + n * mx /\ py - ky = start W s (qz my) + n * my.

  Lemma rolled_roll_x k kx ky g : rolled W kx ky f g -> rolled W (kx + k) ky f (roll_x W k g).
  Proof.
    intros R i j Hi Hj. unfold roll_x. rewrite R by (auto; apply Z.mod_pos_bound; lia). f_equal.
    replace (i - (kx + k)) with (i - k - kx) by lia. rewrite Zminus_mod_idemp_l. reflexivity.
  Qed.
  Lemma rolled_roll_y k kx ky g : rolled W kx ky f g -> rolled W kx (ky + k) f (roll_y W k g).
  Proof.
    intros R i j Hi Hj. unfold roll_y. rewrite R by (auto; apply Z.mod_pos_bound; lia). f_equal.
    replace (j - (ky + k)) with (j - k - ky) by lia. rewrite Zminus_mod_idemp_l. reflexivity.
  Qed.

  Lemma int_inv_wrap n l : int_inv n l -> int_inv n (wrap_layer W s l) /\
    (exists px py, ly_x (wrap_layer W s l) = mkAxis (qz px) (qz px) /\ ly_y (wrap_layer W s l) = mkAxis (qz py) (qz py) /\
       0 <= px /\ px + s <= W /\ 0 <= py /\ py + s <= W).
  Proof.
    intros (px & py & kx & ky & Ex & Ey & R & Dx & Dy). rewrite wrap_layer_eq, Ex, Ey. cbn [ly_x ly_y ly_scr].
    destruct (int_wrap W s px Hs HW) as (ax & qx & Erx & Etx & Bx1 & Bx2 & Wx & Nx).
    destruct (int_wrap W s py Hs HW) as (ay & qy & Ery & Ety & By1 & By2 & Wy & Ny).
    rewrite Erx, Etx, Ery, Ety. split; [|exists qx, qy; auto 8].
    set (g1 := if wraps W s (mkAxis (qz px) (qz px)) then roll_x W ax (ly_scr l) else ly_scr l).
    assert (R1 : exists k1, rolled W k1 ky f g1 /\ qx - k1 = px - kx).
    { unfold g1. destruct (wraps W s (mkAxis (qz px) (qz px))).
      - exists (kx + ax). split; [apply rolled_roll_x; auto | specialize (Wx eq_refl); lia].
      - exists kx. split; auto. specialize (Nx eq_refl). lia. }
    destruct R1 as (k1 & R1 & D1).
    assert (R2 : exists k2, rolled W k1 k2 f (if wraps W s (mkAxis (qz py) (qz py)) then roll_y W ay g1 else g1) /\ qy - k2 = py - ky).
    { destruct (wraps W s (mkAxis (qz py) (qz py))).
      - exists (ky + ay). split; [apply rolled_roll_y; auto | specialize (Wy eq_refl); lia].
      - exists ky. split; auto. specialize (Ny eq_refl). lia. }
    destruct R2 as (k2 & R2 & D2).
    exists qx, qy, k1, k2. cbn. repeat split; auto; lia.
  Qed.

  Lemma int_inv_before n : int_inv (Z.of_nat n) (before_frame W s f (qz mx) (qz my) n).
  Proof.
    induction n as [|n IH].
    - exists (start W s (qz mx)), (start W s (qz my)), 0, 0. unfold before_frame, layer_init, axis_init, start. cbn [ly_x ly_y ly_scr].
      split; [destruct (qc_ltb (qz mx) 0); rewrite ?qz_0; reflexivity|].
      split; [destruct (qc_ltb (qz my) 0); rewrite ?qz_0; reflexivity|].
      split; [|lia]. intros i j Hi Hj. rewrite !Z.sub_0_r, !Z.mod_small by lia. reflexivity.
    - cbn [before_frame]. destruct (int_inv_wrap _ _ IH) as [(px & py & kx & ky & Ex & Ey & R & Dx & Dy) _].
      exists (px + mx), (py + my), kx, ky. unfold move_layer, advance. cbn [ly_x ly_y ly_scr]. rewrite Ex, Ey. cbn [ax_pos ax_off].
      rewrite <- !qz_add. repeat split; auto; lia.
  Qed.

  Lemma int_frame spl n i j : spl_exact W spl -> 0 <= i < s -> 0 <= j < s ->
    atmos_frame spl W s f (qz mx) (qz my) n i j =
    f ((start W s (qz mx) + Z.of_nat n * mx + i) mod W) ((start W s (qz my) + Z.of_nat n * my + j) mod W).
  Proof.
    intros [Sp _] Hi Hj. unfold atmos_frame, sampled, frame_of.
    destruct (int_inv_wrap _ _ (int_inv_before n)) as [(px & py & kx & ky & Ex & Ey & R & Dx & Dy) (qx & qy & Fx & Fy & B)].
    rewrite Fx in Ex. rewrite Fy in Ey.
    assert (qx = px) by (apply qz_inj; congruence). assert (qy = py) by (apply qz_inj; congruence). subst qx qy.
    rewrite Fx, Fy. cbn [ax_off]. rewrite <- !qz_add. rewrite Sp by lia. rewrite R by lia.
    f_equal; f_equal; lia.
  Qed.
End Int.

(** ** Between wraps: exact at any wind *)
Lemma no_wrap W s a : axis_ok a -> strictly_inside W s (ax_off a) -> wraps W s a = false /\ wrap_to W s a = a.
Proof.
  intros E [H0 H1]. rewrite E in *. unfold wraps, wrap_to.
  destruct (qc_leb_spec (qz W) (ax_pos a + qz s)); [exfalso; qclra|].
  destruct (qc_ltb_spec (ax_pos a) 0); [exfalso; qclra|]. auto.
Qed.

Lemma between_wraps W s f vx vy m k :
  (forall t, (t <= k)%nat ->
     (t <> 0)%nat -> strictly_inside W s (ax_off (ly_x (sampled W s f vx vy m)) + qz (Z.of_nat t) * vx)%Qc /\
     strictly_inside W s (ax_off (ly_y (sampled W s f vx vy m)) + qz (Z.of_nat t) * vy)%Qc) ->
  let l := sampled W s f vx vy m in let r := sampled W s f vx vy (m + k) in
  ly_scr r = ly_scr l /\ ax_off (ly_x r) = (ax_off (ly_x l) + qz (Z.of_nat k) * vx)%Qc /\
  ax_off (ly_y r) = (ax_off (ly_y l) + qz (Z.of_nat k) * vy)%Qc.
Proof.
  induction k as [|k IH]; intros H l r.
  - unfold r. rewrite Nat.add_0_r. fold l. split; auto. change (Z.of_nat 0) with 0; rewrite qz_0. split; ring.
  - destruct IH as (Es & Ex & Ey). { intros t Ht. apply H. lia. }
    fold l in Es, Ex, Ey. unfold r. rewrite Nat.add_succ_r. unfold sampled at 1. cbn [before_frame].
    change (wrap_layer W s (before_frame W s f vx vy (m + k))) with (sampled W s f vx vy (m + k)).
    set (q := sampled W s f vx vy (m + k)) in *.
    assert (Hq : axis_ok (ly_x q) /\ axis_ok (ly_y q)).
    { destruct (before_ok W s f vx vy (m + k)) as [A B]. unfold q, sampled. rewrite wrap_layer_eq. cbn. unfold axis_ok in *.
      split; apply wrap_to_eqpos; auto. }
    destruct Hq as [Qx Qy]. unfold axis_ok in Qx, Qy.
    destruct (H (S k) (Nat.le_refl _)) as [Ix Iy]; [lia|]. fold l in Ix, Iy.
    rewrite Nat2Z.inj_succ, <- Z.add_1_r, qz_add, qz_1 in *.
    unfold sampled. cbn [before_frame]. fold (sampled W s f vx vy (m + k)). fold q.
    rewrite wrap_layer_eq. unfold move_layer. cbn [ly_x ly_y ly_scr].
    destruct (no_wrap W s (advance vx (ly_x q))) as [Wx Tx].
    { unfold axis_ok, advance. cbn. rewrite Qx. reflexivity. }
    { unfold advance. cbn. rewrite Ex. replace (ax_off (ly_x l) + qz (Z.of_nat k) * vx + vx)%Qc with (ax_off (ly_x l) + (qz (Z.of_nat k) + 1) * vx)%Qc by ring. auto. }
    destruct (no_wrap W s (advance vy (ly_y q))) as [Wy Ty].
    { unfold axis_ok, advance. cbn. rewrite Qy. reflexivity. }
    { unfold advance. cbn. rewrite Ey. replace (ax_off (ly_y l) + qz (Z.of_nat k) * vy + vy)%Qc with (ax_off (ly_y l) + (qz (Z.of_nat k) + 1) * vy)%Qc by ring. auto. }
    rewrite Wx, Tx, Wy, Ty. cbn. split; auto. rewrite Ex, Ey. split; ring.
Qed.

(** ** One step: the error of a wrap is less than one pixel *)
Lemma qc_int_frac x : (qc_abs (x - qz (qc_int x)) < 1)%Qc.
Proof.
  destruct (Qclt_le_dec x 0) as [H|H].
  - rewrite qc_int_neg by (apply Qclt_le_weak; auto). destruct (qc_floor_spec (- x)). rewrite qz_opp.
    unfold qc_abs. destruct (Qclt_le_dec _ _); qclra.
  - rewrite qc_int_nonneg by auto. destruct (qc_floor_spec x). unfold qc_abs. destruct (Qclt_le_dec _ _); qclra.
Qed.

Lemma axis_step W s v a : axis_ok a ->
  let b := advance v a in
  exists k e, (qc_abs e < 1)%Qc /\
    ax_off (wrap_to W s b) = (ax_off a + v + qz k + e)%Qc /\
    (if wraps W s b then k = wrap_roll W s b else k = 0 /\ e = 0%Qc).
Proof.
  intros E b. unfold wrap_to, wraps, wrap_roll.
  assert (Eb : ax_pos b = (ax_off a + v)%Qc) by (unfold b, advance; cbn; rewrite E; reflexivity).
  rewrite Eb. destruct (qc_leb (qz W) (ax_off a + v + qz s)) eqn:E1; cbn [orb].
  - exists (qc_int (- (ax_off a + v))), (- (ax_off a + v) - qz (qc_int (- (ax_off a + v))))%Qc.
    split; [apply qc_int_frac|]. split; [cbn; ring | auto].
  - destruct (qc_ltb (ax_off a + v) 0) eqn:E2.
    + set (z := (qz W - (ax_off a + v) - qz s)%Qc). exists (qc_int z), (z - qz (qc_int z))%Qc.
      split; [apply qc_int_frac|]. split; [cbn; rewrite qz_sub; unfold z; ring | auto].
    + exists 0, 0%Qc. split; [reflexivity|]. split; [unfold b, advance; cbn; rewrite qz_0; ring | auto].
Qed.

Lemma flow_step W s f vx vy n : 1 <= s -> s <= W ->
  let l := sampled W s f vx vy n in let r := sampled W s f vx vy (S n) in
  exists kx ky ex ey, rolled W kx ky (ly_scr l) (ly_scr r) /\
    ax_off (ly_x r) = (ax_off (ly_x l) + vx + qz kx + ex)%Qc /\ (qc_abs ex < 1)%Qc /\
    ax_off (ly_y r) = (ax_off (ly_y l) + vy + qz ky + ey)%Qc /\ (qc_abs ey < 1)%Qc.
Proof.
  intros Hs HW l r.
  assert (Hq : axis_ok (ly_x l) /\ axis_ok (ly_y l)).
  { destruct (before_ok W s f vx vy n) as [A B]. unfold l, sampled. rewrite wrap_layer_eq. cbn. unfold axis_ok in *.
    split; apply wrap_to_eqpos; auto. }
  destruct Hq as [Qx Qy].
  destruct (axis_step W s vx (ly_x l) Qx) as (kx & ex & Bx & Ex & Cx).
  destruct (axis_step W s vy (ly_y l) Qy) as (ky & ey & By & Ey & Cy).
  exists kx, ky, ex, ey. unfold r, sampled at 1. cbn [before_frame]. fold (sampled W s f vx vy n). fold l.
  unfold sampled. cbn [before_frame]. fold (sampled W s f vx vy n). fold l.
  rewrite wrap_layer_eq. unfold move_layer. cbn [ly_x ly_y ly_scr].
  split; [|split; [exact Ex|]; split; [exact Bx|]; split; [exact Ey | exact By]].
  assert (R0 : rolled W 0 0 (ly_scr l) (ly_scr l)) by (intros i j Hi Hj; rewrite !Z.sub_0_r, !Z.mod_small by lia; reflexivity).
  destruct (wraps W s (advance vx (ly_x l))); [|destruct Cx as [Cx _]]; (destruct (wraps W s (advance vy (ly_y l))); [|destruct Cy as [Cy _]]);
    subst kx ky.
  - pose proof (rolled_roll_x W s (ly_scr l) Hs HW (wrap_roll W s (advance vx (ly_x l))) 0 0 _ R0) as R1.
    pose proof (rolled_roll_y W s (ly_scr l) Hs HW (wrap_roll W s (advance vy (ly_y l))) _ 0 _ R1) as R2. rewrite !Z.add_0_l in R2. exact R2.
  - pose proof (rolled_roll_x W s (ly_scr l) Hs HW (wrap_roll W s (advance vx (ly_x l))) 0 0 _ R0) as R1. rewrite !Z.add_0_l in R1. exact R1.
  - pose proof (rolled_roll_y W s (ly_scr l) Hs HW (wrap_roll W s (advance vy (ly_y l))) 0 0 _ R0) as R1. rewrite !Z.add_0_l in R1. exact R1.
  - exact R0.
Qed.

(** ** Fractional winds: the window jumps when it wraps *)
Lemma qc_int_small x : (qc_abs x < 1)%Qc -> qc_int x = 0.
Proof.
  intros H. destruct (qc_abs_ge x). destruct (Qclt_le_dec x 0).
  - rewrite qc_int_neg by (apply Qclt_le_weak; auto). rewrite (qc_floor_unique (- x) 0); [lia | rewrite qz_0; qclra | rewrite qz_0; qclra].
  - rewrite qc_int_nonneg by auto. apply qc_floor_unique; rewrite qz_0; qclra.
Qed.

Lemma start_nonneg_axis W s v : (0 <= v)%Qc -> axis_init W s v = mkAxis 0%Qc 0%Qc.
Proof. intros H. unfold axis_init. destruct (qc_ltb_spec v 0); auto. exfalso. qclra. Qed.

Lemma sampled0 W s f v : 1 <= s -> s < W -> (0 <= v)%Qc -> sampled W s f v 0 0 = mkLayer f (mkAxis 0%Qc 0%Qc) (mkAxis 0%Qc 0%Qc).
Proof.
  intros Hs HW Hv. unfold sampled. cbn [before_frame]. unfold layer_init. rewrite !start_nonneg_axis by (auto; apply Qcle_refl).
  assert (Hz : (qz s < qz W)%Qc) by (apply qz_lt; auto).
  rewrite wrap_layer_eq. cbn [ly_x ly_y ly_scr].
  destruct (no_wrap W s (mkAxis 0%Qc 0%Qc)) as [E1 E2]; [reflexivity | split; cbn; [apply Qcle_refl | qclra] |].
  rewrite E1, E2. reflexivity.
Qed.

Lemma forward_wrap spl W s f v n i j : spl_exact W spl -> 1 <= s -> (0 < v)%Qc ->
  (qz (Z.of_nat n) * v + qz s < qz W)%Qc -> (qz W <= qz (Z.of_nat (S n)) * v + qz s)%Qc -> 0 <= i < s -> 0 <= j < s ->
  atmos_frame spl W s f v 0 n i j = spl f (qz (Z.of_nat n) * v + qz i)%Qc (qz j) /\
  atmos_frame spl W s f v 0 (S n) i j = f ((qc_floor (qz (Z.of_nat (S n)) * v) + i) mod W) j.
Proof.
  intros [Sp Sx] Hs Hv Hn Hw Hi Hj.
  assert (Hnn : forall k, (0 <= qz (Z.of_nat k))%Qc) by (intros; rewrite <- qz_0; apply qz_le; lia).
  assert (HsW : s < W).
  { apply (proj1 (qz_lt _ _)). pose proof (Hnn n). qcnra. }
  pose proof (sampled0 W s f v Hs HsW (Qclt_le_weak _ _ Hv)) as E0.
  destruct (between_wraps W s f v 0 0 n) as (Es & Ex & Ey).
  { intros t Ht _. rewrite E0. cbn [ly_x ly_y ax_off]. unfold strictly_inside.
    pose proof (Hnn t). assert ((qz (Z.of_nat t) <= qz (Z.of_nat n))%Qc) by (apply qz_le; lia).
    assert (qz s < qz W)%Qc by (apply qz_lt; auto).
    split; split; qcnra. }
  cbn [Nat.add] in Es, Ex, Ey. rewrite E0 in Es, Ex, Ey. cbn [ly_x ly_y ly_scr ax_off] in Es, Ex, Ey.
  split.
  - unfold atmos_frame, frame_of. rewrite Es, Ex, Ey. f_equal; ring.
  - unfold atmos_frame, frame_of, sampled. cbn [before_frame]. fold (sampled W s f v 0 n).
    set (q := sampled W s f v 0 n) in *.
    assert (Hq : axis_ok (ly_x q) /\ axis_ok (ly_y q)).
    { destruct (before_ok W s f v 0%Qc n) as [A B]. unfold q, sampled. rewrite wrap_layer_eq. cbn. unfold axis_ok in *.
      split; apply wrap_to_eqpos; auto. }
    destruct Hq as [Qx Qy]. unfold axis_ok in Qx, Qy.
    rewrite wrap_layer_eq. unfold move_layer. cbn [ly_x ly_y ly_scr].
    assert (Px : ax_pos (advance v (ly_x q)) = (qz (Z.of_nat (S n)) * v)%Qc).
    { unfold advance. cbn [ax_pos]. rewrite <- Qx, Ex. rewrite Nat2Z.inj_succ, <- Z.add_1_r, qz_add, qz_1. ring. }
    destruct (no_wrap W s (advance 0 (ly_y q))) as [Wy Ty].
    { unfold axis_ok, advance. cbn. rewrite Qy. reflexivity. }
    { unfold advance. cbn. rewrite Ey. assert (qz s < qz W)%Qc by (apply qz_lt; auto). split; qclra. }
    rewrite Wy, Ty. unfold wraps, wrap_to, wrap_roll. rewrite Px.
    destruct (qc_leb_spec (qz W) (qz (Z.of_nat (S n)) * v + qz s)) as [_|H]; [|exfalso; qclra]. cbn [orb ax_off].
    unfold advance. cbn [ax_off]. rewrite Ey. rewrite Es.
    replace (0 + qz i)%Qc with (qz i) by ring. replace (0 + qz (Z.of_nat n) * 0 + 0 + qz j)%Qc with (qz j) by ring.
    rewrite Sp by lia. unfold roll_x.
    assert (Hp : (0 <= qz (Z.of_nat (S n)) * v)%Qc) by (pose proof (Hnn (S n)); qcnra).
    rewrite qc_int_neg by qclra. replace (- - (qz (Z.of_nat (S n)) * v))%Qc with (qz (Z.of_nat (S n)) * v)%Qc by ring.
    f_equal. f_equal. lia.
Qed.

Lemma stuck spl W f vx vy n i j : spl_exact W spl -> (qc_abs vx < 1)%Qc -> (qc_abs vy < 1)%Qc -> 1 <= W -> 0 <= i < W -> 0 <= j < W ->
  atmos_frame spl W W f vx vy n i j = f i j.
Proof.
  intros [Sp Sx] Hvx Hvy HW Hi Hj.
  assert (Ax : forall a, (qc_abs (ax_pos a) < 1)%Qc -> wraps W W a = true /\ wrap_roll W W a = 0 /\ wrap_to W W a = mkAxis 0%Qc 0%Qc).
  { intros a Ha. unfold wraps, wrap_roll, wrap_to. destruct (qc_leb_spec (qz W) (ax_pos a + qz W)); cbn [orb].
    - split; auto. split; auto. apply qc_int_small. rewrite qc_abs_opp. auto.
    - destruct (qc_ltb_spec (ax_pos a) 0); [|exfalso; qclra]. rewrite Z.sub_diag. rewrite qz_0. split; auto. split; auto.
      replace (qz W - ax_pos a - qz W)%Qc with (- ax_pos a)%Qc by ring. apply qc_int_small. rewrite qc_abs_opp. auto. }
  assert (Inv : forall n, let l := before_frame W W f vx vy n in
    (qc_abs (ax_pos (ly_x l)) < 1)%Qc /\ (qc_abs (ax_pos (ly_y l)) < 1)%Qc /\
    (forall a b, 0 <= a < W -> 0 <= b < W -> ly_scr l a b = f a b)).
  { induction n0 as [|m IH]; intros l.
    - unfold l. cbn [before_frame]. unfold layer_init, axis_init. cbn. rewrite Z.sub_diag, qz_0.
      destruct (qc_ltb vx 0), (qc_ltb vy 0); (split; [reflexivity|]; split; [reflexivity|]; auto).
    - cbn zeta in IH. destruct IH as (Bx & By & Bs). unfold l. cbn [before_frame]. rewrite wrap_layer_eq.
      destruct (Ax _ Bx) as (-> & -> & ->). destruct (Ax _ By) as (-> & -> & ->). cbn.
      replace (0 + vx)%Qc with vx by ring. replace (0 + vy)%Qc with vy by ring. split; auto. split; auto.
      intros a b Ha Hb. unfold roll_x, roll_y. rewrite !Z.sub_0_r, !Z.mod_small by lia. auto. }
  specialize (Inv n). cbn zeta in Inv. destruct Inv as (Bx & By & Bs).
  unfold atmos_frame, frame_of, sampled. rewrite wrap_layer_eq.
  destruct (Ax _ Bx) as (-> & -> & ->). destruct (Ax _ By) as (-> & -> & ->). cbn.
  replace (0 + qz i)%Qc with (qz i) by ring. replace (0 + qz j)%Qc with (qz j) by ring. rewrite Sp by lia.
  unfold roll_x, roll_y. rewrite !Z.sub_0_r, !Z.mod_small by lia. auto.
Qed.

(** ** Infinite screens *)
Section Inf.
  Variables (row : nat -> irow) (v : Qc) (L : nat) (init : list irow).
  Hypothesis Hv : (0 <= v)%Qc.
  Hypothesis HL : length init = L.
  Let s0 := mkInf init 0%Qc 0.

  Lemma add_rows_eq n made sc : add_rows row n made sc = map row (rev (seq made n)) ++ sc.
  Proof.
    revert made sc. induction n as [|n IH]; intros made sc; cbn [add_rows]; auto.
    rewrite IH. cbn [seq rev]. rewrite map_app. cbn [map]. rewrite <- app_assoc. reflexivity.
  Qed.

  Lemma inf_step_count s N : i_made s = Z.to_nat N -> 0 <= N -> (0 <= i_frac s)%Qc -> (i_frac s < 1)%Qc ->
    let t := inf_move row v L s in
    (0 <= i_frac t)%Qc /\ (i_frac t < 1)%Qc /\ (qz (Z.of_nat (i_made t)) + i_frac t = qz N + i_frac s + v)%Qc /\
    i_scr t = firstn L (map row (rev (seq (i_made s) (i_made t - i_made s))) ++ i_scr s) /\ (i_made s <= i_made t)%nat.
  Proof.
    intros EN HN F0 F1 t. unfold t, inf_move.
    assert (Hi : qc_int v = qc_floor v) by (apply qc_int_nonneg; auto).
    destruct (qc_floor_spec v) as [Hf0 Hf1]. rewrite Hi.
    assert (Hfl : 0 <= qc_floor v).
    { replace 0 with (qc_floor (qz 0)) by apply qc_floor_qz. apply qc_floor_mono. rewrite qz_0; auto. }
    destruct (qc_leb_spec 1 (i_frac s + (v - qz (qc_floor v)))%Qc) as [H|H]; cbn [i_scr i_frac i_made].
    - split; [qclra|]. split; [qclra|]. split.
      { rewrite Nat2Z.inj_add, EN, !Z2Nat.id, qz_add, qz_add, qz_1 by lia. ring. }
      split; [|lia]. rewrite add_rows_eq. f_equal. f_equal. f_equal. f_equal. f_equal. lia.
    - split; [qclra|]. split; [auto|]. split.
      { rewrite Nat2Z.inj_add, EN, !Z2Nat.id, qz_add by lia. ring. }
      split; [|lia]. rewrite add_rows_eq. f_equal. f_equal. f_equal. f_equal. f_equal. lia.
  Qed.

  Lemma firstn_app_firstn {A} (a b : list A) : firstn L (a ++ firstn L b) = firstn L (a ++ b).
  Proof. rewrite !firstn_app, firstn_firstn. f_equal. f_equal. lia. Qed.

  Lemma inf_run_eq n :
    let t := inf_run row v L n s0 in
    (0 <= i_frac t)%Qc /\ (i_frac t < 1)%Qc /\ (qz (Z.of_nat (i_made t)) + i_frac t = qz (Z.of_nat n) * v)%Qc /\
    i_scr t = firstn L (map row (rev (seq 0 (i_made t))) ++ init).
  Proof.
    induction n as [|n IH]; cbn zeta in *.
    - cbn [inf_run s0 i_frac i_made i_scr]. split; [apply Qcle_refl|]. split; [reflexivity|]. split.
      + change (Z.of_nat 0) with 0. rewrite qz_0. ring.
      + cbn [seq rev map app]. rewrite <- HL. rewrite firstn_all. reflexivity.
    - destruct IH as (F0 & F1 & Fe & Fs). cbn [inf_run]. set (s := inf_run row v L n s0) in *.
      destruct (inf_step_count s (Z.of_nat (i_made s))) as (G0 & G1 & Ge & Gs & Gm); auto; try lia.
      split; auto. split; auto. split.
      + rewrite Ge. rewrite Fe. rewrite Nat2Z.inj_succ, <- Z.add_1_r, qz_add, qz_1. ring.
      + rewrite Gs, Fs, firstn_app_firstn. rewrite app_assoc. f_equal. f_equal. rewrite <- map_app, <- rev_app_distr.
        f_equal. f_equal. set (a := i_made s) in *. set (b := i_made (inf_move row v L s)) in *.
        replace b with (a + (b - a))%nat at 2 by lia. rewrite seq_app. reflexivity.
  Qed.

  Lemma inf_made n : i_made (inf_run row v L n s0) = Z.to_nat (qc_floor (qz (Z.of_nat n) * v)).
  Proof.
    destruct (inf_run_eq n) as (F0 & F1 & Fe & _).
    rewrite (qc_floor_unique _ (Z.of_nat (i_made (inf_run row v L n s0)))); [lia | |]; rewrite <- Fe; qclra.
  Qed.

  Lemma inf_length n : length (i_scr (inf_run row v L n s0)) = L.
  Proof.
    destruct (inf_run_eq n) as (_ & _ & _ & ->). rewrite firstn_length, app_length, map_length. lia.
  Qed.

  Lemma inf_row n r : 0 <= r < Z.of_nat L ->
    nth_error (i_scr (inf_run row v L n s0)) (Z.to_nat r) = Some (all_rows row init (Z.of_nat (i_made (inf_run row v L n s0)) - 1 - r)).
  Proof.
    intros Hr. destruct (inf_run_eq n) as (_ & _ & _ & ->). set (N := i_made _).
    rewrite nth_error_firstn_lt by lia. unfold all_rows.
    destruct (Z.ltb_spec (Z.of_nat N - 1 - r) 0).
    - rewrite nth_error_app2 by (rewrite map_length, rev_length, seq_length; lia).
      rewrite map_length, rev_length, seq_length.
      rewrite (nth_error_nth' init (fun _ => 0%Qc)) by lia. do 2 f_equal. lia.
    - rewrite nth_error_app1 by (rewrite map_length, rev_length, seq_length; lia).
      rewrite nth_error_map. rewrite (nth_error_nth' _ 0%nat) by (rewrite rev_length, seq_length; lia).
      rewrite rev_nth by (rewrite seq_length; lia). rewrite seq_length, seq_nth by lia. cbn. do 2 f_equal. lia.
  Qed.

  Lemma lin_rows_rev G x r t j : (0 <= t)%Qc -> (t < 1)%Qc -> x = (qz r - t)%Qc ->
    lin_rows G x j = (G r j + (G (r - 1)%Z j - G r j) * t)%Qc.
  Proof.
    intros T0 T1 ->. unfold lin_rows. destruct (Qc_eq_dec t 0) as [->|Hne].
    - replace (qz r - 0)%Qc with (qz r) by ring. rewrite qc_floor_qz. ring.
    - assert (Hp : (0 < t)%Qc).
      { destruct (Qclt_le_dec 0 t); auto. exfalso. apply Hne. apply Qcle_antisym; auto. }
      rewrite (qc_floor_unique (qz r - t)%Qc (r - 1)); try (rewrite qz_sub, qz_1; qclra).
      replace (r - 1 + 1)%Z with r by lia. rewrite qz_sub, qz_1. ring.
  Qed.

  Lemma inf_flow nx n i j : 0 <= i -> i + 2 < Z.of_nat L -> 0 <= j < nx - 2 ->
    at2 (inf_output nx (inf_run row v L n s0)) i j
    = Ok (lin_rows (all_rows row init) (qz (Z.of_nat n) * v - qz (i + 2))%Qc (j + 1)%Z).
  Proof.
    intros Hi HiL Hj. set (t := inf_run row v L n s0). unfold inf_output, bilinear_interp. cbn [at2].
    destruct (inf_run_eq n) as (F0 & F1 & Fe & _). fold t in F0, F1, Fe.
    assert (Hr : nrow (inf_arr nx t) = Z.of_nat L) by (unfold inf_arr; cbn [nrow]; f_equal; apply inf_length).
    assert (Hc : ncol (inf_arr nx t) = nx) by reflexivity.
    assert (I1 : (1 <= qz (i + 1))%Qc) by (rewrite <- qz_1; apply qz_le; lia).
    assert (I2 : (qz (i + 1) < qz (Z.of_nat L - 1))%Qc) by (apply qz_lt; lia).
    assert (J1 : (0 <= qz (j + 1))%Qc) by (rewrite <- qz_0; apply qz_le; lia).
    assert (J2 : (qz (j + 1) < qz (nx - 1))%Qc) by (apply qz_lt; lia).
    rewrite <- unchecked_agrees by (rewrite ?Hr, ?Hc; auto; qclra).
    unfold bilinear_point.
    destruct (bilinear_cell (inf_arr nx t) (qz (i + 1) - i_frac t)%Qc (qz (j + 1))) as (Hx & Hy & E); rewrite ?Hr, ?Hc; auto; try qclra.
    rewrite Hr in Hx. rewrite Hc in Hy.
    set (x1 := qc_int (qz (i + 1) - i_frac t)%Qc) in *. rewrite qc_int_qz in *.
    rewrite E. f_equal.
    assert (A : forall r, 0 <= r < Z.of_nat L -> at2 (inf_arr nx t) r (j + 1) = all_rows row init (Z.of_nat (i_made t) - 1 - r) (j + 1)).
    { intros r Hrr. unfold inf_arr. cbn [at2]. unfold t. rewrite inf_row by auto. reflexivity. }
    replace (lerp _ _ (qz (j + 1) - qz (j + 1))) with
      (lerp (at2 (inf_arr nx t) x1 (j + 1)) (at2 (inf_arr nx t) (x1 + 1)%Z (j + 1)) (qz (i + 1) - i_frac t - qz x1))
      by (unfold lerp; ring).
    rewrite !A by lia. set (M := Z.of_nat (i_made t)) in *.
    destruct (frac_cell (qz (i + 1) - i_frac t)%Qc) as [T0 T1]; [qclra|]. fold x1 in T0, T1.
    rewrite (lin_rows_rev _ _ (M - 1 - x1) (qz (i + 1) - i_frac t - qz x1)%Qc) by
      (auto; rewrite <- Fe; fold M; rewrite !qz_sub, !qz_add; replace (qz 2) with (qz 1 + qz 1)%Qc by (rewrite <- qz_add; reflexivity); ring).
    unfold lerp. replace (M - 1 - (x1 + 1)) with (M - 1 - x1 - 1) by lia. reflexivity.
  Qed.
End Inf.

Lemma clamp_last n x : (qz (n - 1) <= x)%Qc -> clamp_coord n x = (qz (n - 1) - interp_eps)%Qc.
Proof. intros H. unfold clamp_coord. destruct (qc_leb_spec (qz (n - 1)) x); auto. exfalso; qclra. Qed.

Lemma inf_last_columns nx s i : at2 (inf_output nx s) i (nx - 1) = at2 (inf_output nx s) i (nx - 2).
Proof.
  unfold inf_output, bilinear_interp. cbn [at2]. unfold bilinear_point. change (ncol (inf_arr nx s)) with nx.
  rewrite (clamp_last nx (qz (nx - 1 + 1))) by (apply qz_le; lia).
  rewrite (clamp_last nx (qz (nx - 2 + 1))) by (apply qz_le; lia). reflexivity.
Qed.

Lemma inf_negative row v L s n : (v < 0)%Qc -> (i_frac s <= 0)%Qc ->
  i_made (inf_run row v L n s) = i_made s /\
  i_frac (inf_run row v L n s) = (i_frac s + qz (Z.of_nat n) * (v - qz (qc_int v)))%Qc.
Proof.
  intros Hv Hf.
  assert (Hi : qc_int v <= 0).
  { rewrite qc_int_neg by (apply Qclt_le_weak; auto). assert (qc_floor (qz 0) <= qc_floor (- v)) by (apply qc_floor_mono; rewrite qz_0; qclra).
    rewrite qc_floor_qz in H. lia. }
  assert (Hd : (v - qz (qc_int v) <= 0)%Qc).
  { rewrite qc_int_neg by (apply Qclt_le_weak; auto). destruct (qc_floor_spec (- v)). rewrite qz_opp. qclra. }
  induction n as [|n [IHm IHf]]; cbn [inf_run].
  - split; auto. change (Z.of_nat 0) with 0. rewrite qz_0. ring.
  - assert (Hle : (i_frac (inf_run row v L n s) + (v - qz (qc_int v)) <= 0)%Qc).
    { rewrite IHf. assert (0 <= qz (Z.of_nat n))%Qc by (rewrite <- qz_0; apply qz_le; lia). qcnra. }
    unfold inf_move. destruct (qc_leb_spec 1 (i_frac (inf_run row v L n s) + (v - qz (qc_int v)))%Qc) as [H|H]; [exfalso; qclra|].
    cbn [i_made i_frac]. split; [rewrite IHm; lia|]. rewrite IHf, Nat2Z.inj_succ, <- Z.add_1_r, qz_add, qz_1. ring.
Qed.

(** ** Orientation *)
Lemma half_pos : (qz 2 <> 0)%Qc.
Proof. apply qz_neq0. lia. Qed.

Lemma rotate_ramp n m c s i j : let a := mkArr n n (fun x _ => qz x) in
  (forall k, k = j \/ k = j + 1 -> (0 <= rot_x n m c s i k)%Qc /\ (rot_x n m c s i k < qz (n - 1))%Qc /\
                                  (0 <= rot_y n m c s i k)%Qc /\ (rot_y n m c s i k < qz (n - 1))%Qc) ->
  exists u w, at2 (rotate a m c s) i j = Ok u /\ at2 (rotate a m c s) i (j + 1) = Ok w /\ (w - u = - s)%Qc.
Proof.
  intros a H. cbn [rotate at2]. change (nrow a) with n. change (ncol a) with n.
  assert (G : forall k, k = j \/ k = j + 1 ->
     bilinear_at a (rot_clamp n (rot_x n m c s i k)) (rot_clamp n (rot_y n m c s i k)) = Ok (rot_x n m c s i k)).
  { intros k Hk. destruct (H k Hk) as (X0 & X1 & Y0 & Y1). unfold rot_clamp.
    destruct (qc_leb_spec (qz (n - 1)) (rot_x n m c s i k)); [exfalso; qclra|].
    destruct (qc_leb_spec (qz (n - 1)) (rot_y n m c s i k)); [exfalso; qclra|].
    rewrite (bilinear_exact_gen a _ _ 0 1 0 0) by (auto; intros; cbn; ring). f_equal. ring. }
  exists (rot_x n m c s i j), (rot_x n m c s i (j + 1)). split; [apply G; auto|]. split; [apply G; auto|].
  unfold rot_x. rewrite qz_add, qz_1. ring.
Qed.

Lemma cs_bound c s : (c * c + s * s = 1)%Qc -> (qc_abs c + qc_abs s <= qfrac 3 2)%Qc.
Proof.
  intros H. unfold qc_abs. assert (E : (qfrac 3 2 * (1 + 1) = 1 + 1 + 1)%Qc) by (apply Qc_is_canon; reflexivity).
  set (h := qfrac 3 2) in *. clearbody h.
  assert (K : forall x y, (x * x + y * y = 1)%Qc -> (x + y <= h)%Qc).
  { intros x y Hxy. destruct (Qclt_le_dec h (x + y)) as [Hlt|]; auto. exfalso.
    set (d := (x + y - h)%Qc). assert (Hd : (0 < d)%Qc) by (unfold d; qclra).
    assert (Hh : (1 < h)%Qc) by qclra.
    assert (D1 : (0 <= d * d)%Qc) by qcnra. assert (D2 : (0 <= d * h)%Qc) by qcnra.
    set (e := (x - y)%Qc). assert (D3 : (0 <= e * e)%Qc) by qcnra.
    assert (I : ((1 + 1) * (x * x + y * y) = d * d + (1 + 1) * (d * h) + h * h + e * e)%Qc) by (unfold d, e; ring).
    rewrite Hxy in I.
    assert (HH : ((h * (1 + 1)) * (h * (1 + 1)) = (1 + 1 + 1) * (1 + 1 + 1))%Qc) by (rewrite E; reflexivity).
    replace ((h * (1 + 1)) * (h * (1 + 1)))%Qc with ((1 + 1 + 1 + 1) * (h * h))%Qc in HH by ring.
    set (hh := (h * h)%Qc) in *. set (dd := (d * d)%Qc) in *. set (dh := (d * h)%Qc) in *. set (ee := (e * e)%Qc) in *.
    clearbody hh dd dh ee. clear - I HH D1 D2 D3. qclra. }
  destruct (Qclt_le_dec c 0), (Qclt_le_dec s 0); apply K; rewrite <- H; ring.
Qed.

Lemma abs_mul_le a b B : (qc_abs a <= B)%Qc -> (a * b <= B * qc_abs b)%Qc.
Proof.
  intros H. destruct (qc_abs_ge a). pose proof (qc_abs_nonneg b). unfold qc_abs at 1. unfold qc_abs in H2.
  destruct (Qclt_le_dec b 0); qcnra.
Qed.

Lemma rot_range n m c s k l : 1 <= m -> 2 * m <= n -> (c * c + s * s = 1)%Qc -> 0 <= k < m -> 0 <= l < m ->
  let x := ((qz k - (qz m / qz 2 - qfrac 1 2)) * c + (qz l - (qz m / qz 2 - qfrac 1 2)) * s + (qz n / qz 2 - qfrac 1 2))%Qc in
  (0 <= x)%Qc /\ (x < qz (n - 1))%Qc.
Proof.
  intros Hm Hn Hcs Hk Hl x.
  assert (Eh : (qfrac 1 2 * (1 + 1) = 1)%Qc) by (apply Qc_is_canon; reflexivity).
  assert (Et : (qfrac 3 2 * (1 + 1) = 1 + 1 + 1)%Qc) by (apply Qc_is_canon; reflexivity).
  pose proof (cs_bound c s Hcs) as B.
  assert (Em : (qz m / qz 2 = qfrac 1 2 * qz m)%Qc).
  { replace (qfrac 1 2) with (1 / qz 2)%Qc by (apply Qc_is_canon; reflexivity). field. apply half_pos. }
  assert (En : (qz n / qz 2 = qfrac 1 2 * qz n)%Qc).
  { replace (qfrac 1 2) with (1 / qz 2)%Qc by (apply Qc_is_canon; reflexivity). field. apply half_pos. }
  set (h := qfrac 1 2) in *. set (t := qfrac 3 2) in *. clearbody h t.
  assert (Bk : forall q, 0 <= q < m -> (qc_abs (qz q - (h * qz m - h)) <= h * qz m - h)%Qc).
  { intros q Hq. assert (0 <= qz q)%Qc by (rewrite <- qz_0; apply qz_le; lia).
    assert (qz q <= qz m - 1)%Qc by (rewrite <- qz_1, <- qz_sub; apply qz_le; lia).
    unfold qc_abs. destruct (Qclt_le_dec _ _); qcnra. }
  unfold x. rewrite Em, En.
  set (u := (qz k - (h * qz m - h))%Qc). set (w := (qz l - (h * qz m - h))%Qc). set (R := (h * qz m - h)%Qc).
  assert (Bu : (qc_abs u <= R)%Qc) by (apply Bk; auto). assert (Bw : (qc_abs w <= R)%Qc) by (apply Bk; auto).
  assert (P1 : (u * c <= R * qc_abs c)%Qc) by (apply abs_mul_le; auto).
  assert (P2 : (w * s <= R * qc_abs s)%Qc) by (apply abs_mul_le; auto).
  assert (P3 : ((- u) * c <= R * qc_abs c)%Qc) by (apply abs_mul_le; rewrite qc_abs_opp; auto).
  assert (P4 : ((- w) * s <= R * qc_abs s)%Qc) by (apply abs_mul_le; rewrite qc_abs_opp; auto).
  assert (Hm1 : (1 <= qz m)%Qc) by (rewrite <- qz_1; apply qz_le; lia).
  assert (HR : (0 <= R)%Qc) by (unfold R; qcnra).
  assert (S1 : (R * qc_abs c + R * qc_abs s <= R * t)%Qc).
  { replace (R * qc_abs c + R * qc_abs s)%Qc with (R * (qc_abs c + qc_abs s))%Qc by ring. qcnra. }
  assert (HnQ : (qz m + qz m <= qz n)%Qc) by (rewrite <- qz_add; apply qz_le; lia).
  assert (V : (- (R * t) <= u * c + w * s)%Qc /\ (u * c + w * s <= R * t)%Qc) by (split; qclra).
  rewrite qz_sub, qz_1.
  assert (VR : (R * t + R * t = qz m - 1 + h * (qz m - 1))%Qc).
  { unfold R. replace ((h * qz m - h) * t + (h * qz m - h) * t)%Qc with (h * (qz m - 1) * (t * (1 + 1)))%Qc by ring. rewrite Et.
    replace (h * (qz m - 1) * (1 + 1 + 1))%Qc with ((h * (1 + 1)) * (qz m - 1) + h * (qz m - 1))%Qc by ring. rewrite Eh. ring. }
  split; destruct V; qcnra.
Qed.

Lemma rotate_within (a : arr Qc) n m c s lo hi i j : nrow a = n -> ncol a = n -> 1 <= m -> 2 * m <= n -> (c * c + s * s = 1)%Qc ->
  (forall p q, 0 <= p < n -> 0 <= q < n -> (lo <= at2 a p q <= hi)%Qc) -> 0 <= i < m -> 0 <= j < m ->
  exists u, at2 (rotate a m c s) i j = Ok u /\ (lo <= u <= hi)%Qc.
Proof.
  intros Hr Hc Hm Hn Hcs W Hi Hj. cbn [rotate at2]. rewrite Hr, Hc.
  assert (X : (0 <= rot_x n m c s i j)%Qc /\ (rot_x n m c s i j < qz (n - 1))%Qc).
  { pose proof (rot_range n m c (- s) i j Hm Hn ltac:(rewrite <- Hcs; ring) Hi Hj) as H. cbn zeta in H.
    unfold rot_x. replace (_ * c - _ * s + _)%Qc with
      ((qz i - (qz m / qz 2 - qfrac 1 2)) * c + (qz j - (qz m / qz 2 - qfrac 1 2)) * - s + (qz n / qz 2 - qfrac 1 2))%Qc by ring. exact H. }
  assert (Y : (0 <= rot_y n m c s i j)%Qc /\ (rot_y n m c s i j < qz (n - 1))%Qc).
  { exact (rot_range n m s c i j Hm Hn ltac:(rewrite <- Hcs; ring) Hi Hj). }
  unfold rot_clamp.
  destruct (qc_leb_spec (qz (n - 1)) (rot_x n m c s i j)); [exfalso; destruct X; qclra|].
  destruct (qc_leb_spec (qz (n - 1)) (rot_y n m c s i j)); [exfalso; destruct Y; qclra|].
  apply bilinear_within; rewrite ?Hr, ?Hc; try apply X; try apply Y.
  intros p q Hp Hq. apply W; congruence || lia.
Qed.

Lemma rotate_clamped (a : arr Qc) n m c s lo hi i j : nrow a = n -> ncol a = n -> 2 <= n ->
  (0 <= rot_x n m c s i j)%Qc -> (0 <= rot_y n m c s i j)%Qc ->
  (forall p q, 0 <= p < n -> 0 <= q < n -> (lo <= at2 a p q <= hi)%Qc) ->
  exists u, at2 (rotate a m c s) i j = Ok u /\ (lo <= u <= hi)%Qc.
Proof.
  intros Hr Hc Hn X Y W. cbn [rotate at2]. rewrite Hr, Hc.
  assert (K : forall x, (0 <= x)%Qc -> (0 <= rot_clamp n x)%Qc /\ (rot_clamp n x < qz (n - 1))%Qc).
  { intros x Hx. unfold rot_clamp. destruct (qc_leb_spec (qz (n - 1)) x); [|split; auto; qclra].
    assert (E : (qfrac 11 10 = 1 + qfrac 1 10)%Qc) by (apply Qc_is_canon; reflexivity).
    assert (E0 : (0 < qfrac 1 10)%Qc) by reflexivity. assert (E1 : (qfrac 1 10 < 1)%Qc) by reflexivity.
    assert (N : (qz 2 <= qz n)%Qc) by (apply qz_le; lia). assert (T : (qz 2 = 1 + 1)%Qc) by (apply Qc_is_canon; reflexivity).
    rewrite E, qz_sub, qz_1. rewrite T in N. set (t := qfrac 1 10) in *. clearbody t. split; qclra. }
  destruct (K _ X), (K _ Y). apply bilinear_within; rewrite ?Hr, ?Hc; auto.
  intros p q Hp Hq. apply W; congruence || lia.
Qed.

(** ** Strengths *)
Lemma norm_prop k st : lsum (firstn k st) <> 0%Qc ->
  length (norm_strengths k st) = length st /\ lsum (firstn k (norm_strengths k st)) = 1%Qc /\
  (forall i x, nth_error st i = Some x -> exists y, nth_error (norm_strengths k st) i = Some y /\ (y * lsum (firstn k st) = x)%Qc).
Proof.
  intros H. unfold norm_strengths. split; [apply map_length|]. split.
  - rewrite firstn_map. set (S := lsum (firstn k st)) in *.
    assert (E : lsum (map (fun x => (x / S)%Qc) (firstn k st)) = (/ S * lsum (firstn k st))%Qc).
    { clearbody S. induction (firstn k st) as [|y l IH]; cbn [map lsum fold_right]; [ring|].
      change (fold_right Qcplus 0%Qc (map (fun x => (x / S)%Qc) l)) with (lsum (map (fun x => (x / S)%Qc) l)).
      change (fold_right Qcplus 0%Qc l) with (lsum l). rewrite IH. unfold Qcdiv. ring. }
    rewrite E. fold S. field. auto.
  - intros i x Hx. eexists. rewrite nth_error_map, Hx. cbn. split; [reflexivity|]. field. auto.
Qed.

(** Proofs about shapes resized by linear interpolation. *)
From Verif.Base Require Import Vec.
From Verif.Model Require Import ZoomMissing.
From Verif.Spec Require Import ScreenSpec.
From Verif.Proofs Require Import ScreenProofs.
From Verif.Spec Require Import ZoomSpec.
Local Open Scope Qc_scope.

Lemma total_ext f g l : (forall s, In s l -> f s = g s) -> total f l = total g l.
Proof. intros H. unfold total. f_equal. apply map_ext_in. exact H. Qed.
Lemma total_lin a f g l : total (fun s => a * f s + g s) l = a * total f l + total g l.
Proof. unfold total. induction l as [|s l IH]; [cbn; ring|]. cbn [map lsum fold_right]. unfold lsum in IH. rewrite IH. ring. Qed.
Lemma total_scale a f l : total (fun s => f s * a) l = total f l * a.
Proof. unfold total. induction l as [|s l IH]; [cbn; ring|]. cbn [map lsum fold_right]. unfold lsum in IH. rewrite IH. ring. Qed.
Lemma total_le f g l : (forall s, In s l -> f s <= g s) -> total f l <= total g l.
Proof.
  unfold total. induction l as [|s l IH]; intros H; [cbn; qclra|]. cbn [map lsum fold_right]. specialize (IH (fun s Hs => H s (or_intror Hs))).
  pose proof (H s (or_introl eq_refl)). unfold lsum in IH. qclra.
Qed.
Lemma mean_between samples x y v lo hi : (forall p u, In p samples -> snd p = Some u -> lo <= u <= hi) -> mean_of samples x y v -> lo <= v <= hi.
Proof.
  intros H (l & F & W & _ & _ & <-). rewrite Forall_forall in F.
  assert (B : forall s, In s l -> 0 <= w_of s /\ lo <= v_of s <= hi) by (intros s Hs; destruct (F s Hs) as [F1 F2]; split; [exact F1|apply (H _ _ F2 eq_refl)]).
  assert (E : forall a, a = total (fun s => w_of s * a) l) by (intros a; rewrite total_scale, W; ring).
  split; [rewrite (E lo)|rewrite (E hi)]; apply total_le; intros s Hs; destruct (B s Hs) as (B1 & B2 & B3); qcnra.
Qed.
Lemma mean_x samples x y v lo hi : (forall p, In p samples -> lo <= fst (fst p) <= hi) -> mean_of samples x y v -> lo <= x <= hi.
Proof.
  intros H (l & F & W & <- & _ & _). rewrite Forall_forall in F.
  assert (B : forall s, In s l -> 0 <= w_of s /\ lo <= x_of s <= hi) by (intros s Hs; destruct (F s Hs) as [F1 F2]; split; [exact F1|apply (H _ F2)]).
  assert (E : forall a, a = total (fun s => w_of s * a) l) by (intros a; rewrite total_scale, W; ring).
  split; [rewrite (E lo)|rewrite (E hi)]; apply total_le; intros s Hs; destruct (B s Hs) as (B1 & B2 & B3); qcnra.
Qed.
Lemma mean_y samples x y v lo hi : (forall p, In p samples -> lo <= snd (fst p) <= hi) -> mean_of samples x y v -> lo <= y <= hi.
Proof.
  intros H (l & F & W & _ & <- & _). rewrite Forall_forall in F.
  assert (B : forall s, In s l -> 0 <= w_of s /\ lo <= y_of s <= hi) by (intros s Hs; destruct (F s Hs) as [F1 F2]; split; [exact F1|apply (H _ F2)]).
  assert (E : forall a, a = total (fun s => w_of s * a) l) by (intros a; rewrite total_scale, W; ring).
  split; [rewrite (E lo)|rewrite (E hi)]; apply total_le; intros s Hs; destruct (B s Hs) as (B1 & B2 & B3); qcnra.
Qed.
Lemma mean_plane samples x y v A B C : (forall p u, In p samples -> snd p = Some u -> u = A + B * fst (fst p) + C * snd (fst p)) -> mean_of samples x y v -> v = A + B * x + C * y.
Proof.
  intros H (l & F & W & <- & <- & <-). rewrite Forall_forall in F.
  rewrite (total_ext _ (fun s => A * w_of s + (B * (w_of s * x_of s) + C * (w_of s * y_of s)))).
  - rewrite total_lin, W. rewrite total_lin. replace (total (fun s => C * (w_of s * y_of s)) l) with (C * total (fun s => w_of s * y_of s) l); [ring|].
    rewrite (total_ext (fun s => C * (w_of s * y_of s)) (fun s => (w_of s * y_of s) * C)) by (intros; ring). rewrite total_scale. ring.
  - intros s Hs. destruct (F s Hs) as [_ F2]. rewrite (H _ _ F2 eq_refl). unfold x_of, y_of. cbn [fst snd]. ring.
Qed.
(** coordinates *)
Lemma coord_mono n i j : (0 < n)%Z -> (i <= j)%Z -> coord n i <= coord n j.
Proof.
  intros Hn H. assert (P : 0 < qz n) by (rewrite <- qz_0; apply qz_lt; lia).
  pose proof (coord_lin n i Hn) as A. pose proof (coord_lin n j Hn) as B.
  assert (Q : coord n i * qz n <= coord n j * qz n) by (rewrite A, B; apply qz_le; lia).
  destruct (Qclt_le_dec (coord n j) (coord n i)) as [L|L]; [exfalso; qcnra|exact L].
Qed.
Lemma coord_outer n p : (0 < n)%Z -> (n < p)%Z -> coord p 0 < coord n 0 /\ coord n (n - 1) < coord p (p - 1).
Proof.
  intros Hn H. assert (P : 0 < qz n) by (rewrite <- qz_0; apply qz_lt; lia). assert (Q : qz n < qz p) by (apply qz_lt; lia).
  pose proof (coord_lin n 0 Hn) as A. pose proof (coord_lin p 0 ltac:(lia)) as B. pose proof (coord_lin n (n - 1) Hn) as C. pose proof (coord_lin p (p - 1) ltac:(lia)) as D.
  assert (E : coord p 0 * qz p = 1 - qz p) by (rewrite B, <- qz_1, <- qz_sub; f_equal; lia).
  assert (F : coord n 0 * qz n = 1 - qz n) by (rewrite A, <- qz_1, <- qz_sub; f_equal; lia).
  assert (G : coord p (p - 1) * qz p = qz p - 1) by (rewrite D, <- qz_1, <- qz_sub; f_equal; lia).
  assert (K : coord n (n - 1) * qz n = qz n - 1) by (rewrite C, <- qz_1, <- qz_sub; f_equal; lia).
  clear A B C D. revert E F G K. generalize (coord p 0), (coord n 0), (coord p (p - 1)), (coord n (n - 1)). intros a b c d E F G K.
  assert (NP : 0 < qz n * qz p) by (assert (0 < qz p) by qclra; qcnra).
  split; apply Qcnot_le_lt; intros L.
  - assert (M : b * (qz n * qz p) <= a * (qz n * qz p)) by (apply Qcmult_le_compat_r; [exact L|qclra]).
    replace (b * (qz n * qz p)) with ((b * qz n) * qz p) in M by ring. replace (a * (qz n * qz p)) with ((a * qz p) * qz n) in M by ring. rewrite E, F in M. qcnra.
  - assert (M : c * (qz n * qz p) <= d * (qz n * qz p)) by (apply Qcmult_le_compat_r; [exact L|qclra]).
    replace (d * (qz n * qz p)) with ((d * qz n) * qz p) in M by ring. replace (c * (qz n * qz p)) with ((c * qz p) * qz n) in M by ring. rewrite G, K in M. qcnra.
Qed.
Lemma coord_middle n i : (0 < n)%Z -> coord n i = middle n i.
Proof.
  intros Hn. pose proof (coord_lin n i Hn) as A. assert (N : qz n <> 0) by (apply qz_neq0; lia). unfold middle. replace (2 * i + 1 - n)%Z with (2 * i - n + 1)%Z by lia.
  match type of A with _ = ?r => replace (qz (2 * i - n + 1)) with r by (f_equal; lia) end. rewrite <- A. field. exact N.
Qed.
Lemma inside_smaller n p i : (0 < p)%Z -> (p <= n)%Z -> (0 <= i < p)%Z -> inside n p i.
Proof.
  intros Hp H Hi. unfold inside. rewrite <- !coord_middle by lia. destruct (Z.eq_dec p n) as [->|N].
  - split; apply coord_mono; lia.
  - destruct (coord_outer p n Hp ltac:(lia)) as [A B]. pose proof (coord_mono p 0 i Hp ltac:(lia)). pose proof (coord_mono p i (p - 1) Hp ltac:(lia)). split; qclra.
Qed.
(** Shapes *)
Lemma shapes_zoomed gd acts k n p file : (acts <= k)%Z -> n <> p ->
  exists z, custom_shapes gd acts k n n p file = Ok z /\
    forall a i j, z a i j = nan_to_zero (gd (samples n None (fun i j => zero_to_nan (file a i j))) (coord p j) (coord p i)).
Proof.
  intros H N. unfold custom_shapes. destruct (Z.ltb_spec k acts); [lia|]. replace (n =? p)%Z with false by (symmetry; apply Z.eqb_neq; exact N). cbn [negb orb].
  unfold zoom_3d. rewrite !Z.eqb_refl. cbn [bind]. eexists. split; [reflexivity|]. intros a i j. cbv beta. rewrite zoom_square. reflexivity.
Qed.
Lemma full_samples n file a q : full n file -> In q (samples n None (fun i j => zero_to_nan (file a i j))) ->
  exists i j v, (0 <= i < n)%Z /\ (0 <= j < n)%Z /\ q = (coord n j, coord n i, Some v) /\ file a i j = Some v.
Proof.
  intros F H. destruct (samples_valid _ _ _ _ H) as (i & j & Hi & Hj & -> & _). destruct (F a i j Hi Hj) as (v & E & NZ). exists i, j, v. repeat split; try lia; auto.
  f_equal. rewrite E. cbn. destruct (qc_eqb v 0) eqn:B; [apply qc_eqb_true in B; contradiction|reflexivity].
Qed.
Lemma any_samples n (f : Z -> Z -> fl) q : (0 < n)%Z -> In q (samples n None f) ->
  (coord n 0 <= fst (fst q) <= coord n (n - 1)) /\ (coord n 0 <= snd (fst q) <= coord n (n - 1)).
Proof. intros Hn H. destruct (samples_valid _ _ _ _ H) as (i & j & Hi & Hj & -> & _). cbn [fst snd]. repeat split; apply coord_mono; lia. Qed.
Lemma zoom_border gd acts k n p file : linear_griddata gd -> (acts <= k)%Z -> (0 < n)%Z -> (n < p)%Z ->
  exists z, custom_shapes gd acts k n n p file = Ok z /\
    forall a i j, i = 0%Z \/ i = (p - 1)%Z \/ j = 0%Z \/ j = (p - 1)%Z -> z a i j = 0.
Proof.
  intros L Hk Hn Hp. destruct (shapes_zoomed gd acts k n p file Hk ltac:(lia)) as (z & E & Z). exists z. split; [exact E|]. intros a i j B. rewrite Z.
  destruct (gd _ _ _) as [v|] eqn:G; [|reflexivity]. exfalso. apply (lg_mean gd L) in G. destruct (coord_outer n p Hn Hp) as [O1 O2].
  pose proof (mean_x _ _ _ _ _ _ (fun q Hq => proj1 (any_samples n _ q Hn Hq)) G) as X. pose proof (mean_y _ _ _ _ _ _ (fun q Hq => proj2 (any_samples n _ q Hn Hq)) G) as Y.
  destruct B as [->|[->|[->| ->]]]; revert X Y O1 O2; qclra.
Qed.
Lemma zoom_between gd acts k n p file lo hi : linear_griddata gd -> (acts <= k)%Z -> n <> p ->
  (forall a i j v, file a i j = Some v -> v <> 0 -> lo <= v <= hi) ->
  exists z, custom_shapes gd acts k n n p file = Ok z /\ forall a i j, z a i j = 0 \/ lo <= z a i j <= hi.
Proof.
  intros L Hk N H. destruct (shapes_zoomed gd acts k n p file Hk N) as (z & E & Z). exists z. split; [exact E|]. intros a i j. rewrite Z.
  destruct (gd _ _ _) as [v|] eqn:G; [|left; reflexivity]. right. apply (lg_mean gd L) in G. cbn [nan_to_zero]. revert G. apply mean_between.
  intros q u Hq Hu. destruct (samples_valid _ _ _ _ Hq) as (i0 & j0 & _ & _ & -> & _). cbn [snd] in Hu. destruct (file a i0 j0) as [w|] eqn:F; [|discriminate].
  cbn in Hu. destruct (qc_eqb w 0) eqn:B; [discriminate|]. injection Hu as <-. apply (H a i0 j0 w F). intros ->. rewrite (proj2 (qc_eqb_true _ _) eq_refl) in B. discriminate.
Qed.
Lemma zoom_plane gd acts k n p file A B C : linear_griddata gd -> (acts <= k)%Z -> (2 <= n)%Z -> (0 < p)%Z -> n <> p -> full n file -> plane_file n A B C file ->
  exists z, custom_shapes gd acts k n n p file = Ok z /\
    forall a i j, inside n p i -> inside n p j -> z a i j = A a + B a * middle p i + C a * middle p j.
Proof.
  intros L Hk Hn Hp N FF H. destruct (shapes_zoomed gd acts k n p file Hk N) as (z & E & Z). exists z. split; [exact E|]. intros a i j Ii Ij. unfold inside in Ii, Ij. rewrite <- !coord_middle in Ii, Ij by lia. rewrite <- !coord_middle by lia. rewrite Z.
  destruct (gd _ _ _) as [v|] eqn:G.
  - apply (lg_mean gd L) in G. cbn [nan_to_zero]. rewrite (mean_plane _ _ _ _ (A a) (C a) (B a)) with (2 := G); [ring|].
    intros q u Hq Hu. destruct (full_samples n file a q FF Hq) as (i0 & j0 & w & Hi & Hj & -> & F). cbn [fst snd] in *. injection Hu as <-. rewrite H in F by assumption. rewrite <- !coord_middle in F by lia. injection F as <-. ring.
  - exfalso. revert G. set (s := fun i j => zero_to_nan (file a i j)).
    assert (I : forall x y, (0 <= x < n)%Z -> (0 <= y < n)%Z -> In (coord n y, coord n x, s x y) (samples n None s)) by (intros; apply samples_in; auto; apply fl_eq_nan).
    assert (LT : coord n 0 < coord n (n - 1)).
    { pose proof (coord_lin n 0 ltac:(lia)) as X. pose proof (coord_lin n (n - 1) ltac:(lia)) as Y. assert (P : 0 < qz n) by (rewrite <- qz_0; apply qz_lt; lia).
      assert (Q : coord n 0 * qz n < coord n (n - 1) * qz n) by (rewrite X, Y; apply qz_lt; lia). apply Qcnot_le_lt. intros K. qcnra. }
    eapply (lg_some gd L _ _ _ (coord n 0) (coord n (n - 1)) (coord n 0) (coord n (n - 1))).
    + intros q Hq. destruct (full_samples n file a q FF Hq) as (? & ? & w & _ & _ & -> & _). discriminate.
    + apply (I 0%Z 0%Z); lia.
    + apply (I (n - 1)%Z 0%Z); lia.
    + apply (I 0%Z (n - 1)%Z); lia.
    + apply (I (n - 1)%Z (n - 1)%Z); lia.
    + exact LT.
    + exact LT.
    + exact Ij.
    + exact Ii.
Qed.
(** Such an interpolator exists: bilinear interpolation in the first rectangle found. *)
Definition quad := ((Qc * Qc * fl) * (Qc * Qc * fl) * (Qc * Qc * fl) * (Qc * Qc * fl))%type.
Definition quads (l : list (Qc * Qc * fl)) : list quad := list_prod (list_prod (list_prod l l) l) l.
Definition holds (x y : Qc) (q : quad) : bool :=
  let '(s1, s2, s3, s4) := q in
  let '(x1, y1, _) := s1 in let '(x1', y2, _) := s2 in let '(x2, y1', _) := s3 in let '(x2', y2', _) := s4 in
  qc_eqb x1 x1' && qc_eqb y1 y1' && qc_eqb x2 x2' && qc_eqb y2 y2' && qc_ltb x1 x2 && qc_ltb y1 y2 && qc_leb x1 x && qc_leb x x2 && qc_leb y1 y && qc_leb y y2.
Definition blend (x y : Qc) (q : quad) : fl :=
  let '(s1, s2, s3, s4) := q in
  let '(x1, y1, v1) := s1 in let '(_, y2, v2) := s2 in let '(x2, _, v3) := s3 in let '(_, _, v4) := s4 in
  match v1, v2, v3, v4 with
  | Some a, Some b, Some c, Some d =>
      let t := (x - x1) / (x2 - x1) in let u := (y - y1) / (y2 - y1) in
      Some ((1 - t) * (1 - u) * a + (1 - t) * u * b + t * (1 - u) * c + t * u * d)
  | _, _, _, _ => None
  end.
Definition bilinear_gd (l : list (Qc * Qc * fl)) (x y : Qc) : fl := match find (holds x y) (quads l) with Some q => blend x y q | None => None end.
Lemma frac_range x1 x x2 : x1 < x2 -> x1 <= x <= x2 -> let t := (x - x1) / (x2 - x1) in 0 <= t <= 1 /\ (1 - t) * x1 + t * x2 = x.
Proof.
  intros H [A B]. cbv zeta. assert (P : 0 < x2 - x1) by qclra. assert (N : x2 - x1 <> 0) by (intros E; rewrite E in P; revert P; qclra).
  pose proof (Qcmult_inv_r _ N) as I. unfold Qcdiv. remember (/ (x2 - x1)) as i. assert (0 < i) by (destruct (Qclt_le_dec 0 i); auto; exfalso; qcnra).
  assert (T : (x - x1) * i * (x2 - x1) = x - x1) by (transitivity ((x - x1) * ((x2 - x1) * i)); [ring|rewrite I; ring]).
  split; [split; qcnra|]. transitivity (x1 + (x - x1) * i * (x2 - x1)); [ring|rewrite T; ring].
Qed.
Lemma bilinear_linear : linear_griddata bilinear_gd.
Proof.
  constructor.
  - intros l x y v H. unfold bilinear_gd in H. destruct (find (holds x y) (quads l)) as [q|] eqn:E; [|discriminate]. apply find_some in E. destruct E as [I E].
    destruct q as [[[[[x1 y1] v1] [[x1' y2] v2]] [[x2 y1'] v3]] [[x2' y2'] v4]]. unfold quads, quad in I. rewrite !in_prod_iff in I. destruct I as [[[I1 I2] I3] I4].
    cbn [holds] in E. repeat (apply andb_true_iff in E; destruct E as [E ?]). 
    repeat match goal with K : qc_eqb _ _ = true |- _ => apply qc_eqb_true in K | K : qc_ltb _ _ = true |- _ => apply qc_ltb_true in K | K : qc_leb _ _ = true |- _ => apply qc_leb_true in K end.
    subst. cbn [blend] in H. destruct v1 as [a|], v2 as [b|], v3 as [c|], v4 as [d|]; try discriminate. injection H as <-.
    destruct (frac_range x1' x x2' ltac:(assumption) ltac:(split; assumption)) as [[T0 T1] TX]. destruct (frac_range y1' y y2' ltac:(assumption) ltac:(split; assumption)) as [[U0 U1] UY].
    remember ((x - x1') / (x2' - x1')) as t. remember ((y - y1') / (y2' - y1')) as u.
    exists [((1 - t) * (1 - u), (x1', y1', a)); ((1 - t) * u, (x1', y2', b)); (t * (1 - u), (x2', y1', c)); (t * u, (x2', y2', d))].
    split; [repeat (apply Forall_cons; [split; [unfold w_of; cbn [fst]; qcnra|assumption]|]); apply Forall_nil|].
    unfold total, w_of, x_of, y_of, v_of. cbn [map fst snd lsum fold_right].
    split; [ring|]. split; [rewrite <- TX at 1; ring|]. split; [rewrite <- UY at 1; ring|ring].
  - intros l x y x1 x2 y1 y2 a b c d V I1 I2 I3 I4 LX LY [X1 X2] [Y1 Y2] H. unfold bilinear_gd in H.
    destruct (find (holds x y) (quads l)) as [q|] eqn:E.
    + apply find_some in E. destruct E as [I E]. destruct q as [[[[[u1 w1] v1] [[u1' w2] v2]] [[u2 w1'] v3]] [[u2' w2'] v4]]. unfold quads, quad in I. rewrite !in_prod_iff in I. destruct I as [[[J1 J2] J3] J4].
      apply V in J1, J2, J3, J4. cbn [snd] in *. cbn [blend] in H. destruct v1, v2, v3, v4; try congruence.
    + assert (Q : In ((x1, y1, a), (x1, y2, b), (x2, y1, c), (x2, y2, d)) (quads l)) by (unfold quads, quad; rewrite !in_prod_iff; auto).
      pose proof (find_none _ _ E _ Q) as F. cbn [holds] in F.
      rewrite !(proj2 (qc_eqb_true _ _) eq_refl), !(proj2 (qc_ltb_true _ _)), !(proj2 (qc_leb_true _ _)) in F by assumption. discriminate.
Qed.

From Verif.Base Require Import Vec PyFacts.
From Verif.Model Require Import Numerics Sh.
From Verif.Model Require Import LegacySh.
From Verif.Spec Require Import LegacyShSpec.
From Verif.Proofs Require Import NumericsProofs ShProofs.
From Verif.Spec Require Import NumericsSpec ShSpec.
From Coq Require Import Lia.

Definition rd (n : Z) : Z := round_div n 2.
Lemma rd_even k : rd (2 * k) = k.
Proof. unfold rd. rewrite Z.mul_comm. apply round_div_mul. lia. Qed.
Lemma rd_odd k : rd (2 * k + 1) = if Z.even k then k else k + 1.
Proof.
  unfold rd, round_div. assert (D : (2 * k + 1) / 2 = k) by (symmetry; apply (Z.div_unique _ 2 _ 1); lia).
  assert (M : (2 * k + 1) mod 2 = 1) by (symmetry; apply (Z.mod_unique _ 2 k); lia).
  rewrite D, M. reflexivity.
Qed.
Lemma rd_4 n k : rd (n + 4 * k) = rd n + 2 * k.
Proof.
  destruct (Z.Even_or_Odd n) as [[m ->] | [m ->]].
  - replace (2 * m + 4 * k) with (2 * (m + 2 * k)) by lia. rewrite !rd_even. reflexivity.
  - replace (2 * m + 1 + 4 * k) with (2 * (m + 2 * k) + 1) by lia. rewrite !rd_odd.
    rewrite Z.even_add_mul_2. destruct (Z.even m); lia.
Qed.
Lemma rd_opp n : rd (- n) = - rd n.
Proof.
  destruct (Z.Even_or_Odd n) as [[m ->] | [m ->]].
  - replace (- (2 * m)) with (2 * (- m)) by lia. rewrite !rd_even. reflexivity.
  - replace (- (2 * m + 1)) with (2 * (- m - 1) + 1) by lia. rewrite !rd_odd.
    replace (- m - 1) with (- Z.succ m) by lia. rewrite Z.even_opp, Z.even_succ, <- Z.negb_even.
    destruct (Z.even m); cbn [negb]; lia.
Qed.
Lemma rd_near n : -1 <= 2 * rd n - n <= 1.
Proof. pose proof (round_div_near n 2 ltac:(lia)). unfold rd. lia. Qed.

Definition first (g : legacy) (x : Z) : Z := rd (2 * (x * g_px g) + g_px g - leg_p2 g).

Lemma first_near g x : -1 <= off_centre2 (g_px g) (g_over g * g_px g) x (first g x) <= 1.
Proof. unfold off_centre2, first. pose proof (rd_near (2 * (x * g_px g) + g_px g - leg_p2 g)). unfold leg_p2 in *. lia. Qed.
Lemma first_exact g x : Z.even ((g_over g - 1) * g_px g) = true -> off_centre2 (g_px g) (g_over g * g_px g) x (first g x) = 0.
Proof.
  intros H. apply Z.even_spec in H. destruct H as [k E]. unfold off_centre2, first, leg_p2.
  replace (2 * (x * g_px g) + g_px g - g_over g * g_px g) with (2 * (x * g_px g - k)) by lia. rewrite rd_even. lia.
Qed.


Lemma pq (a b c d a' b' c' d' : Z) : a = a' -> b = b' -> c = c' -> d = d' -> ((a, b), (c, d)) = ((a', b'), (c', d')).
Proof. intros -> -> -> ->. reflexivity. Qed.

Lemma span_ok g x : leg_sane g -> placeable g -> 0 <= x < g_nx g ->
  let f := first g x in
  leg_span g x = ((Z.max f 0, Z.min (f + leg_p2 g) (leg_det g)), (Z.max f 0 - f, Z.min (f + leg_p2 g) (leg_det g) - f)) /\
  Z.max f 0 <= Z.min (f + leg_p2 g) (leg_det g).
Proof.
  intros (Hn & Hp & Ho) Hf Hx. cbv zeta. unfold leg_span, first.
  set (p := g_px g) in *. set (n := g_nx g) in *. assert (P2 : leg_p2 g = g_over g * p) by reflexivity.
  assert (D : leg_det g = p * n) by reflexivity. rewrite D.
  assert (C0 : x * p = 0 \/ p <= x * p). { destruct (Z.eq_dec x 0) as [->|]; [left; lia|right; nia]. }
  assert (CE : x * p = p * n - p \/ x * p <= p * n - 2 * p).
  { destruct (Z.eq_dec x (n - 1)) as [->|]; [left; lia|right]. assert (x * p <= (n - 2) * p) by (apply Z.mul_le_mono_nonneg_r; lia). lia. }
  assert (DP : p <= p * n) by nia.
  assert (Hf' : g_over g = 1 \/ (g_over g = 2 /\ 2 * p <= p * n /\ exists k, p * n = 2 * k)).
  { destruct Hf as [O1 | [N2 Ev]]; [left; exact O1|]. destruct Ho as [O1|O2]; [left; exact O1|right]. split; [exact O2|]. split; [nia|].
    apply Z.even_spec in Ev. destruct Ev as [k E]. exists k. unfold leg_side in E. fold p n in E. lia. }
  clear Hf Ho D. revert C0 CE. set (c := x * p). set (W := p * n) in *. intros C0 CE. cbv zeta. fold (rd (2 * c + p - leg_p2 g)).
  fold (rd (2 * c + p + leg_p2 g)). fold (rd (leg_p2 g - p)). fold (rd (leg_p2 g + p)). rewrite P2.
  destruct Hf' as [O1 | (O2 & N2 & k & E)].
  - rewrite O1. replace (2 * c + p - 1 * p) with (2 * c) by lia. replace (2 * c + p + 1 * p) with (2 * (c + p)) by lia.
    replace (1 * p - p) with (2 * 0) by lia. replace (1 * p + p) with (2 * p) by lia. rewrite !rd_even.
    destruct (Z.eqb_spec c 0); [split; [apply pq|]; lia|].
    destruct (Z.eqb_spec c (W - p)); (split; [apply pq|]; lia).
  - rewrite O2. pose proof (rd_near p) as Np. pose proof (rd_near (2 * c + p - 2 * p)) as Nf. set (f := rd (2 * c + p - 2 * p)) in *.
    replace (2 * c + p + 2 * p) with (2 * c + p - 2 * p + 4 * p) by lia. rewrite rd_4. fold f.
    replace (2 * p - p) with p by lia.
    destruct (Z.eqb_spec c 0) as [Z0|Z0].
    + assert (F : f = - rd p). { subst f. rewrite Z0. rewrite <- rd_opp. f_equal. lia. }
      split; [apply pq|]; lia.
    + destruct (Z.eqb_spec c (W - p)) as [Z1|Z1].
      * assert (F : f = W - rd (2 * p + p)).
        { subst f. replace (2 * c + p - 2 * p) with (- (2 * p + p) + 4 * k) by lia. rewrite rd_4, rd_opp. lia. }
        pose proof (rd_near (2 * p + p)). split; [apply pq|]; lia.
      * split; [apply pq|]; lia.
Qed.

Lemma norm_max n i : 0 <= i <= n -> norm_ix n i = i. Proof. apply norm_ix_in. Qed.
Lemma bc_ix_in L k : 0 <= k < L -> bc_ix L k = k.
Proof. intros H. unfold bc_ix. destruct (Z.eqb_spec L 1); lia. Qed.

Lemma place_one_ok g det q img : leg_sane g -> placeable g -> on_grid (g_nx g) q -> square (leg_side g) det -> square (g_over g * g_px g) img ->
  exists d, leg_place_one g det q img = Ok d /\ square (leg_side g) d /\
    forall u v, 0 <= u < leg_side g -> 0 <= v < leg_side g ->
      at2 d u v = (at2 det u v + laid (g_over g * g_px g) (first g (fst q)) (first g (snd q)) img u v)%Qc.
Proof.
  intros Hs Hf [Hx Hy] [Dr Dc] [Ir Ic]. unfold leg_place_one.
  destruct (span_ok g (fst q) Hs Hf Hx) as [Sx Lx]. destruct (span_ok g (snd q) Hs Hf Hy) as [Sy Ly].
  rewrite Sx, Sy. cbn [slice2 nrow ncol at2]. rewrite Dr, Dc, Ir, Ic. clear Sx Sy.
  assert (SD : leg_side g = leg_det g) by (unfold leg_side, leg_det; lia). rewrite SD in *.
  change (g_over g * g_px g) with (leg_p2 g) in *. set (D := leg_det g) in *. set (m := leg_p2 g) in *.
  set (a := first g (fst q)) in *. set (b := first g (snd q)) in *.
  rewrite !(slice_len_in D) by lia. rewrite !(slice_len_in m) by lia. rewrite !norm_ix_in by lia.
  replace (Z.min (a + m) D - a - (Z.max a 0 - a)) with (Z.min (a + m) D - Z.max a 0) by lia.
  replace (Z.min (b + m) D - b - (Z.max b 0 - b)) with (Z.min (b + m) D - Z.max b 0) by lia.
  unfold bc_ok. rewrite !Z.eqb_refl. cbn [orb andb]. eexists. split; [reflexivity|]. cbn [nrow ncol at2].
  split; [split; auto|]. intros u v Hu Hv. unfold laid.
  assert (EX : (Z.max a 0 <=? u) && (u <? Z.max a 0 + (Z.min (a + m) D - Z.max a 0)) = (0 <=? u - a) && (u - a <? m)).
  { apply eq_true_iff_eq. rewrite !andb_true_iff, !Z.leb_le, !Z.ltb_lt. lia. }
  assert (EY : (Z.max b 0 <=? v) && (v <? Z.max b 0 + (Z.min (b + m) D - Z.max b 0)) = (0 <=? v - b) && (v - b <? m)).
  { apply eq_true_iff_eq. rewrite !andb_true_iff, !Z.leb_le, !Z.ltb_lt. lia. }
  rewrite <- !andb_assoc. rewrite EY. rewrite (andb_assoc (Z.max a 0 <=? u)). rewrite EX. rewrite <- !andb_assoc.
  destruct ((0 <=? u - a) && ((u - a <? m) && ((0 <=? v - b) && (v - b <? m)))) eqn:E; [|ring].
  apply andb_prop in E. destruct E as [E1 E]. apply andb_prop in E. destruct E as [E2 E]. apply andb_prop in E. destruct E as [E3 E4].
  apply Z.leb_le in E1, E3. apply Z.ltb_lt in E2, E4. f_equal. rewrite !bc_ix_in by lia. f_equal; lia.
Qed.

Lemma place_ok g subs : leg_sane g -> placeable g -> forall det, square (leg_side g) det ->
  Forall (fun s => on_grid (g_nx g) (fst s) /\ square (g_over g * g_px g) (snd s)) subs ->
  exists d, leg_place g det subs = Ok d /\ square (leg_side g) d /\
    forall u v, 0 <= u < leg_side g -> 0 <= v < leg_side g -> at2 d u v = (at2 det u v + lit_by g (first g) subs u v)%Qc.
Proof.
  intros Hs Hf. induction subs as [|[q img] r IH]; intros det Hd HF.
  - exists det. split; [reflexivity|]. split; [exact Hd|]. intros. unfold lit_by, lsum. cbn [map fold_right]. ring.
  - inversion HF as [|? ? [Hq Hi] HF']; subst. cbn [fst snd] in *.
    destruct (place_one_ok g det q img Hs Hf Hq Hd Hi) as (d & E & S & V).
    destruct (IH d S HF') as (d' & E' & S' & V'). exists d'. split; [cbn [leg_place]; rewrite E; exact E'|]. split; [exact S'|].
    intros u v Hu Hv. rewrite V', V by auto. unfold lit_by, lsum. cbn [map fold_right fst snd]. ring.
Qed.

Lemma place_one_shape g det q img d : leg_place_one g det q img = Ok d -> nrow d = nrow det /\ ncol d = ncol det.
Proof.
  unfold leg_place_one. destruct (leg_span g (fst q)) as [[x1 x2] [a1 a2]]. destruct (leg_span g (snd q)) as [[y1 y2] [b1 b2]].
  match goal with |- (if ?b then _ else _) = _ -> _ => destruct b; [|discriminate] end. intros H. injection H as <-. cbn [nrow ncol]. auto.
Qed.
Lemma place_one_err g det q img e : leg_place_one g det q img = Err e -> e = ValueError.
Proof.
  unfold leg_place_one. destruct (leg_span g (fst q)) as [[x1 x2] [a1 a2]]. destruct (leg_span g (snd q)) as [[y1 y2] [b1 b2]].
  match goal with |- (if ?b then _ else _) = _ -> _ => destruct b; [discriminate|] end. intros H. injection H as <-. reflexivity.
Qed.

(** One axis whose two slices differ stops the placing. *)
Lemma span_bad g det q img x1 x2 f1 f2 : (leg_span g (fst q) = ((x1, x2), (f1, f2)) /\
    bc_ok (slice_len (nrow det) x1 x2) (slice_len (nrow img) f1 f2) = false) \/
   (leg_span g (snd q) = ((x1, x2), (f1, f2)) /\ bc_ok (slice_len (ncol det) x1 x2) (slice_len (ncol img) f1 f2) = false) ->
  leg_place_one g det q img = Err ValueError.
Proof.
  intros [[E B] | [E B]]; unfold leg_place_one; rewrite E.
  - destruct (leg_span g (snd q)) as [[y1 y2] [b1 b2]]. cbn [slice2 nrow ncol]. rewrite B. reflexivity.
  - destruct (leg_span g (fst q)) as [[y1 y2] [b1 b2]]. cbn [slice2 nrow ncol]. rewrite B, andb_false_r. reflexivity.
Qed.

Lemma span_last_odd g D m : 2 <= g_nx g -> 1 <= g_px g -> g_over g = 2 -> Z.odd (leg_side g) = true -> D = leg_side g -> m = 2 * g_px g ->
  exists x1 x2 f1 f2, leg_span g (g_nx g - 1) = ((x1, x2), (f1, f2)) /\ bc_ok (slice_len D x1 x2) (slice_len m f1 f2) = false.
Proof.
  intros Hn Hp Ho Hodd -> ->. unfold leg_span, leg_p2, leg_det. rewrite Ho. cbv zeta. unfold leg_side in *.
  set (p := g_px g) in *. set (n := g_nx g) in *. apply Z.odd_spec in Hodd. destruct Hodd as [w Hw].
  replace ((n - 1) * p) with (n * p - p) by lia. replace (p * n) with (n * p) by lia.
  assert (B : 2 * p <= n * p) by nia.
  assert (Op : exists h, p = 2 * h + 1).
  { destruct (Z.Even_or_Odd p) as [[h E]|[h E]]; [exfalso; rewrite E in Hw; lia|exists h; exact E]. }
  destruct Op as [h Hh]. set (D := n * p) in *.
  destruct (Z.eqb_spec (D - p) 0); [lia|]. rewrite Z.eqb_refl.
  do 4 eexists. split; [reflexivity|].
  fold (rd (2 * (D - p) + p - 2 * p)). fold (rd (2 * p + p)).
  replace (2 * (D - p) + p - 2 * p) with (2 * (2 * w + 1 - 3 * h - 2) + 1) by lia.
  replace (2 * p + p) with (2 * (3 * h + 1) + 1) by lia. rewrite !rd_odd.
  assert (E : Z.even (2 * w + 1 - 3 * h - 2) = Z.even (3 * h + 1)).
  { replace (2 * w + 1 - 3 * h - 2) with (3 * h + 1 + 2 * (w - 3 * h - 1)) by lia. apply Z.even_add_mul_2. }
  rewrite E. destruct (Z.even (3 * h + 1)) eqn:Ev.
  - rewrite !slice_len_in by lia. unfold bc_ok. apply orb_false_intro; apply Z.eqb_neq; [lia|].
    intros C. assert (h = 0) by lia. subst h. discriminate Ev.
  - rewrite !slice_len_in by lia. unfold bc_ok. apply orb_false_intro; apply Z.eqb_neq; lia.
Qed.

Lemma span_single g D m : g_nx g = 1 -> 1 <= g_px g -> g_over g = 2 -> D = leg_side g -> m = 2 * g_px g ->
  exists x1 x2 f1 f2, leg_span g 0 = ((x1, x2), (f1, f2)) /\ bc_ok (slice_len D x1 x2) (slice_len m f1 f2) = false.
Proof.
  intros Hn Hp Ho -> ->. unfold leg_span, leg_p2, leg_det, leg_side. rewrite Ho, Hn. cbv zeta. set (p := g_px g) in *.
  replace (0 * p) with 0 by lia. cbn [Z.eqb]. do 4 eexists. split; [reflexivity|].
  fold (rd (2 * 0 + p + 2 * p)). fold (rd (2 * p - p)). pose proof (rd_near (2 * 0 + p + 2 * p)). pose proof (rd_near (2 * p - p)).
  rewrite (slice_len_in (2 * p)) by lia.
  assert (R : p <= rd (2 * 0 + p + 2 * p)) by lia.
  unfold slice_len. rewrite (norm_ix_in (1 * p) 0) by lia. unfold norm_ix. destruct (Z.ltb_spec (rd (2 * 0 + p + 2 * p)) 0); [lia|].
  rewrite Z.min_r by lia. unfold bc_ok.
  replace (2 * 0 + p + 2 * p) with (- p + 4 * p) in * by lia. rewrite rd_4, rd_opp in *. replace (2 * p - p) with p in * by lia.
  apply orb_false_intro; apply Z.eqb_neq.
  - destruct (Z.eq_dec p 1) as [E|]; [rewrite E in *; change (rd 1) with 0 in *; lia|lia].
  - destruct (Z.eq_dec p 1) as [E|]; [rewrite E in *; change (rd 1) with 0 in *; lia|lia].
Qed.

(** Every failing image makes the frame fail. *)
Lemma place_fails g (bad : Z * Z -> Prop) subs : (forall det q img, bad q -> square (leg_side g) det -> square (g_over g * g_px g) img ->
    leg_place_one g det q img = Err ValueError) -> forall det, square (leg_side g) det ->
  Forall (fun s => square (g_over g * g_px g) (snd s)) subs -> Exists (fun s => bad (fst s)) subs -> leg_place g det subs = Err ValueError.
Proof.
  intros Hb. induction subs as [|[q img] r IH]; intros det Hd HF HE; [inversion HE|].
  inversion HF as [|? ? Hi HF']; subst. cbn [leg_place snd] in *.
  destruct (leg_place_one g det q img) as [d|e] eqn:E.
  - inversion HE as [? ? H|? ? H]; subst; cbn [fst] in *.
    + rewrite (Hb det q img H Hd Hi) in E. discriminate.
    + cbn [bind]. apply IH; auto. destruct (place_one_shape _ _ _ _ _ E) as [A B]. destruct Hd as [C D]. split; congruence.
  - cbn [bind]. rewrite (place_one_err _ _ _ _ _ E). reflexivity.
Qed.

Lemma placed g : leg_sane g -> placeable g ->
  exists fst_px : Z -> Z,
    (forall x, 0 <= x < g_nx g -> Z.abs (off_centre2 (g_px g) (g_over g * g_px g) x (fst_px x)) <= 1) /\
    (Z.even ((g_over g - 1) * g_px g) = true -> forall x, 0 <= x < g_nx g -> off_centre2 (g_px g) (g_over g * g_px g) x (fst_px x) = 0) /\
    forall det subs, square (leg_side g) det ->
      Forall (fun s => on_grid (g_nx g) (fst s) /\ square (g_over g * g_px g) (snd s)) subs ->
      exists d, leg_place g det subs = Ok d /\ square (leg_side g) d /\
        forall u v, 0 <= u < leg_side g -> 0 <= v < leg_side g -> at2 d u v = (at2 det u v + lit_by g fst_px subs u v)%Qc.
Proof.
  intros Hs Hf. exists (first g). split; [intros; pose proof (first_near g x); lia|]. split; [intros; apply first_exact; auto|].
  intros. apply place_ok; auto.
Qed.

Lemma odd_fails g det subs : 2 <= g_nx g -> 1 <= g_px g -> g_over g = 2 -> Z.odd (leg_side g) = true -> square (leg_side g) det ->
  Forall (fun s => square (g_over g * g_px g) (snd s)) subs ->
  Exists (fun s => fst (fst s) = g_nx g - 1 \/ snd (fst s) = g_nx g - 1) subs -> leg_place g det subs = Err ValueError.
Proof.
  intros Hn Hp Ho Hodd Hd HF HE.
  apply (place_fails g (fun q => fst q = g_nx g - 1 \/ snd q = g_nx g - 1)); auto.
  intros det' q img Hq [Dr Dc] [Ir Ic]. rewrite Ho in *.
  destruct Hq as [Hq|Hq].
  - destruct (span_last_odd g (nrow det') (nrow img) Hn Hp Ho Hodd Dr Ir) as (x1 & x2 & f1 & f2 & E & B).
    apply (span_bad g det' q img x1 x2 f1 f2). left. rewrite Hq. auto.
  - destruct (span_last_odd g (ncol det') (ncol img) Hn Hp Ho Hodd Dc Ic) as (x1 & x2 & f1 & f2 & E & B).
    apply (span_bad g det' q img x1 x2 f1 f2). right. rewrite Hq. auto.
Qed.
Lemma single_fails g det img : g_nx g = 1 -> 1 <= g_px g -> g_over g = 2 -> square (leg_side g) det -> square (g_over g * g_px g) img ->
  leg_place g det [((0, 0), img)] = Err ValueError.
Proof.
  intros Hn Hp Ho [Dr Dc] [Ir Ic]. rewrite Ho in *.
  destruct (span_single g (nrow det) (nrow img) Hn Hp Ho Dr Ir) as (x1 & x2 & f1 & f2 & E & B).
  cbn [leg_place]. rewrite (span_bad g det (0, 0) img x1 x2 f1 f2); [reflexivity|left; auto].
Qed.

(** With a field stop every window holds its own image. *)
Lemma first_stop g x : g_over g = 1 -> first g x = x * g_px g.
Proof.
  intros Ho. unfold first, leg_p2. rewrite Ho. replace (2 * (x * g_px g) + g_px g - 1 * g_px g) with (2 * (x * g_px g)) by lia. apply rd_even.
Qed.
Lemma laid_other p (q q' : Z * Z) img i j : 0 <= i < p -> 0 <= j < p -> q <> q' ->
  laid p (fst q' * p) (snd q' * p) img (fst q * p + i) (snd q * p + j) = 0%Qc.
Proof.
  intros Hi Hj Hq. unfold laid.
  match goal with |- (if ?b then _ else _) = _ => destruct b eqn:E end; [|reflexivity]. exfalso. apply Hq.
  apply andb_prop in E. destruct E as [E E4]. apply andb_prop in E. destruct E as [E E3]. apply andb_prop in E. destruct E as [E1 E2].
  apply Z.leb_le in E1, E3. apply Z.ltb_lt in E2, E4. destruct q as [a b], q' as [a' b']. cbn [fst snd] in *. f_equal; nia.
Qed.
Lemma laid_own p (q : Z * Z) img i j : 0 <= i < p -> 0 <= j < p -> laid p (fst q * p) (snd q * p) img (fst q * p + i) (snd q * p + j) = at2 img i j.
Proof.
  intros Hi Hj. unfold laid. replace (fst q * p + i - fst q * p) with i by lia. replace (snd q * p + j - snd q * p) with j by lia.
  destruct (Z.leb_spec 0 i), (Z.ltb_spec i p), (Z.leb_spec 0 j), (Z.ltb_spec j p); try lia. reflexivity.
Qed.
Lemma window_stop g det subs : leg_sane g -> g_over g = 1 -> square (leg_side g) det -> (forall u v, at2 det u v = 0%Qc) ->
  Forall (fun s => on_grid (g_nx g) (fst s) /\ square (g_px g) (snd s)) subs -> NoDup (map fst subs) ->
  exists d, leg_place g det subs = Ok d /\ forall q img, In (q, img) subs -> arr_eq (leg_window g d q) img.
Proof.
  intros Hs Ho Hd Hz HF ND. destruct Hs as (Hn & Hp & Hs').
  destruct (place_ok g subs (conj Hn (conj Hp Hs')) (or_introl Ho) det Hd) as (d & E & S & V).
  { rewrite Ho. replace (1 * g_px g) with (g_px g) by lia. exact HF. }
  exists d. split; [exact E|]. intros q img Hin. destruct S as [Sr Sc].
  rewrite Forall_forall in HF. destruct (HF _ Hin) as [[Gx Gy] [Ir Ic]]. cbn [fst snd] in *.
  assert (Bx : 0 <= fst q * g_px g /\ fst q * g_px g + g_px g <= leg_side g) by (unfold leg_side; nia).
  assert (By : 0 <= snd q * g_px g /\ snd q * g_px g + g_px g <= leg_side g) by (unfold leg_side; nia).
  unfold leg_window. unfold arr_eq. cbn [slice2 nrow ncol at2]. rewrite Sr, Sc. rewrite !slice_len_in by lia. rewrite !norm_ix_in by lia.
  split; [lia|]. split; [lia|]. intros i j Hi Hj. rewrite V by lia. rewrite Hz.
  replace (fst q * g_px g + g_px g - fst q * g_px g) with (g_px g) in Hi by lia.
  replace (snd q * g_px g + g_px g - snd q * g_px g) with (g_px g) in Hj by lia.
  unfold lit_by. rewrite Ho. replace (1 * g_px g) with (g_px g) by lia. unfold lsum.
  clear E V HF Sr Sc d. induction subs as [|[q' img'] r IH]; [destruct Hin|].
  cbn [map] in ND. inversion ND as [|? ? Hni ND']; subst. cbn [map fold_right fst snd]. rewrite !first_stop by auto.
  destruct Hin as [Heq|Hin].
  - injection Heq as -> ->. rewrite laid_own by auto.
    assert (Z0 : fold_right Qcplus 0%Qc (map (fun s : Z * Z * arr Qc => laid (g_px g) (first g (fst (fst s))) (first g (snd (fst s))) (snd s)
        (fst q * g_px g + i) (snd q * g_px g + j)) r) = 0%Qc).
    { clear ND' ND IH. induction r as [|s r IH]; [reflexivity|]. cbn [map fold_right] in *. rewrite IH.
      - rewrite !first_stop by auto. assert (N : q <> fst s) by (intros C; apply Hni; left; auto). rewrite (laid_other (g_px g) q (fst s)) by auto. ring.
      - intros C. apply Hni. right. exact C. }
    rewrite Z0. ring.
  - assert (q <> q'). { intros ->. apply Hni. apply (in_map fst) in Hin. exact Hin. }
    rewrite (laid_other (g_px g) q q'); auto. specialize (IH ND' Hin). rewrite <- IH. ring.
Qed.

Lemma window_pixels g d q : leg_sane g -> square (leg_side g) d -> on_grid (g_nx g) q ->
  square (g_px g) (leg_window g d q) /\
  forall i j, 0 <= i < g_px g -> 0 <= j < g_px g -> at2 (leg_window g d q) i j = at2 d (fst q * g_px g + i) (snd q * g_px g + j).
Proof.
  intros (Hn & Hp & _) [Sr Sc] [Gx Gy].
  assert (Bx : 0 <= fst q * g_px g /\ fst q * g_px g + g_px g <= leg_side g) by (unfold leg_side; nia).
  assert (By : 0 <= snd q * g_px g /\ snd q * g_px g + g_px g <= leg_side g) by (unfold leg_side; nia).
  unfold leg_window, square. cbn [slice2 nrow ncol at2]. rewrite Sr, Sc. rewrite !slice_len_in by lia. rewrite !norm_ix_in by lia.
  split; [lia|]. auto.
Qed.

(** The field. *)
Lemma field_ge g : 1 <= g_nx g -> 1 <= g_sp g -> 1 <= g_pupil g -> 0 <= g_pad g -> g_nx g * g_sp g <= leg_field g.
Proof.
  intros. unfold leg_field. rewrite <- (round_div_mul (g_nx g * g_sp g) (g_pupil g)) at 1; [|lia]. apply round_div_mono; [lia|]. nia.
Qed.
Lemma chop_ok {A} g (e : arr A) x y : 1 <= g_nx g -> 1 <= g_sp g -> g_nx g * g_sp g + 2 <= leg_field g -> square (leg_field g) e ->
  0 <= x < g_nx g -> 0 <= y < g_nx g ->
  exists a, leg_chop g e x y = Ok a /\ square (g_sp g) a /\
    forall i j, 0 <= i < g_sp g -> 0 <= j < g_sp g ->
      at2 a i j = at2 e ((leg_field g - g_nx g * g_sp g) / 2 + x * g_sp g + i) ((leg_field g - g_nx g * g_sp g) / 2 + y * g_sp g + j).
Proof.
  intros Hn Hsp Hf [Er Ec] Hx Hy. unfold leg_chop, leg_crop, chop. cbn [slice2 nrow ncol at2]. rewrite Er, Ec.
  set (S := leg_field g) in *. set (m := g_nx g * g_sp g) in *.
  assert (C : leg_coord g = (S - m) / 2) by (unfold leg_coord; apply Z.quot_div_nonneg; lia). rewrite C.
  set (k := (S - m) / 2) in *. assert (K : 2 * k <= S - m /\ 1 <= k). { subst k. split; [pose proof (Z.mul_div_le (S - m) 2); lia|apply Z.div_le_lower_bound; lia]. }
  set (s := g_sp g) in *. assert (Hm : 0 <= m) by (subst m; nia).
  assert (Bx : 0 <= x * s /\ x * s + s <= m) by (subst m; nia). assert (By : 0 <= y * s /\ y * s + s <= m) by (subst m; nia).
  assert (L : slice_len S k (- k) = S - 2 * k). { unfold slice_len. rewrite (norm_ix_in S k) by lia. rewrite norm_ix_neg by lia. lia. }
  rewrite L. rewrite !slice_len_in by lia. rewrite !norm_ix_in by lia.
  replace (x * s + s - x * s) with s by lia. replace (y * s + s - y * s) with s by lia.
  unfold bc_ok. rewrite Z.eqb_refl. cbn [orb andb]. eexists. split; [reflexivity|]. split; [split; reflexivity|]. cbn [nrow ncol at2].
  intros i j Hi Hj. rewrite !bc_ix_in by lia. f_equal; lia.
Qed.
Lemma chop_fails {A} g (e : arr A) x y : 1 <= g_nx g -> 1 <= g_sp g -> 1 <= g_pupil g -> 0 <= g_pad g -> leg_field g < g_nx g * g_sp g + 2 ->
  square (leg_field g) e -> leg_chop g e x y = Err ValueError.
Proof.
  intros Hn Hsp Hp Hpad Hf [Er Ec]. pose proof (field_ge g Hn Hsp Hp Hpad) as G. unfold leg_chop, leg_crop, chop. cbn [slice2 nrow ncol at2].
  rewrite Er, Ec. assert (C : leg_coord g = 0).
  { unfold leg_coord. rewrite Z.quot_div_nonneg by lia. apply Z.div_small. lia. }
  rewrite C. change (- 0) with 0. assert (P : 0 <= leg_field g) by nia.
  assert (L : slice_len (leg_field g) 0 0 = 0) by (rewrite slice_len_in; lia). rewrite L.
  assert (L0 : forall a b, slice_len 0 a b = 0).
  { intros a b. unfold slice_len, norm_ix. destruct (a <? 0) eqn:A1, (b <? 0) eqn:B1; try apply Z.ltb_lt in A1; try apply Z.ltb_lt in B1;
      try apply Z.ltb_ge in A1; try apply Z.ltb_ge in B1; lia. }
  rewrite !L0. unfold bc_ok. destruct (Z.eqb_spec 0 (g_sp g)); [lia|]. reflexivity.
Qed.
(** In the terms of the configuration. *)
Lemma field_small g : 1 <= g_nx g -> 1 <= g_sp g -> 1 <= g_pupil g -> 4 * (g_nx g * g_sp g * g_pad g) < 3 * g_pupil g ->
  leg_field g < g_nx g * g_sp g + 2.
Proof.
  intros Hn Hs Hp H. unfold leg_field. set (m := g_nx g * g_sp g) in *. set (P := g_pupil g) in *.
  pose proof (round_div_near (m * (P + 2 * g_pad g)) P ltac:(lia)) as N. nia.
Qed.
Lemma field_large g : 1 <= g_nx g -> 1 <= g_sp g -> 1 <= g_pupil g -> 3 * g_pupil g < 4 * (g_nx g * g_sp g * g_pad g) ->
  g_nx g * g_sp g + 2 <= leg_field g.
Proof.
  intros Hn Hs Hp H. unfold leg_field. set (m := g_nx g * g_sp g) in *. set (P := g_pupil g) in *.
  pose proof (round_div_near (m * (P + 2 * g_pad g)) P ltac:(lia)) as N. nia.
Qed.

(** Light. *)
Lemma laid_flux D n a b img : 0 <= n -> 0 <= a -> 0 <= b -> a + n <= D -> b + n <= D -> square n img ->
  zsum D (fun u => zsum D (fun v => laid n a b img u v)) = flux img.
Proof.
  intros Hn Ha Hb HA HB [Ir Ic]. unfold flux. rewrite Ir, Ic.
  pose proof (zsum_drawn D n 1 (fun i => zsum n (fun j => at2 img i j)) a) as Z1. replace (1 * n) with n in Z1 by lia. rewrite <- Z1 by lia.
  apply zsum_ext. intros u Hu. pose proof (zsum_drawn D n 1 (fun j => at2 img (u - a) j) b) as Z2. replace (1 * n) with n in Z2 by lia. rewrite <- Z2 by lia.
  unfold laid. destruct ((0 <=? u - a) && (u - a <? n)).
  - reflexivity.
  - apply zsum_zero_ext. intros v Hv. cbn [andb]. reflexivity.
Qed.
Lemma scaled_flux f a : flux (scaled f a) = (f * flux a)%Qc.
Proof.
  unfold flux, scaled. cbn [nrow ncol at2]. rewrite <- zsum_scale. apply zsum_ext. intros i Hi. rewrite <- zsum_scale. apply zsum_ext. intros j Hj. ring.
Qed.
Lemma bin_ok g os subs : leg_sane g -> 1 <= os ->
  Forall (fun s => on_grid (g_nx g) (fst s) /\ square (g_over g * g_px g * os) (snd (snd s))) subs ->
  exists imgs, leg_bin g os subs = Ok imgs /\ Forall (fun s => on_grid (g_nx g) (fst s) /\ square (g_over g * g_px g) (snd s)) imgs /\
    lsum (map (fun s => flux (snd s)) imgs) = lsum (map (fun s => fst (snd s) * flux (snd (snd s)))%Qc subs).
Proof.
  intros (Hn & Hp & Ho) Hos. induction subs as [|[q [f a]] r IH]; intros HF.
  - exists []. split; [reflexivity|]. split; [constructor|reflexivity].
  - inversion HF as [|? ? [Hq [Ar Ac]] HF']; subst. cbn [fst snd] in *. destruct (IH HF') as (imgs & E & S & L). cbn [leg_bin].
    destruct (binImgs_all a os ltac:(lia)) as [B _].
    destruct (B (g_over g * g_px g) (g_over g * g_px g) ltac:(nia) ltac:(nia) Ar Ac) as (b & Eb & Sb & Fb).
    rewrite Eb. cbn [bind]. destruct Sb as (Br & Bc & _). cbn [bin_img nrow ncol] in Br, Bc. unfold leg_p2. rewrite Br, Bc, Z.eqb_refl. cbn [andb].
    rewrite E. cbn [bind]. eexists. split; [reflexivity|]. split.
    + constructor; [|exact S]. split; [exact Hq|]. cbn [snd]. split; cbn [scaled nrow ncol]; auto.
    + unfold lsum in *. cbn [map fold_right fst snd]. rewrite L, scaled_flux, Fb. reflexivity.
Qed.
Lemma lit_flux g imgs : leg_sane g -> g_over g = 1 ->
  Forall (fun s => on_grid (g_nx g) (fst s) /\ square (g_over g * g_px g) (snd s)) imgs ->
  zsum (leg_side g) (fun u => zsum (leg_side g) (fun v => lit_by g (first g) imgs u v)) = lsum (map (fun s => flux (snd s)) imgs).
Proof.
  intros (Hn & Hp & _) Ho. induction imgs as [|[q img] r IH]; intros HF.
  - unfold lit_by, lsum. cbn [map fold_right]. rewrite (zsum_ext _ _ (fun _ => 0%Qc)); [apply zsum_zero|]. intros. apply zsum_zero.
  - inversion HF as [|? ? [[Gx Gy] Hi] HF']; subst. cbn [fst snd] in *. unfold lsum in *. cbn [map fold_right snd]. rewrite <- IH by auto.
    rewrite <- (laid_flux (leg_side g) (g_over g * g_px g) (first g (fst q)) (first g (snd q)) img); auto.
    + rewrite <- zsum_add. apply zsum_ext. intros u Hu. rewrite <- zsum_add. apply zsum_ext. intros v Hv. reflexivity.
    + rewrite Ho. lia.
    + rewrite first_stop by auto. nia.
    + rewrite first_stop by auto. nia.
    + rewrite first_stop by auto. rewrite Ho. unfold leg_side. nia.
    + rewrite first_stop by auto. rewrite Ho. unfold leg_side. nia.
Qed.
Lemma integrate_stop g os det subs : leg_sane g -> g_over g = 1 -> 1 <= os -> square (leg_side g) det ->
  Forall (fun s => on_grid (g_nx g) (fst s) /\ square (g_px g * os) (snd (snd s))) subs ->
  exists d, leg_integrate g os det subs = Ok d /\ square (leg_side g) d /\
    flux d = (flux det + lsum (map (fun s => fst (snd s) * flux (snd (snd s)))%Qc subs))%Qc.
Proof.
  intros Hs Ho Hos Hd HF. destruct (bin_ok g os subs Hs Hos) as (imgs & E & S & L).
  { rewrite Ho. replace (1 * g_px g) with (g_px g) by lia. exact HF. }
  destruct (place_ok g imgs Hs (or_introl Ho) det Hd S) as (d & Ed & Sd & V). exists d. unfold leg_integrate. rewrite E. cbn [bind].
  split; [exact Ed|]. split; [exact Sd|]. rewrite <- L, <- (lit_flux g imgs Hs Ho S). destruct Sd as [Dr Dc]. destruct Hd as [Er Ec].
  unfold flux at 1 2. rewrite Dr, Dc, Er, Ec. rewrite <- zsum_add. apply zsum_ext. intros u Hu. rewrite <- zsum_add. apply zsum_ext. intros v Hv.
  apply V; auto.
Qed.

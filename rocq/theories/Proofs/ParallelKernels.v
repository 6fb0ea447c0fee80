From Coq Require Import List ZArith Bool Lia.
From Verif.Model Require Import Numerics Parallel.
From Verif.Spec Require Import ParallelSpec.
From Verif.Proofs Require Import ParallelProofs.
Import ListNotations.
Open Scope Z_scope.

Lemma zseq_0 : zseq 0 = [].
Proof. reflexivity. Qed.
Lemma zseq_next n : 0 <= n -> zseq (n + 1) = zseq n ++ [n].
Proof.
  intros H. unfold zseq. replace (Z.to_nat (n + 1)) with (Z.to_nat n + 1)%nat by lia. rewrite seq_app, map_app. cbn. rewrite Z2Nat.id by exact H. reflexivity.
Qed.
Section K.
Context {V : Type}.
Notation mem := (memory V).
Notation prg := (prog V).
Variables (add sub mul : V -> V -> V) (ofZ : Z -> V) (int32 : V -> Z) (ge : V -> V -> bool) (eps : V).
Notation bval := (bilinear_value add sub mul ofZ int32).

(** Row (or image) i of an array, and everything but the other rows of it. *)
Definition own (out : nat) (i : Z) (a : addr) : bool := let '(n, i', _, _) := a in Nat.eqb n out && (i' =? i).
Definition see (out : nat) (i : Z) (a : addr) : bool := let '(n, i', _, _) := a in negb (Nat.eqb n out) || (i' =? i).
Lemma own_sep out i j a : i <> j -> own out i a = true -> own out j a = false /\ see out j a = false.
Proof.
  destruct a as [[[n r] c] d]. cbn. intros N. rewrite andb_true_iff, Z.eqb_eq. intros [-> ->]. replace (i =? j) with false by (symmetry; apply Z.eqb_neq; exact N). auto.
Qed.
Lemma see_other out i n r c d : n <> out -> see out i (n, r, c, d) = true.
Proof. intros N. cbn. apply Nat.eqb_neq in N. rewrite N. reflexivity. Qed.
Lemma see_own out i c d : see out i (out, i, c, d) = true.
Proof. cbn. rewrite Z.eqb_refl. apply orb_true_r. Qed.
Lemma own_own out i c d : own out i (out, i, c, d) = true.
Proof. cbn. rewrite Nat.eqb_refl, Z.eqb_refl. reflexivity. Qed.

(** What a kernel has to satisfy: iteration i leaves exactly row i as wanted. *)
Lemma rows_gives n (body : Z -> prg) out inside g (m : mem) :
  (forall i j k, inside i j k = true -> 0 <= i < Z.of_nat n) ->
  (forall i, 0 <= i < Z.of_nat n -> respects (own out i) (see out i) (body i)) ->
  (forall i j k, 0 <= i < Z.of_nat n -> run (body i) m (out, i, j, k) = if inside i j k then g i j k else m (out, i, j, k)) ->
  always_gives m (prange n body) (with_array m out inside g).
Proof.
  intros IN RS F. apply (prange_gives _ _ (own out) (see out)); [exact RS| | |].
  - intros i j a _ _ N. apply own_sep. exact N.
  - intros i [[[b r] c] d] Hi O. cbn in O. apply andb_true_iff in O. destruct O as [O1 O2]. apply Nat.eqb_eq in O1. apply Z.eqb_eq in O2. subst. rewrite F by exact Hi.
    cbn. rewrite Nat.eqb_refl. reflexivity.
  - intros [[[b r] c] d] O. cbn. destruct (Nat.eqb_spec b out) as [->|]; [|reflexivity]. cbn. destruct (inside r c d) eqn:I; [|reflexivity]. apply IN in I. specialize (O r I). rewrite own_own in O. discriminate.
Qed.

(** ** Interpolation *)
Lemma bval_ext n0 n1 d d' x y : (forall i j, d i j = d' i j) -> bval n0 n1 d x y = bval n0 n1 d' x y.
Proof. intros E. unfold bilinear_value. rewrite !E. reflexivity. Qed.
Lemma run_interp data n0 n1 x y k (m : mem) :
  run (interp_body add sub mul ofZ data n0 n1 x (int32 x) y (int32 y) k) m = run (k (bval n0 n1 (fun i j => m (data, i, j, 0)) x y)) m.
Proof. reflexivity. Qed.
Lemma resp_interp W R data n0 n1 x x1 y y1 k : (forall i j, R (data, i, j, 0) = true) -> (forall v, respects W R (k v)) ->
  respects W R (interp_body add sub mul ofZ data n0 n1 x x1 y y1 k).
Proof. intros HR HK. unfold interp_body, el. repeat (apply resp_read; [apply HR|]; intro). apply HK. Qed.
(** Row filled element by element. *)
Definition upto (m : mem) (out : nat) (i : Z) (val : Z -> V) (j : Z) (m' : mem) : Prop :=
  (forall j', 0 <= j' < j -> m' (out, i, j', 0) = val j') /\ (forall a, (forall j', 0 <= j' < j -> a <> (out, i, j', 0)) -> m' a = m a).
Lemma upto_0 m out i val : upto m out i val 0 m.
Proof. split; [lia | reflexivity]. Qed.
Lemma upto_next m out i val j m' m'' : 0 <= j -> upto m out i val j m' -> m'' (out, i, j, 0) = val j -> (forall a, a <> (out, i, j, 0) -> m'' a = m' a) -> upto m out i val (j + 1) m''.
Proof.
  intros Hj [A B] C D. split.
  - intros j' Hj'. destruct (Z.eq_dec j' j) as [->|N]; [exact C|]. rewrite D by (intros E; injection E; lia). apply A. lia.
  - intros a Ha. rewrite D by (apply Ha; lia). apply B. intros j' Hj'. apply Ha. lia.
Qed.
Lemma upto_upd m out i val j m' : 0 <= j -> upto m out i val j m' -> upto m out i val (j + 1) (upd m' (out, i, j, 0) (val j)).
Proof. intros Hj U. eapply upto_next; [exact Hj | exact U | apply upd_same|]. intros a Ha. apply upd_other. auto. Qed.
Lemma upto_other m out i val j m' b r c d : upto m out i val j m' -> b <> out -> m' (b, r, c, d) = m (b, r, c, d).
Proof. intros [_ B] N. apply B. intros j' _ E. injection E. intros. contradiction. Qed.
Lemma upto_end m out i val (n : nat) m' nr : 0 <= i < nr -> upto m out i val (Z.of_nat n) m' -> forall j k, m' (out, i, j, k) = if box2 nr (Z.of_nat n) i j k then val j else m (out, i, j, k).
Proof.
  intros Hi [A B] j k. destruct (box2 nr (Z.of_nat n) i j k) eqn:E; unfold box2 in E.
  - rewrite !andb_true_iff, !Z.leb_le, !Z.ltb_lt, Z.eqb_eq in E. destruct E as [[[[_ _] E1] E2] ->]. apply A. lia.
  - apply B. intros j' Hj' Q. injection Q as -> ->. rewrite <- not_true_iff_false in E. apply E. rewrite !andb_true_iff, !Z.leb_le, !Z.ltb_lt, Z.eqb_eq. lia.
Qed.
Lemma bilinear_gives data xc yc out n0 n1 nx ny (m : mem) : data <> out -> xc <> out -> yc <> out ->
  always_gives m (prange nx (bilinear_iter add sub mul ofZ int32 ge eps data xc yc out n0 n1 ny))
    (with_array m out (box2 (Z.of_nat nx) (Z.of_nat ny)) (fun i j _ =>
       bval n0 n1 (fun u v => m (data, u, v, 0)) (clamp_to sub ofZ ge eps n0 (m (xc, i, 0, 0))) (clamp_to sub ofZ ge eps n1 (m (yc, j, 0, 0))))).
Proof.
  intros D X Y. apply rows_gives.
  - intros i j k B. unfold box2 in B. rewrite !andb_true_iff, !Z.leb_le, !Z.ltb_lt in B. lia.
  - intros i Hi. unfold bilinear_iter. apply resp_read; [apply see_other; exact X|]. intros x. apply resp_for; [|constructor]. intros j k _ K.
    apply resp_read; [apply see_other; exact Y|]. intros y. apply resp_interp; [intros; apply see_other; exact D|]. intros v. apply resp_write; [apply own_own | exact K].
  - intros i j k Hi. unfold bilinear_iter. cbn [run]. set (x := clamp_to sub ofZ ge eps n0 (m (xc, i, 0, 0))).
    set (val := fun j => bval n0 n1 (fun u v => m (data, u, v, 0)) x (clamp_to sub ofZ ge eps n1 (m (yc, j, 0, 0)))).
    apply (run_for (upto m out i val) _ ny 0 Done m (fun mf => mf (out, i, j, k) = if box2 (Z.of_nat nx) (Z.of_nat ny) i j k then val j else m (out, i, j, k))); [apply upto_0| |].
    + intros j' m' k' Q' Hj U H. cbn [run]. rewrite run_interp. cbn [run]. apply H. rewrite (upto_other _ _ _ _ _ _ yc _ _ _ U Y).
      rewrite (bval_ext _ _ _ (fun u v => m (data, u, v, 0))) by (intros; apply (upto_other _ _ _ _ _ _ _ _ _ _ U D)).
      change (upto m out i val (j' + 1) (upd m' (out, i, j', 0) (val j'))). apply upto_upd; [lia | exact U].
    + intros m' U. cbn [run]. apply (upto_end _ _ _ val); [exact Hi | exact U].
Qed.
Lemma zoom_gives post data out n0 n1 mr mc cx cy (m : mem) : data <> out ->
  always_gives m (prange mr (zoom_iter add sub mul ofZ int32 post data out n0 n1 mc cx cy))
    (with_array m out (box2 (Z.of_nat mr) (Z.of_nat mc)) (fun i j _ => post (bval n0 n1 (fun u v => m (data, u, v, 0)) (cx i) (cy j)))).
Proof.
  intros D. apply rows_gives.
  - intros i j k B. unfold box2 in B. rewrite !andb_true_iff, !Z.leb_le, !Z.ltb_lt in B. lia.
  - intros i Hi. unfold zoom_iter. cbv zeta. apply resp_for; [|constructor]. intros j k _ K.
    apply resp_interp; [intros; apply see_other; exact D|]. intros v. apply resp_write; [apply own_own | exact K].
  - intros i j k Hi. unfold zoom_iter. cbv zeta.
    set (val := fun j => post (bval n0 n1 (fun u v => m (data, u, v, 0)) (cx i) (cy j))).
    apply (run_for (upto m out i val) _ mc 0 Done m (fun mf => mf (out, i, j, k) = if box2 (Z.of_nat mr) (Z.of_nat mc) i j k then val j else m (out, i, j, k))); [apply upto_0| |].
    + intros j' m' k' Q' Hj U H. rewrite run_interp. cbn [run]. apply H.
      rewrite (bval_ext _ _ _ (fun u v => m (data, u, v, 0))) by (intros; apply (upto_other _ _ _ _ _ _ _ _ _ _ U D)).
      change (upto m out i val (j' + 1) (upd m' (out, i, j', 0) (val j'))). apply upto_upd; [lia | exact U].
    + intros m' U. cbn [run]. apply (upto_end _ _ _ val); [exact Hi | exact U].
Qed.

(** ** Binning *)
Lemma run_pixel dst src b k (m : mem) (Q : mem -> Prop) : (forall x y, src x y <> dst) -> 0 <= b ->
  (forall m' : mem, m' dst = block_sum add ofZ b (fun x y => m (src x y)) -> (forall a, a <> dst -> m' a = m a) -> Q (run k m')) ->
  Q (run (bin_pixel add ofZ dst src (Z.to_nat b) k) m).
Proof.
  intros S Hb H. unfold bin_pixel. cbn [run].
  set (row := fun s x ys => fold_left (fun s y => add s (m (src x y))) ys s).
  apply (run_for (fun x (m' : mem) => m' dst = fold_left (fun s x => row s x (zseq b)) (zseq x) (ofZ 0) /\ forall a, a <> dst -> m' a = m a)).
  - split; [apply upd_same|]. intros a Ha. apply upd_other. auto.
  - intros x m1 k1 Q1 Hx [A B] H1. set (s0 := fold_left (fun s x => row s x (zseq b)) (zseq x) (ofZ 0)) in *.
    apply (run_for (fun y (m' : mem) => m' dst = row s0 x (zseq y) /\ forall a, a <> dst -> m' a = m a)).
    + split; [exact A | exact B].
    + intros y m2 k2 Q2 Hy [A2 B2] H2. cbn [run]. apply H2. split.
      * rewrite upd_same, A2, (B2 (src x y)) by apply S. unfold row. rewrite zseq_next, fold_left_app by lia. reflexivity.
      * intros a Ha. rewrite upd_other by auto. apply B2. exact Ha.
    + intros m2 [A2 B2]. apply H1. split; [|exact B2]. rewrite zseq_next, fold_left_app by lia. cbn. rewrite A2. fold s0. f_equal. f_equal. lia.
  - intros m1 [A B]. apply H; [|exact B]. rewrite A. unfold block_sum, row. f_equal. f_equal. lia.
Qed.
Lemma resp_pixel W R dst src b k : W dst = true -> R dst = true -> (forall x y, R (src x y) = true) -> respects W R k -> respects W R (bin_pixel add ofZ dst src b k).
Proof.
  intros Wd Rd Rs K. unfold bin_pixel. apply resp_write; [exact Wd|]. apply resp_for; [|exact K]. intros x q _ Kq. apply resp_for; [|exact Kq]. intros y r _ Kr.
  apply resp_read; [exact Rd|]. intros s. apply resp_read; [apply Rs|]. intros v. apply resp_write; [exact Wd | exact Kr].
Qed.
Lemma block_ext b g h : (forall x y, g x y = h x y) -> block_sum add ofZ b g = block_sum add ofZ b h.
Proof.
  intros E. unfold block_sum. generalize (ofZ 0). generalize (zseq b) at 2 4. intros l. induction l as [|x l IH]; intros s; cbn; [reflexivity|].
  assert (F : forall l' s, fold_left (fun s y => add s (g x y)) l' s = fold_left (fun s y => add s (h x y)) l' s).
  { induction l' as [|y l' IH']; intros t; cbn; [reflexivity|]. rewrite E. apply IH'. }
  rewrite F. apply IH.
Qed.
Lemma bin_gives img out b nr nc (m : mem) : img <> out -> 0 <= b ->
  always_gives m (prange nr (bin_iter add ofZ img out b nc))
    (with_array m out (box2 (Z.of_nat nr) (Z.of_nat nc)) (fun i j _ => block_sum add ofZ b (fun x y => m (img, i * b + x, j * b + y, 0)))).
Proof.
  intros D Hb. apply rows_gives.
  - intros i j k B. unfold box2 in B. rewrite !andb_true_iff, !Z.leb_le, !Z.ltb_lt in B. lia.
  - intros i Hi. unfold bin_iter. cbv zeta. apply resp_for; [|constructor]. intros j k _ K. apply resp_pixel; [apply own_own | apply see_own | intros; apply see_other; exact D | exact K].
  - intros i j k Hi. unfold bin_iter. cbv zeta.
    set (val := fun j => block_sum add ofZ b (fun x y => m (img, i * b + x, j * b + y, 0))).
    apply (run_for (upto m out i val) _ nc 0 Done m (fun mf => mf (out, i, j, k) = if box2 (Z.of_nat nr) (Z.of_nat nc) i j k then val j else m (out, i, j, k))); [apply upto_0| |].
    + intros j' m' k' Q' Hj U H. apply run_pixel; [intros x y E; injection E; intros; contradiction | exact Hb|]. intros m'' A B. apply H.
      eapply upto_next; [lia | exact U | | exact B]. rewrite A. apply block_ext. intros x y. apply (upto_other _ _ _ _ _ _ _ _ _ _ U D).
    + intros m' U. cbn [run]. apply (upto_end _ _ _ val); [exact Hi | exact U].
Qed.

(** Image n of a stack filled row by row, element by element. *)
Definition before (i j i' j' : Z) (nc : Z) : Prop := 0 <= i' /\ 0 <= j' < nc /\ (i' < i \/ i' = i /\ j' < j).
Definition filled (m : mem) (out : nat) (n : Z) (nc : Z) (val : Z -> Z -> V) (i j : Z) (m' : mem) : Prop :=
  (forall i' j', before i j i' j' nc -> m' (out, n, i', j') = val i' j') /\ (forall a, (forall i' j', before i j i' j' nc -> a <> (out, n, i', j')) -> m' a = m a).
Lemma filled_0 m out n nc val : filled m out n nc val 0 0 m.
Proof. split; [unfold before; intros; lia | reflexivity]. Qed.
Lemma filled_next m out n nc val i j m' m'' : 0 <= i -> 0 <= j < nc -> filled m out n nc val i j m' -> m'' (out, n, i, j) = val i j ->
  (forall a, a <> (out, n, i, j) -> m'' a = m' a) -> filled m out n nc val i (j + 1) m''.
Proof.
  intros Hi Hj [A B] C D. split.
  - intros i' j' P. destruct (Z.eq_dec i' i) as [->|Ni]; [destruct (Z.eq_dec j' j) as [->|Nj]; [exact C|]|]; rewrite D by (intros E; injection E; lia); apply A; unfold before in *; lia.
  - intros a Ha. rewrite D by (apply Ha; unfold before; lia). apply B. intros i' j' P. apply Ha. unfold before in *. lia.
Qed.
Lemma filled_row m out n nc val i m' : 0 <= i -> filled m out n nc val i nc m' -> filled m out n nc val (i + 1) 0 m'.
Proof.
  intros Hi [A B]. split.
  - intros i' j' P. apply A. unfold before in *. lia.
  - intros a Ha. apply B. intros i' j' P. apply Ha. unfold before in *. lia.
Qed.
Lemma filled_other m out n nc val i j m' b r c d : filled m out n nc val i j m' -> b <> out -> m' (b, r, c, d) = m (b, r, c, d).
Proof. intros [_ B] N. apply B. intros i' j' _ E. injection E. intros. contradiction. Qed.
Lemma filled_end m out n nn nr nc val m' : 0 <= n < nn -> filled m out n nc val nr 0 m' -> forall i j, m' (out, n, i, j) = if box3 nn nr nc n i j then val i j else m (out, n, i, j).
Proof.
  intros Hn [A B] i j. destruct (box3 nn nr nc n i j) eqn:E; unfold box3 in E.
  - rewrite !andb_true_iff, !Z.leb_le, !Z.ltb_lt in E. apply A. unfold before. lia.
  - apply B. intros i' j' P Q. injection Q as -> ->. rewrite <- not_true_iff_false in E. apply E. rewrite !andb_true_iff, !Z.leb_le, !Z.ltb_lt. unfold before in P. lia.
Qed.
(** Two nested loops over an image, each pass of which sets one element. *)
Lemma run_image (body : Z -> Z -> prg -> prg) m out n nr nc val (Q : mem -> Prop) :
  (forall i j m' k (Q' : mem -> Prop), 0 <= i < Z.of_nat nr -> 0 <= j < Z.of_nat nc -> filled m out n (Z.of_nat nc) val i j m' ->
     (forall m'', filled m out n (Z.of_nat nc) val i (j + 1) m'' -> Q' (run k m'')) -> Q' (run (body i j k) m')) ->
  (forall m', filled m out n (Z.of_nat nc) val (Z.of_nat nr) 0 m' -> Q m') ->
  Q (run (for_ nr 0 (fun i k => for_ nc 0 (fun j k => body i j k) k) Done) m).
Proof.
  intros B E. apply (run_for (fun i => filled m out n (Z.of_nat nc) val i 0)).
  - apply filled_0.
  - intros i m1 k1 Q1 Hi F1 H1. apply (run_for (filled m out n (Z.of_nat nc) val i)); [exact F1| |].
    + intros j m2 k2 Q2 Hj F2 H2. apply B; auto; lia.
    + intros m2 F2. apply H1. apply filled_row; [lia | exact F2].
  - exact E.
Qed.
Lemma bins_gives imgs out b nn nr nc (m : mem) : imgs <> out -> 0 <= b ->
  always_gives m (prange nn (bins_iter add ofZ imgs out b nr nc))
    (with_array m out (box3 (Z.of_nat nn) (Z.of_nat nr) (Z.of_nat nc)) (fun n i j => block_sum add ofZ b (fun x y => m (imgs, n, i * b + x, j * b + y)))).
Proof.
  intros D Hb. apply rows_gives.
  - intros i j k B. unfold box3 in B. rewrite !andb_true_iff, !Z.leb_le, !Z.ltb_lt in B. lia.
  - intros n Hn. unfold bins_iter. cbv zeta. apply resp_for; [|constructor]. intros i k _ K. apply resp_for; [|exact K]. intros j q _ Kq.
    apply resp_pixel; [apply own_own | apply see_own | intros; apply see_other; exact D | exact Kq].
  - intros n i j Hn. unfold bins_iter. cbv zeta.
    set (val := fun i j => block_sum add ofZ b (fun x y => m (imgs, n, i * b + x, j * b + y))).
    apply (run_image (fun i j k => bin_pixel add ofZ (out, n, i, j) (fun x y => (imgs, n, x + i * b, y + j * b)) (Z.to_nat b) k) m out n nr nc val
      (fun mf => mf (out, n, i, j) = if box3 (Z.of_nat nn) (Z.of_nat nr) (Z.of_nat nc) n i j then val i j else m (out, n, i, j))).
    + intros i' j' m' k Q' Hi' Hj' F H. apply run_pixel; [intros x y E; injection E; intros; contradiction | exact Hb|]. intros m'' A B. apply H.
      eapply filled_next; [lia | lia | exact F | | exact B]. rewrite A. apply block_ext. intros x y. rewrite (filled_other _ _ _ _ _ _ _ _ _ _ _ _ F D). rewrite (Z.add_comm x), (Z.add_comm y). reflexivity.
    + intros m' F. apply (filled_end m out n (Z.of_nat nn) (Z.of_nat nr) (Z.of_nat nc) val); [exact Hn | exact F].
Qed.

(** ** Sub-apertures *)
Lemma chop_gives phase mask out nn s cx cy (m : mem) : phase <> out -> mask <> Some out ->
  always_gives m (prange nn (chop_iter mul phase mask out s cx cy))
    (with_array m out (box3 (Z.of_nat nn) (Z.of_nat s) (Z.of_nat s)) (fun n u v =>
       let p := m (phase, cx n + u, cy n + v, 0) in match mask with Some mk => mul p (m (mk, cx n + u, cy n + v, 0)) | None => p end)).
Proof.
  intros D M. apply rows_gives.
  - intros i j k B. unfold box3 in B. rewrite !andb_true_iff, !Z.leb_le, !Z.ltb_lt in B. lia.
  - intros n Hn. unfold chop_iter. cbv zeta. apply resp_for; [|constructor]. intros i k _ K. apply resp_for; [|exact K]. intros j q _ Kq.
    apply resp_read; [apply see_other; exact D|]. intros p. destruct mask as [mk|].
    + apply resp_read; [apply see_other; congruence|]. intros v. apply resp_write; [apply own_own | exact Kq].
    + apply resp_write; [apply own_own | exact Kq].
  - intros n i j Hn. unfold chop_iter. cbv zeta.
    set (val := fun u v => match mask with Some mk => mul (m (phase, cx n + u, cy n + v, 0)) (m (mk, cx n + u, cy n + v, 0)) | None => m (phase, cx n + u, cy n + v, 0) end).
    apply (run_image (fun u v k => Read (phase, cx n + u, cy n + v, 0) (fun p =>
        match mask with
        | Some mk => Read (mk, cx n + u, cy n + v, 0) (fun q => Write (out, n, u, v) (mul p q) k)
        | None => Write (out, n, u, v) p k
        end)) m out n s s val (fun mf => mf (out, n, i, j) = if box3 (Z.of_nat nn) (Z.of_nat s) (Z.of_nat s) n i j then val i j else m (out, n, i, j))).
    + intros u v m' k Q' Hu Hv F H. cbn [run].
      assert (G : forall w, w = val u v -> Q' (run k (upd m' (out, n, u, v) w))).
      { intros w ->. apply H. eapply filled_next; [lia | lia | exact F | apply upd_same|]. intros a Ha. apply upd_other. auto. }
      destruct mask as [mk|]; cbn [run]; apply G; unfold val; rewrite !(filled_other _ _ _ _ _ _ _ _ _ _ _ _ F) by (try exact D; congruence); reflexivity.
    + intros m' F. apply (filled_end m out n (Z.of_nat nn) (Z.of_nat s) (Z.of_nat s) val); [exact Hn | exact F].
Qed.
End K.

(** ** The shift in place *)
Section Shift.
Context {V : Type}.
Notation mem := (memory V).
Definition flip (h i : Z) : Z := if i <? h then i + h else i - h.
Definition rows2 (arr : nat) (h x : Z) (a : addr) : bool := let '(n, i, _, _) := a in Nat.eqb n arr && ((i =? x) || (i =? x + h)).
Definition moved (m : mem) (arr : nat) (h w x : Z) (y : Z) (m' : mem) : Prop :=
  forall a, m' a = let '(n, i, j, k) := a in
    if Nat.eqb n arr && ((i =? x) || (i =? x + h)) && (((0 <=? j) && (j <? y)) || ((w <=? j) && (j <? w + y))) && (k =? 0) then m (n, flip h i, flip w j, k) else m a.
Ltac blia := repeat match goal with
  | |- context [Nat.eqb ?x ?y] => destruct (Nat.eqb_spec x y)
  | |- context [?x =? ?y] => destruct (Z.eqb_spec x y)
  | |- context [?x <? ?y] => destruct (Z.ltb_spec x y)
  | |- context [?x <=? ?y] => destruct (Z.leb_spec x y)
  end; cbn [andb orb]; try lia.
Lemma moved_step m arr h w x y m' : 0 <= x < h -> 0 <= y < w -> moved m arr h w x y m' ->
  moved m arr h w x (y + 1) (upd (upd (upd (upd m' (arr, x, y, 0) (m' (arr, x + h, y + w, 0))) (arr, x + h, y + w, 0) (m' (arr, x, y, 0)))
     (arr, x + h, y, 0) (m' (arr, x, y + w, 0))) (arr, x, y + w, 0) (m' (arr, x + h, y, 0))).
Proof.
  intros Hx Hy U.
  assert (F : forall i j, (i = x \/ i = x + h) -> (j = y \/ j = y + w) -> m' (arr, i, j, 0) = m (arr, i, j, 0)).
  { intros i j Hi Hj. rewrite U. rewrite Nat.eqb_refl. blia; reflexivity. }
  rewrite !F by auto. intros [[[n i] j] k]. unfold upd, addr_eqb.
  destruct (Nat.eqb_spec arr n) as [<-|N]; cbn [andb].
  2:{ rewrite U. replace (Nat.eqb n arr) with false by (symmetry; apply Nat.eqb_neq; auto). reflexivity. }
  rewrite U. rewrite Nat.eqb_refl. cbn [andb]. destruct (Z.eqb_spec 0 k) as [<-|N]; [|rewrite !andb_false_r; replace (k =? 0) with false by (symmetry; apply Z.eqb_neq; auto); rewrite !andb_false_r; reflexivity].
  change (0 =? 0) with true. rewrite !andb_true_r. unfold flip.
  destruct (Z.eqb_spec x i) as [<-|Nx].
  - replace (x + h =? x) with false by (symmetry; apply Z.eqb_neq; lia). rewrite Z.eqb_refl. cbn [andb orb]. replace (x <? h) with true by (symmetry; apply Z.ltb_lt; lia).
    destruct (Z.eqb_spec (y + w) j) as [<-|N1]; [blia; f_equal; f_equal; f_equal; lia|]. destruct (Z.eqb_spec y j) as [<-|N2]; [blia; reflexivity|]. blia; reflexivity.
  - replace (i =? x) with false by (symmetry; apply Z.eqb_neq; auto). cbn [andb orb]. rewrite (Z.eqb_sym i). destruct (Z.eqb_spec (x + h) i) as [<-|Nh]; [|reflexivity]. cbn [andb orb].
    replace (x + h <? h) with false by (symmetry; apply Z.ltb_ge; lia). replace (x + h - h) with x by lia.
    destruct (Z.eqb_spec y j) as [<-|N2]; [blia; reflexivity|]. destruct (Z.eqb_spec (y + w) j) as [<-|N1]; [blia; f_equal; f_equal; f_equal; lia|]. blia; reflexivity.
Qed.
Lemma shift_gives arr n0 n1 (m : mem) : 0 <= n0 -> 0 <= n1 ->
  always_gives m (prange (Z.to_nat (n0 / 2)) (shift_iter arr n0 n1))
    (with_array m arr (box2 (2 * (n0 / 2)) (2 * (n1 / 2))) (fun i j _ => m (arr, flip (n0 / 2) i, flip (n1 / 2) j, 0))).
Proof.
  intros H0 H1. set (h := n0 / 2). set (w := n1 / 2). assert (Hh : 0 <= h) by (apply Z.div_pos; lia). assert (Hw : 0 <= w) by (apply Z.div_pos; lia).
  apply (prange_gives _ _ (rows2 arr h) (rows2 arr h)); rewrite ?Z2Nat.id by exact Hh.
  - intros x Hx. unfold shift_iter. fold h w. cbv zeta. apply resp_for; [|constructor]. intros y k _ K.
    assert (A : forall c, rows2 arr h x (arr, x, c, 0) = true) by (intros; cbn; rewrite Nat.eqb_refl, Z.eqb_refl; reflexivity).
    assert (B : forall c, rows2 arr h x (arr, x + h, c, 0) = true) by (intros; cbn; rewrite Nat.eqb_refl, Z.eqb_refl, orb_true_r; reflexivity).
    repeat first [apply resp_read; [first [apply A | apply B]|intro] | apply resp_write; [first [apply A | apply B]|]]. exact K.
  - intros x x' [[[n i] j] k] Hx Hx' N R. cbn in *. rewrite andb_true_iff, orb_true_iff, !Z.eqb_eq in R. destruct R as [-> R].
    replace (i =? x') with false by (symmetry; apply Z.eqb_neq; lia). replace (i =? x' + h) with false by (symmetry; apply Z.eqb_neq; lia). auto.
  - intros x a Hx R.
    apply (run_for (moved m arr h w x) _ (Z.to_nat w) 0 Done m (fun mf => mf a = with_array m arr (box2 (2 * h) (2 * w)) (fun i j _ => m (arr, flip h i, flip w j, 0)) a)).
    + intros [[[n i] j] k]. blia; rewrite ?andb_false_r; reflexivity.
    + rewrite Z2Nat.id by exact Hw. intros y m' k Q' Hy U H. fold h w. cbn [run].
      match goal with |- Q' (run k ?M) => assert (E : moved m arr h w x (y + 1) M) end; [|exact (H _ E)].
      pose proof (moved_step m arr h w x y m' Hx ltac:(lia) U) as P. intros b. rewrite <- (P b).
      rewrite !(upd_other _ _ (arr, x + h, y, 0)), !(upd_other _ _ (arr, x, y + w, 0)) by (intros E; injection E; lia). reflexivity.
    + rewrite Z2Nat.id by exact Hw. intros m' U. cbn [run]. rewrite U. destruct a as [[[n i] j] k]. cbn in R. rewrite andb_true_iff, orb_true_iff, Nat.eqb_eq, !Z.eqb_eq in R. destruct R as [-> R].
      unfold with_array, box2. rewrite Nat.eqb_refl. cbn [andb]. replace ((i =? x) || (i =? x + h)) with true by (symmetry; rewrite orb_true_iff, !Z.eqb_eq; exact R).
      replace ((0 <=? i) && (i <? 2 * h)) with true by (symmetry; rewrite andb_true_iff, Z.leb_le, Z.ltb_lt; lia). cbn [andb].
      replace ((0 <=? j) && (j <? 0 + w) || (w <=? j) && (j <? w + (0 + w))) with ((0 <=? j) && (j <? 2 * w)) by blia; try reflexivity.
      destruct (Z.eqb_spec k 0) as [->|]; [reflexivity | rewrite !andb_false_r; reflexivity].
  - intros [[[n i] j] k] O. unfold with_array, box2. destruct (Nat.eqb_spec n arr) as [->|]; [|reflexivity]. cbn [andb].
    destruct ((0 <=? i) && (i <? 2 * h) && (0 <=? j) && (j <? 2 * w) && (k =? 0)) eqn:E; [|reflexivity]. rewrite !andb_true_iff, !Z.leb_le, !Z.ltb_lt in E.
    exfalso. destruct (Z.lt_ge_cases i h).
    + specialize (O i ltac:(lia)). cbn in O. rewrite Nat.eqb_refl, Z.eqb_refl in O. discriminate.
    + specialize (O (i - h) ltac:(lia)). cbn in O. rewrite Nat.eqb_refl in O. replace (i - h + h) with i in O by lia. rewrite Z.eqb_refl, orb_true_r in O. discriminate.
Qed.
End Shift.

(** Exact rationals [Qc] (canonical, so Leibniz equality) stand for Python floats.
    Conversions, integer parts, finite sums over index ranges and lists. *)
From Coq Require Export QArith Qcanon Lqa.
From Verif.Base Require Export Py PyFacts.
Close Scope Q_scope.
Open Scope Z_scope.

Definition qz (z : Z) : Qc := Q2Qc (inject_Z z).
(** the rational n/d as a Qc *)
Definition qfrac (n : Z) (d : positive) : Qc := Q2Qc (Qmake n d).

(** Python int(x), round(x), numpy.floor, numpy.ceil on an exact rational. *)
Definition qc_int (x : Qc) : Z := trunc_div (Qnum x) (Zpos (Qden x)).
Definition qc_round (x : Qc) : Z := round_div (Qnum x) (Zpos (Qden x)).
Definition qc_floor (x : Qc) : Z := Qnum x / Zpos (Qden x).
Definition qc_ceil (x : Qc) : Z := ceil_div (Qnum x) (Zpos (Qden x)).

Definition qc_abs (x : Qc) : Qc := if Qclt_le_dec x 0 then (- x)%Qc else x.
Definition qc_max (x y : Qc) : Qc := if Qclt_le_dec x y then y else x.
Definition qc_min (x y : Qc) : Qc := if Qclt_le_dec x y then x else y.
Definition qc_ltb (x y : Qc) : bool := if Qclt_le_dec x y then true else false.
Definition qc_leb (x y : Qc) : bool := negb (qc_ltb y x).
Definition qc_eqb (x y : Qc) : bool := if Qc_eq_dec x y then true else false.

(** sum of f(0) ... f(n-1) *)
Fixpoint sumn (n : nat) (f : Z -> Qc) : Qc :=
  match n with
  | O => 0%Qc
  | S m => (sumn m f + f (Z.of_nat m))%Qc
  end.
Definition zsum (n : Z) (f : Z -> Qc) : Qc := sumn (Z.to_nat n) f.
(** sum of a list *)
Definition lsum (l : list Qc) : Qc := fold_right Qcplus 0%Qc l.

(** ** Bridging Qc to Q for lra *)
Lemma this_add x y : (this (x + y)%Qc == this x + this y)%Q.
Proof. apply Qred_correct. Qed.
Lemma this_mul x y : (this (x * y)%Qc == this x * this y)%Q.
Proof. apply Qred_correct. Qed.
Lemma this_opp x : (this (- x)%Qc == - this x)%Q.
Proof. apply Qred_correct. Qed.
Lemma this_sub x y : (this (x - y)%Qc == this x - this y)%Q.
Proof. unfold Qcminus. rewrite this_add, this_opp. reflexivity. Qed.
Lemma this_Q2Qc q : (this (Q2Qc q) == q)%Q.
Proof. apply Qred_correct. Qed.
Lemma this_qz z : (this (qz z) == inject_Z z)%Q.
Proof. apply Qred_correct. Qed.
Lemma this_0 : (this 0%Qc == 0)%Q.
Proof. reflexivity. Qed.
Lemma this_1 : (this 1%Qc == 1)%Q.
Proof. reflexivity. Qed.
Lemma Qc_eq_this x y : x = y <-> (this x == this y)%Q.
Proof. split; [intros ->; reflexivity | apply Qc_is_canon]. Qed.
Lemma Qc_neq_this x y : x <> y -> ~ (this x == this y)%Q.
Proof. intros H E. apply H. now apply Qc_is_canon. Qed.

Ltac qc_push :=
  repeat (rewrite ?this_add, ?this_mul, ?this_sub, ?this_opp, ?this_qz, ?this_Q2Qc, ?this_0, ?this_1 in * ).

Ltac qc_unfold :=
  repeat match goal with
  | H : @eq Qc ?a ?b |- _ => apply (proj1 (Qc_eq_this a b)) in H
  | H : ~ (@eq Qc ?a ?b) |- _ => apply (Qc_neq_this a b) in H
  end;
  try match goal with
  | |- @eq Qc ?a ?b => apply (proj2 (Qc_eq_this a b))
  | |- ~ (@eq Qc ?a ?b) => let H := fresh in intro H; apply (proj1 (Qc_eq_this a b)) in H
  end;
  unfold Qcle, Qclt in *.

(** linear / nonlinear arithmetic over Qc *)
Ltac qclra := qc_unfold; qc_push; lra.
Ltac qcnra := qc_unfold; qc_push; nra.

Lemma qc_ltb_true x y : qc_ltb x y = true <-> (x < y)%Qc.
Proof. unfold qc_ltb. destruct (Qclt_le_dec x y) as [H|H]; split; intros G; auto; try discriminate.
  exfalso. qclra. Qed.
Lemma qc_ltb_false x y : qc_ltb x y = false <-> (y <= x)%Qc.
Proof. unfold qc_ltb. destruct (Qclt_le_dec x y) as [H|H]; split; intros G; auto; try discriminate.
  exfalso. qclra. Qed.
Lemma qc_ltb_spec x y : BoolSpec (x < y)%Qc (y <= x)%Qc (qc_ltb x y).
Proof. destruct (qc_ltb x y) eqn:E; constructor; [now apply qc_ltb_true | now apply qc_ltb_false]. Qed.
Lemma qc_leb_true x y : qc_leb x y = true <-> (x <= y)%Qc.
Proof. unfold qc_leb. rewrite negb_true_iff. apply qc_ltb_false. Qed.
Lemma qc_leb_false x y : qc_leb x y = false <-> (y < x)%Qc.
Proof. unfold qc_leb. rewrite negb_false_iff. apply qc_ltb_true. Qed.
Lemma qc_leb_spec x y : BoolSpec (x <= y)%Qc (y < x)%Qc (qc_leb x y).
Proof. destruct (qc_leb x y) eqn:E; constructor; [now apply qc_leb_true | now apply qc_leb_false]. Qed.
Lemma qc_eqb_true x y : qc_eqb x y = true <-> x = y.
Proof. unfold qc_eqb. destruct (Qc_eq_dec x y); split; intros; auto; discriminate. Qed.

Lemma qc_max_l x y : (x <= qc_max x y)%Qc.
Proof. unfold qc_max. destruct (Qclt_le_dec x y); qclra. Qed.
Lemma qc_max_r x y : (y <= qc_max x y)%Qc.
Proof. unfold qc_max. destruct (Qclt_le_dec x y); qclra. Qed.
Lemma qc_abs_nonneg x : (0 <= qc_abs x)%Qc.
Proof. unfold qc_abs. destruct (Qclt_le_dec x 0); qclra. Qed.
Lemma qc_abs_ge x : (x <= qc_abs x)%Qc /\ (- x <= qc_abs x)%Qc.
Proof. unfold qc_abs. destruct (Qclt_le_dec x 0); split; qclra. Qed.
Lemma qc_abs_pos x : (0 <= x)%Qc -> qc_abs x = x.
Proof. intros H. unfold qc_abs. destruct (Qclt_le_dec x 0); auto. exfalso; qclra. Qed.
Lemma qc_abs_opp x : qc_abs (- x) = qc_abs x.
Proof. unfold qc_abs. destruct (Qclt_le_dec (- x) 0), (Qclt_le_dec x 0); qclra. Qed.

(** ** integer parts *)
Lemma qz_add a b : qz (a + b) = (qz a + qz b)%Qc.
Proof. apply Qc_is_canon. qc_push. rewrite inject_Z_plus. reflexivity. Qed.
Lemma qz_sub a b : qz (a - b) = (qz a - qz b)%Qc.
Proof. apply Qc_is_canon. qc_push. unfold Z.sub. rewrite inject_Z_plus, inject_Z_opp. reflexivity. Qed.
Lemma qz_mul a b : qz (a * b) = (qz a * qz b)%Qc.
Proof. apply Qc_is_canon. qc_push. rewrite inject_Z_mult. reflexivity. Qed.
Lemma qz_opp a : qz (- a) = (- qz a)%Qc.
Proof. apply Qc_is_canon. qc_push. rewrite inject_Z_opp. reflexivity. Qed.
Lemma qz_0 : qz 0 = 0%Qc.
Proof. reflexivity. Qed.
Lemma qz_1 : qz 1 = 1%Qc.
Proof. reflexivity. Qed.
Lemma qz_le a b : (qz a <= qz b)%Qc <-> a <= b.
Proof. unfold Qcle. rewrite !this_qz, <- Zle_Qle. reflexivity. Qed.
Lemma qz_lt a b : (qz a < qz b)%Qc <-> a < b.
Proof. unfold Qclt. rewrite !this_qz, <- Zlt_Qlt. reflexivity. Qed.
Lemma qz_inj a b : qz a = qz b -> a = b.
Proof. intros H. apply Qc_eq_this in H. rewrite !this_qz in H. unfold Qeq in H; simpl in H. lia. Qed.
Lemma qz_neq0 a : a <> 0 -> qz a <> 0%Qc.
Proof. intros H E. apply H. apply qz_inj. exact E. Qed.

Lemma qc_floor_spec x : (qz (qc_floor x) <= x)%Qc /\ (x < qz (qc_floor x) + 1)%Qc.
Proof.
  unfold qc_floor. destruct x as [[n d] c]. unfold Qcle, Qclt. simpl (this _) at 2 3.
  rewrite ?this_add, ?this_qz, ?this_1. unfold Qle, Qlt, inject_Z; simpl.
  split; [zlia|]. rewrite ?Pos.mul_1_r. zlia.
Qed.

Lemma qc_floor_unique x k : (qz k <= x)%Qc -> (x < qz k + 1)%Qc -> qc_floor x = k.
Proof.
  intros H1 H2. destruct (qc_floor_spec x) as [F1 F2].
  assert (qc_floor x < k + 1) by (apply qz_lt; rewrite qz_add, qz_1; qclra).
  assert (k < qc_floor x + 1) by (apply qz_lt; rewrite qz_add, qz_1; qclra). lia.
Qed.

Lemma qc_floor_qz k : qc_floor (qz k) = k.
Proof. apply qc_floor_unique; [|]; qclra. Qed.

Lemma qc_floor_add_z x k : qc_floor (x + qz k) = qc_floor x + k.
Proof.
  destruct (qc_floor_spec x). apply qc_floor_unique; rewrite qz_add; qclra.
Qed.

Lemma qc_floor_mono x y : (x <= y)%Qc -> qc_floor x <= qc_floor y.
Proof.
  intros H. destruct (qc_floor_spec x), (qc_floor_spec y).
  assert (qc_floor x < qc_floor y + 1) by (apply qz_lt; rewrite qz_add, qz_1; qclra). lia.
Qed.

Lemma qc_int_nonneg x : (0 <= x)%Qc -> qc_int x = qc_floor x.
Proof.
  intros H. unfold qc_int, qc_floor, trunc_div. apply Z.quot_div_nonneg; [|lia].
  destruct x as [[n d] c]. unfold Qcle, Qle in H; simpl in *. lia.
Qed.

Lemma qc_int_neg x : (x <= 0)%Qc -> qc_int x = - qc_floor (- x).
Proof.
  intros H. unfold qc_int, qc_floor, trunc_div.
  assert (E : Qnum (this (- x)%Qc) = - Qnum (this x) /\ Qden (this (- x)%Qc) = Qden (this x)).
  { assert (E : this (- x)%Qc = (- this x)%Q).
    { change (this (- x)%Qc) with (Qred (- this x)). rewrite Qred_opp.
      now rewrite (canon x). }
    rewrite E. split; reflexivity. }
  destruct E as [-> ->].
  assert (Hn : Qnum (this x) <= 0) by (destruct x as [[n d] c]; unfold Qcle, Qle in H; simpl in *; lia).
  rewrite <- (Z.opp_involutive (Qnum (this x))) at 1.
  rewrite Z.quot_opp_l by lia. rewrite Z.quot_div_nonneg by lia. reflexivity.
Qed.

Lemma qc_int_qz k : qc_int (qz k) = k.
Proof.
  destruct (Z_le_gt_dec 0 k) as [H|H].
  - rewrite qc_int_nonneg, qc_floor_qz; auto. apply (qz_le 0 k); lia.
  - rewrite qc_int_neg, <- qz_opp, qc_floor_qz; [lia|]. apply (qz_le k 0); lia.
Qed.

Lemma this_qz_eq k : this (qz k) = inject_Z k.
Proof. unfold qz, Q2Qc; cbn [this]. unfold inject_Z.
  pose proof (Qred_identity (k # 1)) as H. apply H. simpl. apply Z.gcd_1_r. Qed.

Lemma qc_round_qz k : qc_round (qz k) = k.
Proof. unfold qc_round. rewrite this_qz_eq. apply round_div_1. Qed.

Lemma qc_round_near x : (qz (qc_round x) - x <= Q2Qc (1#2))%Qc /\ (x - qz (qc_round x) <= Q2Qc (1#2))%Qc.
Proof.
  unfold qc_round. destruct x as [[n d] c].
  pose proof (round_div_near n (Zpos d) ltac:(lia)) as H.
  unfold Qcle. rewrite !this_sub, !this_qz, !this_Q2Qc. simpl this. simpl Qnum. simpl Qden.
  set (k := round_div n (Zpos d)) in *. clearbody k.
  unfold Qle, Qminus, Qplus, Qopp, inject_Z; simpl. split; nia.
Qed.

Lemma qc_ceil_spec x : (x <= qz (qc_ceil x))%Qc /\ (qz (qc_ceil x) < x + 1)%Qc.
Proof.
  unfold qc_ceil. destruct x as [[n d] c].
  pose proof (ceil_div_spec n (Zpos d) ltac:(lia)) as H.
  unfold Qcle, Qclt. rewrite ?this_add, ?this_qz, ?this_1. simpl this. simpl Qnum. simpl Qden.
  set (k := ceil_div n (Zpos d)) in *. clearbody k.
  unfold Qle, Qlt, Qplus, inject_Z; simpl. split; nia.
Qed.

(** ** sums *)
Lemma sumn_ext n f g : (forall i, 0 <= i < Z.of_nat n -> f i = g i) -> sumn n f = sumn n g.
Proof.
  induction n as [|n IH]; intros H; simpl; auto.
  rewrite IH by (intros; apply H; lia). rewrite H by lia. reflexivity.
Qed.
Lemma sumn_add n f g : sumn n (fun i => f i + g i)%Qc = (sumn n f + sumn n g)%Qc.
Proof. induction n as [|n IH]; simpl; [ring|rewrite IH; ring]. Qed.
Lemma sumn_sub n f g : sumn n (fun i => f i - g i)%Qc = (sumn n f - sumn n g)%Qc.
Proof. induction n as [|n IH]; simpl; [ring|rewrite IH; ring]. Qed.
Lemma sumn_scale n c f : sumn n (fun i => c * f i)%Qc = (c * sumn n f)%Qc.
Proof. induction n as [|n IH]; simpl; [ring|rewrite IH; ring]. Qed.
Lemma sumn_const n c : sumn n (fun _ => c) = (qz (Z.of_nat n) * c)%Qc.
Proof.
  induction n as [|n IH]; [simpl; rewrite qz_0; ring|].
  simpl sumn. rewrite IH. rewrite Nat2Z.inj_succ. unfold Z.succ. rewrite qz_add, qz_1. ring.
Qed.
Lemma sumn_zero n : sumn n (fun _ => 0%Qc) = 0%Qc.
Proof. induction n as [|n IH]; simpl; [auto|rewrite IH; ring]. Qed.
Lemma sumn_split n m f : sumn (n + m) f = (sumn n f + sumn m (fun i => f (Z.of_nat n + i)%Z))%Qc.
Proof.
  induction m as [|m IH]; simpl.
  - rewrite Nat.add_0_r. ring.
  - rewrite Nat.add_succ_r. simpl. rewrite IH.
    rewrite Nat2Z.inj_add. ring.
Qed.
Lemma sumn_swap n m (f : Z -> Z -> Qc) :
  sumn n (fun i => sumn m (fun j => f i j)) = sumn m (fun j => sumn n (fun i => f i j)).
Proof.
  induction n as [|n IH]; simpl.
  - now rewrite sumn_zero.
  - rewrite IH, <- sumn_add. reflexivity.
Qed.
Lemma sumn_nonneg n f : (forall i, 0 <= i < Z.of_nat n -> (0 <= f i)%Qc) -> (0 <= sumn n f)%Qc.
Proof.
  induction n as [|n IH]; intros H; simpl; [qclra|].
  assert (0 <= sumn n f)%Qc by (apply IH; intros; apply H; lia).
  assert (0 <= f (Z.of_nat n))%Qc by (apply H; lia). qclra.
Qed.
Lemma sumn_le n f g : (forall i, 0 <= i < Z.of_nat n -> (f i <= g i)%Qc) -> (sumn n f <= sumn n g)%Qc.
Proof.
  intros H. assert (0 <= sumn n (fun i => g i - f i))%Qc.
  { apply sumn_nonneg. intros i Hi. specialize (H i Hi). qclra. }
  rewrite sumn_sub in H0. qclra.
Qed.

Lemma zsum_ext n f g : (forall i, 0 <= i < n -> f i = g i) -> zsum n f = zsum n g.
Proof. intros H. apply sumn_ext. intros i Hi. apply H. lia. Qed.
Lemma zsum_add n f g : zsum n (fun i => f i + g i)%Qc = (zsum n f + zsum n g)%Qc.
Proof. apply sumn_add. Qed.
Lemma zsum_sub n f g : zsum n (fun i => f i - g i)%Qc = (zsum n f - zsum n g)%Qc.
Proof. apply sumn_sub. Qed.
Lemma zsum_scale n c f : zsum n (fun i => c * f i)%Qc = (c * zsum n f)%Qc.
Proof. apply sumn_scale. Qed.
Lemma zsum_scale_r n c f : zsum n (fun i => f i * c)%Qc = (zsum n f * c)%Qc.
Proof. rewrite (zsum_ext n _ (fun i => c * f i)%Qc) by (intros; ring). rewrite zsum_scale. ring. Qed.
Lemma zsum_const n c : 0 <= n -> zsum n (fun _ => c) = (qz n * c)%Qc.
Proof. intros H. unfold zsum. rewrite sumn_const, Z2Nat.id; auto. Qed.
Lemma zsum_zero n : zsum n (fun _ => 0%Qc) = 0%Qc.
Proof. apply sumn_zero. Qed.
Lemma zsum_zero_ext n f : (forall i, 0 <= i < n -> f i = 0%Qc) -> zsum n f = 0%Qc.
Proof. intros H. rewrite (zsum_ext n f (fun _ => 0%Qc)); auto. apply zsum_zero. Qed.
Lemma zsum_split n m f : 0 <= n -> 0 <= m ->
  zsum (n + m) f = (zsum n f + zsum m (fun i => f (n + i)%Z))%Qc.
Proof.
  intros Hn Hm. unfold zsum. rewrite Z2Nat.inj_add by lia. rewrite sumn_split.
  rewrite Z2Nat.id by lia. reflexivity.
Qed.
Lemma zsum_succ n f : 0 <= n -> zsum (n + 1) f = (zsum n f + f n)%Qc.
Proof.
  intros Hn. rewrite zsum_split by lia.
  replace (zsum 1 (fun i => f (n + i)%Z)) with (f n); [reflexivity|].
  change (zsum 1 (fun i => f (n + i)%Z)) with (0 + f (n + 0)%Z)%Qc. rewrite Z.add_0_r. ring.
Qed.
Lemma zsum_nil n f : n <= 0 -> zsum n f = 0%Qc.
Proof. intros H. unfold zsum. replace (Z.to_nat n) with O by lia. reflexivity. Qed.
Lemma zsum_swap n m (f : Z -> Z -> Qc) :
  zsum n (fun i => zsum m (fun j => f i j)) = zsum m (fun j => zsum n (fun i => f i j)).
Proof. apply sumn_swap. Qed.
Lemma zsum_nonneg n f : (forall i, 0 <= i < n -> (0 <= f i)%Qc) -> (0 <= zsum n f)%Qc.
Proof. intros H. apply sumn_nonneg. intros i Hi. apply H. lia. Qed.
Lemma zsum_le n f g : (forall i, 0 <= i < n -> (f i <= g i)%Qc) -> (zsum n f <= zsum n g)%Qc.
Proof. intros H. apply sumn_le. intros i Hi. apply H. lia. Qed.

(** induction principle on non-negative integers *)
Lemma Znonneg_ind (P : Z -> Prop) :
  P 0 -> (forall n, 0 <= n -> P n -> P (n + 1)) -> forall n, 0 <= n -> P n.
Proof. intros H0 HS n Hn. apply (natlike_ind P); auto. Qed.

(** only index k contributes *)
Lemma zsum_single n k f : 0 <= k < n -> (forall i, 0 <= i < n -> i <> k -> f i = 0%Qc) ->
  zsum n f = f k.
Proof.
  intros Hk H. replace n with (k + (1 + (n - k - 1))) by lia.
  rewrite zsum_split by lia. rewrite zsum_zero_ext by (intros; apply H; lia).
  rewrite zsum_split by lia. rewrite (zsum_zero_ext (n - k - 1)) by (intros; apply H; lia).
  unfold zsum; simpl. replace (k + 0) with k by lia. ring.
Qed.

(** blocks: sum over n*k indices = sum over n blocks of k *)
Lemma zsum_blocks n k f : 0 <= n -> 0 <= k ->
  zsum (n * k) f = zsum n (fun i => zsum k (fun j => f (i * k + j))).
Proof.
  intros Hn Hk. revert n Hn. apply Znonneg_ind.
  - reflexivity.
  - intros n Hn IH. rewrite zsum_succ by lia. rewrite <- IH.
    replace ((n + 1) * k) with (n * k + k) by lia. rewrite zsum_split by nia. reflexivity.
Qed.

(** reversal *)
Lemma zsum_rev n f : zsum n (fun i => f (n - 1 - i)) = zsum n f.
Proof.
  destruct (Z_lt_le_dec n 0) as [H|Hn].
  - rewrite !zsum_nil by lia; auto.
  - revert n Hn f. apply (Znonneg_ind (fun n => forall f, zsum n (fun i => f (n - 1 - i)) = zsum n f)).
    + reflexivity.
    + intros n Hn IH f. rewrite (zsum_succ n f) by lia.
      replace (n + 1) with (1 + n) at 1 by lia. rewrite zsum_split by lia.
      rewrite (zsum_ext n _ (fun i => f (n - 1 - i))).
      * rewrite IH. unfold zsum at 1. simpl. replace (n + 1 - 1 - 0) with n by lia. ring.
      * intros i Hi. f_equal. lia.
Qed.

(** cyclic shift of the summation index *)
Lemma zsum_cyclic n s f : 0 < n -> zsum n (fun i => f ((i + s) mod n)) = zsum n f.
Proof.
  intros Hn. set (t := s mod n). assert (Ht : 0 <= t < n) by (apply Z.mod_pos_bound; lia).
  rewrite (zsum_ext n _ (fun i => f ((i + t) mod n))).
  2: { intros i Hi. f_equal. unfold t. rewrite Zplus_mod_idemp_r. reflexivity. }
  assert (E1 : forall g, zsum n g = (zsum (n - t) g + zsum t (fun i => g (n - t + i)%Z))%Qc).
  { intros g. rewrite <- zsum_split by lia. f_equal. lia. }
  assert (E2 : forall g, zsum n g = (zsum t g + zsum (n - t) (fun i => g (t + i)%Z))%Qc).
  { intros g. rewrite <- zsum_split by lia. f_equal. lia. }
  rewrite E1, (E2 f).
  rewrite (zsum_ext (n - t) (fun i => f ((i + t) mod n)) (fun i => f (t + i))).
  2: { intros i Hi. f_equal. rewrite Z.mod_small; lia. }
  rewrite (zsum_ext t (fun i => f ((n - t + i + t) mod n)) f).
  2: { intros i Hi. f_equal. replace (n - t + i + t) with (i + 1 * n) by lia.
       rewrite Z.mod_add by lia. apply Z.mod_small; lia. }
  ring.
Qed.

Lemma lsum_app l1 l2 : lsum (l1 ++ l2) = (lsum l1 + lsum l2)%Qc.
Proof. induction l1 as [|x l1 IH]; simpl; [ring|rewrite IH; ring]. Qed.
Lemma lsum_map_add {A} (l : list A) f g :
  lsum (map (fun x => f x + g x)%Qc l) = (lsum (map f l) + lsum (map g l))%Qc.
Proof. induction l as [|x l IH]; simpl; [ring|rewrite IH; ring]. Qed.
Lemma lsum_map_scale {A} (l : list A) c f :
  lsum (map (fun x => c * f x)%Qc l) = (c * lsum (map f l))%Qc.
Proof. induction l as [|x l IH]; simpl; [ring|rewrite IH; ring]. Qed.
Lemma lsum_repeat n c : lsum (repeat c n) = (qz (Z.of_nat n) * c)%Qc.
Proof.
  induction n as [|n IH]; [simpl; rewrite qz_0; ring|].
  change (lsum (repeat c (S n))) with (c + lsum (repeat c n))%Qc. rewrite IH, Nat2Z.inj_succ. unfold Z.succ.
  rewrite qz_add, qz_1. ring.
Qed.

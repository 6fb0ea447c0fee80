(** Lemmas about Base/Py.v. *)
From Verif.Base Require Import Py.

Ltac zlia := Z.to_euclidean_division_equations; lia.

Lemma round_div_int n d : 0 < d -> n mod d = 0 -> round_div n d = n / d.
Proof.
  intros Hd Hm. unfold round_div. rewrite Hm.
  destruct (Z.ltb_spec (2 * 0) d); lia.
Qed.

Lemma round_div_mul k d : 0 < d -> round_div (k * d) d = k.
Proof.
  intros Hd. rewrite round_div_int; [|lia|].
  - apply Z.div_mul; lia.
  - apply Z.mod_mul; lia.
Qed.

Lemma round_div_1 k : round_div k 1 = k.
Proof. rewrite <- (Z.mul_1_r k) at 1. apply round_div_mul; lia. Qed.

(** |round(x) - x| <= 1/2 *)
Lemma round_div_near n d : 0 < d -> - d <= 2 * (d * round_div n d - n) <= d.
Proof.
  intros Hd. unfold round_div.
  pose proof (Z.div_mod n d ltac:(lia)). pose proof (Z.mod_pos_bound n d Hd).
  destruct (Z.ltb_spec (2 * (n mod d)) d); [nia|].
  destruct (Z.ltb_spec d (2 * (n mod d))); [nia|].
  destruct (Z.even (n / d)); nia.
Qed.

Lemma round_div_tie_even n d :
  0 < d -> 2 * (n mod d) = d -> Z.even (round_div n d) = true.
Proof.
  intros Hd Ht. unfold round_div. rewrite Ht.
  rewrite Z.ltb_irrefl. destruct (Z.even (n / d)) eqn:E; [exact E|].
  rewrite Z.even_add, E. reflexivity.
Qed.

Lemma round_div_nonneg n d : 0 < d -> 0 <= n -> 0 <= round_div n d.
Proof. intros Hd Hn. pose proof (round_div_near n d Hd). nia. Qed.

Lemma round_div_mono n m d : 0 < d -> n <= m -> round_div n d <= round_div m d.
Proof.
  intros Hd H. unfold round_div.
  pose proof (Z.div_mod n d ltac:(lia)). pose proof (Z.mod_pos_bound n d Hd).
  pose proof (Z.div_mod m d ltac:(lia)). pose proof (Z.mod_pos_bound m d Hd).
  pose proof (Z.div_le_mono n m d Hd H) as Hq.
  destruct (Z.eq_dec (n / d) (m / d)) as [E|E].
  - assert (n mod d <= m mod d) by nia. rewrite E.
    destruct (Z.ltb_spec (2 * (n mod d)) d); destruct (Z.ltb_spec (2 * (m mod d)) d);
    destruct (Z.ltb_spec d (2 * (n mod d))); destruct (Z.ltb_spec d (2 * (m mod d)));
    destruct (Z.even (m / d)); lia.
  - assert (n / d + 1 <= m / d) by lia.
    destruct (Z.ltb_spec (2 * (n mod d)) d); destruct (Z.ltb_spec (2 * (m mod d)) d);
    destruct (Z.ltb_spec d (2 * (n mod d))); destruct (Z.ltb_spec d (2 * (m mod d)));
    destruct (Z.even (m / d)); destruct (Z.even (n / d)); lia.
Qed.

Lemma ceil_div_spec n d : 0 < d -> n <= d * ceil_div n d < n + d.
Proof. intros Hd. unfold ceil_div. zlia. Qed.

Lemma norm_ix_in n i : 0 <= i <= n -> norm_ix n i = i.
Proof. intros H. unfold norm_ix. destruct (Z.ltb_spec i 0); lia. Qed.

Lemma norm_ix_neg n i : - n <= i < 0 -> norm_ix n i = n + i.
Proof. intros H. unfold norm_ix. destruct (Z.ltb_spec i 0); lia. Qed.

Lemma norm_ix_range n i : 0 <= n -> 0 <= norm_ix n i <= n.
Proof. intros H. unfold norm_ix. destruct (Z.ltb_spec i 0); lia. Qed.

Lemma slice_len_in n a b : 0 <= a <= b -> b <= n -> slice_len n a b = b - a.
Proof. intros. unfold slice_len. rewrite !norm_ix_in by lia. lia. Qed.

Lemma upd_length {A} (l : list A) k v : length (upd l k v) = length l.
Proof. revert k; induction l as [|x l IH]; intros [|k]; simpl; auto. Qed.

Lemma upd_nth_same {A} (l : list A) k v d :
  (k < length l)%nat -> nth k (upd l k v) d = v.
Proof. revert k; induction l as [|x l IH]; intros [|k]; simpl; intros H; try lia; auto. apply IH; lia. Qed.

Lemma upd_nth_other {A} (l : list A) k j v d :
  j <> k -> nth j (upd l k v) d = nth j l d.
Proof.
  revert k j; induction l as [|x l IH]; intros [|k] [|j] H; simpl; try congruence; auto.
Qed.

Lemma upd_nth_error_same {A} (l : list A) k v :
  (k < length l)%nat -> nth_error (upd l k v) k = Some v.
Proof. revert k; induction l as [|x l IH]; intros [|k]; simpl; intros H; try lia; auto. apply IH; lia. Qed.

Lemma upd_nth_error_other {A} (l : list A) k j v :
  j <> k -> nth_error (upd l k v) j = nth_error l j.
Proof.
  revert k j; induction l as [|x l IH]; intros [|k] [|j] H; simpl; try congruence; auto.
Qed.

Lemma pyget_in {A} (l : list A) i a :
  0 <= i -> nth_error l (Z.to_nat i) = Some a -> pyget l i = Ok a.
Proof.
  intros Hi H. unfold pyget.
  assert ((Z.to_nat i < length l)%nat) by (apply nth_error_Some; congruence).
  destruct (Z.ltb_spec i 0); [lia|].
  destruct (Z.leb_spec 0 i); [|lia].
  destruct (Z.ltb_spec i (Z.of_nat (length l))); [|lia]. simpl. now rewrite H.
Qed.

Lemma splice_length {A} (l : list A) a v :
  (a + length v <= length l)%nat -> length (splice l a v) = length l.
Proof.
  intros H. unfold splice. rewrite !app_length, firstn_length, skipn_length. lia.
Qed.

Lemma pyslice_in {A} (l : list A) a n :
  0 <= a -> 0 <= n -> a + n <= Z.of_nat (length l) ->
  pyslice l a (a + n) = firstn (Z.to_nat n) (skipn (Z.to_nat a) l).
Proof.
  intros Ha Hn Hl. unfold pyslice. rewrite !norm_ix_in by lia.
  replace (a + n - a) with n by lia. reflexivity.
Qed.

Lemma pyslice_length {A} (l : list A) a b :
  Z.of_nat (length (pyslice l a b)) = slice_len (Z.of_nat (length l)) a b.
Proof.
  unfold pyslice, slice_len. rewrite firstn_length, skipn_length.
  pose proof (norm_ix_range (Z.of_nat (length l)) a ltac:(lia)).
  pose proof (norm_ix_range (Z.of_nat (length l)) b ltac:(lia)). lia.
Qed.

Lemma arr_eq_refl {A} (x : arr A) : arr_eq x x.
Proof. repeat split; auto. Qed.

Lemma arr_eq_sym {A} (x y : arr A) : arr_eq x y -> arr_eq y x.
Proof. intros (H1 & H2 & H3). repeat split; auto. intros. symmetry. apply H3; lia. Qed.

Lemma arr_eq_trans {A} (x y z : arr A) : arr_eq x y -> arr_eq y z -> arr_eq x z.
Proof.
  intros (H1 & H2 & H3) (G1 & G2 & G3). repeat split; try congruence.
  intros. rewrite H3 by lia. apply G3; lia.
Qed.

Lemma nth_error_ext {A} (l1 l2 : list A) :
  (forall k, nth_error l1 k = nth_error l2 k) -> l1 = l2.
Proof.
  revert l2; induction l1 as [|x l1 IH]; intros [|y l2] H; auto.
  - specialize (H O); discriminate.
  - specialize (H O); discriminate.
  - f_equal.
    + specialize (H O); simpl in H; congruence.
    + apply IH. intros k. apply (H (S k)).
Qed.

Lemma nth_error_firstn_lt {A} (l : list A) n k :
  (k < n)%nat -> nth_error (firstn n l) k = nth_error l k.
Proof.
  revert n k; induction l as [|x l IH]; intros [|n] [|k] H; simpl; try lia; auto. apply IH; lia.
Qed.

Lemma nth_error_skipn {A} (l : list A) n k :
  nth_error (skipn n l) k = nth_error l (n + k).
Proof. revert l; induction n as [|n IH]; intros [|x l]; simpl; auto. now destruct k. Qed.

(** Vectors (1-d float arrays) as lists of [Qc]; matrices as lists of rows. *)
From Verif.Base Require Export Py PyFacts Rat.

Definition vec := list Qc.

Fixpoint vmap2 (f : Qc -> Qc -> Qc) (a b : vec) : vec :=
  match a, b with
  | x :: a', y :: b' => f x y :: vmap2 f a' b'
  | _, _ => []
  end.
Definition vadd : vec -> vec -> vec := vmap2 Qcplus.
Definition vsub : vec -> vec -> vec := vmap2 Qcminus.
Definition vscale (c : Qc) (a : vec) : vec := map (fun x => c * x)%Qc a.
Definition vneg (a : vec) : vec := map (fun x => - x)%Qc a.
Definition vzero (n : nat) : vec := repeat 0%Qc n.
Definition dot (a b : vec) : Qc := lsum (vmap2 Qcmult a b).

(** Matrices: list of rows. *)
Definition mat := list vec.
Definition mvm (M : mat) (v : vec) : vec := map (fun row => dot row v) M.
(** the transpose of a matrix with [n] columns; column j is the list of j-th entries *)
Definition col (M : mat) (j : nat) : vec := map (fun r => nth j r 0%Qc) M.
Definition transpose (n : nat) (M : mat) : mat := map (col M) (seq 0 n).
Definition mmul (n : nat) (A B : mat) : mat := map (fun r => map (fun j => dot r (col B j)) (seq 0 n)) A.

Definition vmax_abs (a : vec) : Qc := fold_right (fun x m => qc_max (qc_abs x) m) 0%Qc a.

(** ** Facts *)
Lemma vmap2_length f a b : length a = length b -> length (vmap2 f a b) = length a.
Proof. revert b; induction a; intros [|]; simpl; intros; try discriminate; auto. Qed.
Lemma vadd_length a b : length a = length b -> length (vadd a b) = length a.
Proof. apply vmap2_length. Qed.
Lemma vsub_length a b : length a = length b -> length (vsub a b) = length a.
Proof. apply vmap2_length. Qed.
Lemma vscale_length c a : length (vscale c a) = length a.
Proof. apply map_length. Qed.
Lemma vneg_length a : length (vneg a) = length a.
Proof. apply map_length. Qed.
Lemma vzero_length n : length (vzero n) = n.
Proof. apply repeat_length. Qed.
Lemma mvm_length M v : length (mvm M v) = length M.
Proof. apply map_length. Qed.

Lemma vmap2_nth f a b k x y : nth_error a k = Some x -> nth_error b k = Some y ->
  nth_error (vmap2 f a b) k = Some (f x y).
Proof.
  revert b k; induction a as [|u a IH]; intros [|w b] [|k] Ha Hb; simpl in *; try discriminate.
  - congruence.
  - apply IH; auto.
Qed.

Lemma vmap2_nth0 f a b k : (k < length a)%nat -> length a = length b ->
  nth k (vmap2 f a b) 0%Qc = f (nth k a 0%Qc) (nth k b 0%Qc).
Proof.
  revert b k; induction a as [|u a IH]; intros [|w b] [|k] Hk E; simpl in *; try discriminate; try lia; auto.
  apply IH; lia.
Qed.

Lemma vadd_comm a b : vadd a b = vadd b a.
Proof. unfold vadd. revert b; induction a; intros [|]; simpl; auto. f_equal; [ring | apply IHa]. Qed.
Lemma vadd_assoc a b c : vadd a (vadd b c) = vadd (vadd a b) c.
Proof. unfold vadd. revert b c; induction a; intros [|] [|]; simpl; auto. f_equal; [ring | apply IHa]. Qed.
Lemma vadd_0_l n a : length a = n -> vadd (vzero n) a = a.
Proof. intros <-. unfold vadd. induction a; simpl; auto. f_equal; [ring|apply IHa]. Qed.
Lemma vadd_0_r n a : length a = n -> vadd a (vzero n) = a.
Proof. intros. rewrite vadd_comm. now apply vadd_0_l. Qed.
Lemma vscale_add c a b : vscale c (vadd a b) = vadd (vscale c a) (vscale c b).
Proof. unfold vadd. revert b; induction a; intros [|]; simpl; auto. f_equal; [ring | apply IHa]. Qed.
Lemma vscale_scale c d a : vscale c (vscale d a) = vscale (c * d) a.
Proof. induction a; simpl; auto. rewrite IHa. f_equal. ring. Qed.
Lemma vscale_1 a : vscale 1 a = a.
Proof. induction a; simpl; auto. rewrite IHa. f_equal. ring. Qed.
Lemma vscale_0 a : vscale 0 a = vzero (length a).
Proof. unfold vscale, vzero. induction a; simpl; auto. rewrite IHa. f_equal. ring. Qed.
Lemma vscale_zero c n : vscale c (vzero n) = vzero n.
Proof. unfold vscale, vzero. induction n; simpl; auto. rewrite IHn. f_equal. ring. Qed.
Lemma vadd_scale c d a : vadd (vscale c a) (vscale d a) = vscale (c + d) a.
Proof. unfold vadd. induction a; simpl; auto. f_equal; [ring|apply IHa]. Qed.
Lemma vneg_scale a : vneg a = vscale (-(1)) a.
Proof. unfold vneg, vscale. apply map_ext. intros x. ring. Qed.
Lemma vneg_neg a : vneg (vneg a) = a.
Proof. unfold vneg. induction a; simpl; auto. rewrite IHa. f_equal. ring. Qed.

Lemma dot_nil_r a : dot a [] = 0%Qc.
Proof. destruct a; reflexivity. Qed.
Lemma dot_cons x a y b : dot (x :: a) (y :: b) = (x * y + dot a b)%Qc.
Proof. reflexivity. Qed.
Lemma dot_comm a b : dot a b = dot b a.
Proof.
  revert b; induction a; intros [|]; auto. rewrite !dot_cons, IHa. ring.
Qed.
Lemma dot_add_r a b c : length b = length c -> dot a (vadd b c) = (dot a b + dot a c)%Qc.
Proof.
  revert b c; induction a as [|x a IH]; intros [|y b] [|z c] E; try discriminate; simpl.
  1-3: unfold dot; simpl; ring.
  change (vadd (y :: b) (z :: c)) with ((y + z)%Qc :: vadd b c). rewrite !dot_cons, IH by (simpl in E; lia). ring.
Qed.
Lemma dot_scale_r a c b : dot a (vscale c b) = (c * dot a b)%Qc.
Proof.
  revert b; induction a as [|x a IH]; intros [|y b]; simpl.
  1-3: unfold dot; simpl; ring.
  change (vscale c (y :: b)) with ((c * y)%Qc :: vscale c b). rewrite !dot_cons, IH. ring.
Qed.
Lemma dot_zero_r a n : dot a (vzero n) = 0%Qc.
Proof.
  revert n; induction a as [|x a IH]; intros [|n]; try reflexivity.
  change (vzero (S n)) with (0%Qc :: vzero n). rewrite dot_cons, IH. ring.
Qed.

Lemma mvm_add M b c : length b = length c -> mvm M (vadd b c) = vadd (mvm M b) (mvm M c).
Proof. intros E. unfold vadd at 2. unfold mvm. induction M; simpl; auto. rewrite IHM. f_equal. now apply dot_add_r. Qed.
Lemma mvm_scale M c b : mvm M (vscale c b) = vscale c (mvm M b).
Proof. unfold mvm. induction M as [|r M IH]; [reflexivity|]. cbn [map]. rewrite IH, dot_scale_r. reflexivity. Qed.
Lemma mvm_zero M n : mvm M (vzero n) = vzero (length M).
Proof. unfold mvm, vzero at 2. induction M; simpl; auto. rewrite IHM. f_equal. apply dot_zero_r. Qed.

Lemma firstn_vadd n a b : firstn n (vadd a b) = vadd (firstn n a) (firstn n b).
Proof. unfold vadd. revert a b; induction n; intros [|] [|]; simpl; auto. f_equal. apply IHn. Qed.
Lemma skipn_vadd n a b : length a = length b -> skipn n (vadd a b) = vadd (skipn n a) (skipn n b).
Proof.
  unfold vadd. revert a b; induction n; intros [|x a] [|y b] E; simpl in *; auto; try discriminate.

Qed.
Lemma firstn_vscale n c a : firstn n (vscale c a) = vscale c (firstn n a).
Proof. apply firstn_map. Qed.
Lemma skipn_vscale n c a : skipn n (vscale c a) = vscale c (skipn n a).
Proof. apply skipn_map. Qed.

Lemma vmax_abs_nonneg a : (0 <= vmax_abs a)%Qc.
Proof. induction a; simpl; [qclra|]. eapply Qcle_trans; [apply IHa | apply qc_max_r]. Qed.
Lemma vmax_abs_ge a x : In x a -> (qc_abs x <= vmax_abs a)%Qc.
Proof.
  induction a; simpl; [tauto|]. intros [->|H]; [apply qc_max_l|].
  eapply Qcle_trans; [apply IHa, H | apply qc_max_r].
Qed.
Lemma vmax_abs_attained a : a <> [] -> exists x, In x a /\ qc_abs x = vmax_abs a.
Proof.
  induction a as [|x a IH]; [congruence|]. intros _. simpl.
  destruct (Qclt_le_dec (qc_abs x) (vmax_abs a)) as [H|H].
  - destruct a as [|y a'].
    + exists x. split; auto. simpl in *. unfold qc_max. destruct (Qclt_le_dec (qc_abs x) 0); auto.
      exfalso. pose proof (qc_abs_nonneg x). qclra.
    + destruct IH as (z & Hz & Ez); [congruence|]. exists z. split; auto. rewrite Ez.
      unfold qc_max. destruct (Qclt_le_dec _ _); auto. exfalso; qclra.
  - exists x. split; auto. unfold qc_max. destruct (Qclt_le_dec _ _); auto. exfalso; qclra.
Qed.

(** Closed computations with vectors: compare canonical rationals by value. *)
Ltac qc_compute :=
  vm_compute;
  repeat (first [ reflexivity
                | split
                | match goal with |- @eq Qc _ _ => apply Qc_is_canon; reflexivity end
                | match goal with |- _ :: _ = _ :: _ => apply f_equal2 end
                | match goal with |- Ok _ = Ok _ => apply f_equal end
                | match goal with |- Some _ = Some _ => apply f_equal end
                | match goal with |- (_, _) = (_, _) => apply f_equal2 end
                | progress f_equal ]).

Lemma qc_neq_b x y : qc_eqb x y = false -> x <> y.
Proof. intros H E. subst y. rewrite (proj2 (qc_eqb_true x x) eq_refl) in H. discriminate. Qed.
(** closed disequalities *)
Ltac qc_neq := apply qc_neq_b; vm_compute; reflexivity.

(** Least squares: the tomographic reconstructor of LearnAndApply. *)
From Verif.Base Require Import Vec PyFacts.
From Verif.Model Require Import Recon Control.
From Verif.Spec Require Import ReconSpec ControlSpec.
From Verif.Proofs Require Import ReconProofs ControlProofs.

Lemma sq_nn (x : Qc) : (0 <= x * x)%Qc.
Proof. qcnra. Qed.

Lemma Qcle_refl_eq (x y : Qc) : x = y -> (x <= y)%Qc.
Proof. intros ->. apply Qcle_refl. Qed.

Section Sums.
  Context {S : Type}.
  Definition E (R : list S) (f : S -> Qc) : Qc := lsum (map f R).
  Lemma E_cons r R f : E (r :: R) f = (f r + E R f)%Qc.
  Proof. reflexivity. Qed.
  Lemma E_ext R f g : (forall r, In r R -> f r = g r) -> E R f = E R g.
  Proof. intros H. unfold E. f_equal. apply map_ext_in. auto. Qed.
  Lemma E_add R f g : E R (fun r => f r + g r)%Qc = (E R f + E R g)%Qc.
  Proof. induction R as [|r R IH]; [cbn; ring|]. rewrite !E_cons, IH. ring. Qed.
  Lemma E_scale R c f : E R (fun r => c * f r)%Qc = (c * E R f)%Qc.
  Proof. induction R as [|r R IH]; [cbn; ring|]. rewrite !E_cons, IH. ring. Qed.
  Lemma E_zero R : E R (fun _ => 0%Qc) = 0%Qc.
  Proof. induction R as [|r R IH]; [reflexivity|]. rewrite !E_cons, IH. ring. Qed.
  Lemma E_nonneg R f : (forall r, In r R -> (0 <= f r)%Qc) -> (0 <= E R f)%Qc.
  Proof.
    induction R as [|r R IH]; intros H; [cbn; apply Qcle_refl|]. rewrite E_cons.
    pose proof (H r (or_introl eq_refl)). assert (0 <= E R f)%Qc by (apply IH; intros; apply H; right; auto). qclra.
  Qed.
  Lemma E_sq_zero R f : E R (fun r => f r * f r)%Qc = 0%Qc -> forall r, In r R -> f r = 0%Qc.
  Proof.
    induction R as [|r0 R IH]; intros H r Hr; [destruct Hr|]. rewrite E_cons in H. destruct Hr as [->|Hr].
    - assert (0 <= E R (fun r => f r * f r))%Qc by (apply E_nonneg; intros; apply sq_nn).
      pose proof (sq_nn (f r)). assert (f r * f r = 0)%Qc by (apply Qcle_antisym; qclra).
      destruct (Qcmult_integral _ _ H2); auto.
    - apply IH; auto.
      assert (0 <= E R (fun r => f r * f r))%Qc by (apply E_nonneg; intros; apply sq_nn).
      pose proof (sq_nn (f r0)). apply Qcle_antisym; qclra.
  Qed.
End Sums.

Definition ssum (K : nat) (f : nat -> Qc) : Qc := E (seq 0 K) f.
Lemma E_swap {S T} (R : list S) (L : list T) (f : S -> T -> Qc) :
  E R (fun r => E L (fun k => f r k)) = E L (fun k => E R (fun r => f r k)).
Proof.
  induction R as [|r R IH]; [symmetry; apply E_zero|]. rewrite E_cons, IH, <- E_add. apply E_ext. intros k _. reflexivity.
Qed.
Lemma ssum_ext K f g : (forall k, (k < K)%nat -> f k = g k) -> ssum K f = ssum K g.
Proof. intros H. apply E_ext. intros k Hk. apply in_seq in Hk. apply H. lia. Qed.
Lemma ssum_delta K l f : (l < K)%nat -> ssum K (fun k => if (k =? l)%nat then f k else 0%Qc) = f l.
Proof.
  unfold ssum. assert (G : forall n a, E (seq a n) (fun k => if (k =? l)%nat then f k else 0%Qc)
    = if (a <=? l)%nat && (l <? a + n)%nat then f l else 0%Qc).
  { induction n as [|n IH]; intros a.
    - cbn [seq]. replace ((a <=? l)%nat && (l <? a + 0)%nat) with false; [reflexivity|].
      symmetry. destruct (a <=? l)%nat eqn:A; [|reflexivity]. apply Nat.leb_le in A. apply Nat.ltb_ge. lia.
    - cbn [seq]. rewrite E_cons, IH. destruct (a =? l)%nat eqn:A.
      + apply Nat.eqb_eq in A. subst a. rewrite Nat.leb_refl.
        replace (S l <=? l)%nat with false by (symmetry; apply Nat.leb_gt; lia).
        replace (l <? l + S n)%nat with true by (symmetry; apply Nat.ltb_lt; lia). cbn [andb]. ring.
      + apply Nat.eqb_neq in A. replace (S a <=? l)%nat with (a <=? l)%nat.
        2:{ destruct (a <=? l)%nat eqn:B; symmetry; [apply Nat.leb_le; apply Nat.leb_le in B; lia | apply Nat.leb_gt; apply Nat.leb_gt in B; lia]. }
        replace (S a + n)%nat with (a + S n)%nat by lia. destruct (_ && _); ring. }
  intros H. rewrite G. cbn [Nat.leb andb]. rewrite Nat.add_0_l. apply Nat.ltb_lt in H. rewrite H. reflexivity.
Qed.

Section LeastSquares.
  Context {S : Type}.
  Variable R : list S.
  Variable y : S -> Qc.
  Variable x : nat -> S -> Qc.
  Variable K : nat.
  Variable c : Qc.
  Hypothesis Hc : c <> 0%Qc.
  Definition cC (j k : nat) : Qc := (E R (fun r => x j r * x k r) / c)%Qc.
  Definition cD (k : nat) : Qc := (E R (fun r => y r * x k r) / c)%Qc.
  Variable Q : nat -> nat -> Qc.
  Hypothesis HQ : forall i l, (i < K)%nat -> (l < K)%nat ->
    ssum K (fun k => cC i k * ssum K (fun j => Q j k * cC j l))%Qc = cC i l.
  Definition w (j : nat) : Qc := ssum K (fun k => cD k * Q j k)%Qc.
  Definition comb (v : nat -> Qc) (r : S) : Qc := ssum K (fun k => v k * x k r)%Qc.

  Lemma ssum_add f g : ssum K (fun k => f k + g k)%Qc = (ssum K f + ssum K g)%Qc.
  Proof. apply E_add. Qed.
  Lemma ssum_scale a f : ssum K (fun k => a * f k)%Qc = (a * ssum K f)%Qc.
  Proof. apply E_scale. Qed.
  Lemma E_comb (g : S -> Qc) v : E R (fun r => g r * comb v r)%Qc = ssum K (fun k => v k * E R (fun r => g r * x k r))%Qc.
  Proof.
    unfold comb. rewrite (E_ext R _ (fun r => ssum K (fun k => g r * (v k * x k r))%Qc)) by (intros; symmetry; apply E_scale).
    unfold ssum. rewrite E_swap. apply E_ext. intros k _. rewrite <- E_scale. apply E_ext. intros r _. ring.
  Qed.

  (** the deviation of pinv * C from the identity, column l *)
  Definition dev (l k : nat) : Qc := (ssum K (fun j => Q j k * cC j l) + (if (k =? l)%nat then -(1) else 0))%Qc.

  Lemma mulc (a b : Qc) : (a / c = b)%Qc -> a = (c * b)%Qc.
  Proof. intros <-. field. exact Hc. Qed.
  Lemma divc (a : Qc) : (c * (a / c))%Qc = a.
  Proof. field. exact Hc. Qed.

  Lemma C_dev l i : (l < K)%nat -> (i < K)%nat -> ssum K (fun k => cC i k * dev l k)%Qc = 0%Qc.
  Proof.
    intros Hl Hi. unfold dev.
    rewrite (ssum_ext K _ (fun k => cC i k * ssum K (fun j => Q j k * cC j l) + (if (k =? l)%nat then - cC i k else 0))%Qc).
    - rewrite ssum_add, HQ by auto. rewrite (ssum_delta K l (fun k => - cC i k)%Qc Hl). ring.
    - intros k _. destruct (k =? l)%nat; ring.
  Qed.

  Lemma comb_dev_zero l : (l < K)%nat -> forall r, In r R -> comb (dev l) r = 0%Qc.
  Proof.
    intros Hl. apply E_sq_zero. rewrite E_comb.
    rewrite (ssum_ext K _ (fun i => dev l i * (c * ssum K (fun k => cC i k * dev l k)))%Qc).
    - rewrite (ssum_ext K _ (fun _ => 0%Qc)); [apply E_zero|]. intros i Hi. rewrite C_dev by auto. ring.
    - intros i _. f_equal. rewrite (E_ext R _ (fun r => x i r * comb (dev l) r)%Qc) by (intros; ring).
      rewrite E_comb. rewrite <- ssum_scale. apply ssum_ext. intros k _. unfold cC.
      replace (c * (E R (fun r => x i r * x k r) / c * dev l k))%Qc with (dev l k * (c * (E R (fun r => x i r * x k r) / c)))%Qc by ring.
      rewrite divc. reflexivity.
  Qed.

  Lemma D_dev l : (l < K)%nat -> ssum K (fun k => cD k * dev l k)%Qc = 0%Qc.
  Proof.
    intros Hl. assert (H : E R (fun r => y r * comb (dev l) r)%Qc = 0%Qc).
    { rewrite (E_ext R _ (fun _ => 0%Qc)); [apply E_zero|]. intros r Hr. rewrite comb_dev_zero by auto. ring. }
    rewrite E_comb in H.
    assert (G : (c * ssum K (fun k => cD k * dev l k) = 0)%Qc).
    { rewrite <- ssum_scale. rewrite <- H. apply ssum_ext. intros k _. unfold cD.
      replace (c * (E R (fun r => y r * x k r) / c * dev l k))%Qc with (dev l k * (c * (E R (fun r => y r * x k r) / c)))%Qc by ring.
      rewrite divc. reflexivity. }
    destruct (Qcmult_integral _ _ G); [contradiction|auto].
  Qed.

  Lemma normal l : (l < K)%nat -> ssum K (fun j => w j * cC j l)%Qc = cD l.
  Proof.
    intros Hl. pose proof (D_dev l Hl) as H. unfold dev in H.
    rewrite (ssum_ext K _ (fun k => cD k * ssum K (fun j => Q j k * cC j l) + (if (k =? l)%nat then - cD k else 0))%Qc) in H.
    2:{ intros k _. destruct (k =? l)%nat; ring. }
    rewrite ssum_add in H. rewrite (ssum_delta K l (fun k => - cD k)%Qc Hl) in H.
    assert (G : ssum K (fun j => w j * cC j l)%Qc = ssum K (fun k => cD k * ssum K (fun j => Q j k * cC j l))%Qc).
    { unfold w. rewrite (ssum_ext K (fun j => ssum K (fun k => cD k * Q j k) * cC j l)%Qc (fun j => ssum K (fun k => cD k * (Q j k * cC j l))%Qc)).
      - unfold ssum. rewrite E_swap. apply E_ext. intros k _. apply E_scale.
      - intros j _. rewrite Qcmult_comm, <- ssum_scale. apply ssum_ext. intros k _. ring. }
    rewrite G. qclra.
  Qed.

  Lemma orthogonal v : E R (fun r => (y r - comb w r) * comb v r)%Qc = 0%Qc.
  Proof.
    rewrite E_comb. rewrite (ssum_ext K _ (fun _ => 0%Qc)); [apply E_zero|]. intros l Hl.
    rewrite (E_ext R _ (fun r => y r * x l r + (-(1)) * (x l r * comb w r))%Qc) by (intros; ring).
    rewrite E_add, E_scale, E_comb.
    assert (G : ssum K (fun k => w k * E R (fun r => x l r * x k r))%Qc = (c * cD l)%Qc).
    { rewrite <- (normal l Hl), <- ssum_scale. apply ssum_ext. intros k _. unfold cC.
      replace (c * (w k * (E R (fun r => x k r * x l r) / c)))%Qc with (w k * (c * (E R (fun r => x k r * x l r) / c)))%Qc by ring.
      rewrite divc. f_equal. apply E_ext. intros; ring. }
    rewrite G. unfold cD. rewrite divc. ring.
  Qed.

  Lemma least v : (E R (fun r => (y r - comb w r) * (y r - comb w r)) <= E R (fun r => (y r - comb v r) * (y r - comb v r)))%Qc.
  Proof.
    assert (Hd : forall r, comb (fun k => w k - v k)%Qc r = (comb w r - comb v r)%Qc).
    { intros r. unfold comb. rewrite (ssum_ext K _ (fun k => w k * x k r + (-(1)) * (v k * x k r))%Qc) by (intros; ring).
      rewrite ssum_add, ssum_scale. ring. }
    pose proof (orthogonal (fun k => w k - v k)%Qc) as O.
    assert (X : E R (fun r => (y r - comb v r) * (y r - comb v r))%Qc
      = (E R (fun r => (y r - comb w r) * (y r - comb w r)) + (1+1) * E R (fun r => (y r - comb w r) * comb (fun k => w k - v k) r)
         + E R (fun r => comb (fun k => w k - v k) r * comb (fun k => w k - v k) r))%Qc).
    { rewrite <- E_scale, <- !E_add. apply E_ext. intros r _. rewrite Hd. ring. }
    rewrite X, O. assert (0 <= E R (fun r => comb (fun k => w k - v k) r * comb (fun k => w k - v k) r))%Qc
      by (apply E_nonneg; intros; apply sq_nn). qclra.
  Qed.
End LeastSquares.

(** ** The covariance matrix and the tomographic reconstructor *)
Lemma dot_ssum a : forall b K, length a = K -> length b = K -> dot a b = ssum K (fun k => nth k a 0 * nth k b 0)%Qc.
Proof.
  induction a as [|u a IH]; intros [|v b] K Ha Hb; cbn [length] in *; subst; try discriminate; [reflexivity|].
  rewrite dot_cons. unfold ssum. cbn [seq]. rewrite E_cons. cbn [nth]. f_equal.
  rewrite <- seq_shift. unfold E. rewrite map_map. apply (IH b (length a) eq_refl). lia.
Qed.
Lemma dot_map {S} (R : list S) f g : dot (map f R) (map g R) = E R (fun r => f r * g r)%Qc.
Proof. induction R as [|r R IH]; [reflexivity|]. cbn [map]. rewrite dot_cons, E_cons, IH. reflexivity. Qed.

Lemma nth_map_seq {A} (f : nat -> A) n k d : (k < n)%nat -> nth k (map f (seq 0 n)) d = f k.
Proof.
  intros H. rewrite (nth_indep _ d (f 0%nat)) by (rewrite map_length, seq_length; auto).
  rewrite map_nth, seq_nth by auto. reflexivity.
Qed.
Lemma nth_skipn {A} (l : list A) : forall n k d, nth k (skipn n l) d = nth (n + k) l d.
Proof. induction l as [|a l IH]; intros [|n] k d; cbn [skipn nth Nat.add]; auto. destruct k; reflexivity. Qed.

Lemma centre_nth tot X r j : (j < tot)%nat -> length r = tot ->
  nth j (vsub r (map (fun j => vmean (col X j)) (seq 0 tot))) 0%Qc = deviation X r j.
Proof.
  intros Hj Hr. unfold vsub. rewrite vmap2_nth0 by (rewrite ?map_length, ?seq_length; lia).
  rewrite nth_map_seq by auto. unfold deviation, vmean, col. rewrite map_length. reflexivity.
Qed.

Section Tomo.
  Variable tot : nat.
  Variable X : mat.
  Hypothesis HX : Forall (fun r => length r = tot) X.
  Variable C : mat.
  Hypothesis HC : cov tot X = Ok C.
  Let c : Qc := qz (Z.of_nat (length X) - 1).

  Lemma cov_entry i j : (i < tot)%nat -> (j < tot)%nat ->
    nth j (nth i C []) 0%Qc = (E X (fun r => deviation X r i * deviation X r j) / c)%Qc.
  Proof.
    intros Hi Hj. unfold cov in HC. destruct (length X <=? 1)%nat; [discriminate|]. injection HC as <-.
    rewrite nth_map_seq by auto. rewrite nth_map_seq by auto. unfold c. f_equal.
    unfold col, centre. rewrite !map_map, dot_map. apply E_ext. intros r Hr.
    rewrite Forall_forall in HX. rewrite !centre_nth by auto. reflexivity.
  Qed.
  Lemma c_nz : c <> 0%Qc.
  Proof.
    unfold c. unfold cov in HC. destruct (length X <=? 1)%nat eqn:A; [discriminate|]. apply Nat.leb_gt in A.
    apply qz_neq0. lia.
  Qed.
  Lemma cov_shape : shaped tot tot C.
  Proof.
    unfold cov in HC. destruct (length X <=? 1)%nat; [discriminate|]. injection HC as <-. split.
    - rewrite map_length, seq_length. reflexivity.
    - apply Forall_forall. intros r Hr. apply in_map_iff in Hr as (i & <- & _). rewrite map_length, seq_length. reflexivity.
  Qed.

  Variable n : nat.
  Hypothesis Hn : (n <= tot)%nat.
  Let K : nat := (tot - n)%nat.
  Variable P : mat.
  Hypothesis HP : shaped K K P.
  Hypothesis HG : generalised_inverse (map (skipn n) (skipn n C)) P.

  Lemma off_entry i j : (i < K)%nat -> (j < K)%nat ->
    nth j (nth i (map (skipn n) (skipn n C)) []) 0%Qc = (E X (fun r => deviation X r (n + i) * deviation X r (n + j)) / c)%Qc.
  Proof.
    intros Hi Hj. destruct cov_shape as [L _]. unfold mat in *.
    assert (A : nth i (map (skipn n) (skipn n C)) [] = skipn n (nth (n + i) C [])).
    { rewrite (nth_indep _ [] (skipn n (@nil Qc))) by (rewrite map_length, skipn_length; unfold K in *; lia).
      rewrite map_nth, nth_skipn. reflexivity. }
    rewrite A, nth_skipn. apply cov_entry; unfold K in *; lia.
  Qed.

  Definition tomo_row (i : nat) : vec := map (fun q => dot (skipn n (nth i C [])) q) P.

  Lemma tomo_least i v : (i < n)%nat -> length v = K -> (sq_error X n i (tomo_row i) <= sq_error X n i v)%Qc.
  Proof.
    intros Hi Hv. destruct HP as [LP FP]. unfold mat in *.
    pose proof (least X (fun r => deviation X r i) (fun k r => deviation X r (n + k)) K c c_nz (fun j k => nth k (nth j P []) 0%Qc)) as L.
    assert (HQ : forall i0 l : nat, (i0 < K)%nat -> (l < K)%nat ->
      ssum K (fun k => cC X (fun k r => deviation X r (n + k)) c i0 k *
         ssum K (fun j => nth k (nth j P []) 0 * cC X (fun k r => deviation X r (n + k)) c j l))%Qc
      = cC X (fun k r => deviation X r (n + k)) c i0 l).
    { intros i0 l Hi0 Hl. assert (LO : length (map (skipn n) (skipn n C)) = K).
      { destruct cov_shape as [LC _]. unfold mat in *. rewrite map_length, skipn_length. unfold K. lia. }
      assert (Hi' : (i0 < length (map (skipn n) (skipn n C)))%nat) by (rewrite LO; exact Hi0).
      assert (Hl' : (l < length (map (skipn n) (skipn n C)))%nat) by (rewrite LO; exact Hl).
      pose proof (HG i0 l Hi' Hl') as G.
      change (@length vec (map (skipn n) (skipn n C))) with (@length (list Qc) (map (skipn n) (skipn n C))) in G. rewrite LO in G.
      rewrite off_entry in G by auto. unfold cC at 3. rewrite <- G.
      apply ssum_ext. intros k Hk. rewrite off_entry by auto. unfold cC at 1. f_equal.
      apply ssum_ext. intros j Hj. rewrite off_entry by auto. reflexivity. }
    specialize (L HQ (fun k => nth k v 0%Qc)).
    assert (EW : forall j, (j < K)%nat -> nth j (tomo_row i) 0%Qc
      = w X (fun r => deviation X r i) (fun k r => deviation X r (n + k)) K c (fun j k => nth k (nth j P []) 0%Qc) j).
    { intros j Hj. unfold tomo_row.
      rewrite (nth_indep _ 0%Qc (dot (skipn n (nth i C [])) (@nil Qc))) by (rewrite map_length; lia).
      rewrite (map_nth (fun q => dot (skipn n (nth i C [])) q)).
      assert (LC : length (nth i C []) = tot).
      { destruct cov_shape as [LC FC]. rewrite Forall_forall in FC. apply FC. apply nth_In. unfold mat in *. lia. }
      assert (LPj : length (nth j P []) = K). { rewrite Forall_forall in FP. apply FP. apply nth_In. lia. }
      rewrite (dot_ssum _ _ K); [| rewrite skipn_length; unfold K; lia | exact LPj].
      unfold w. apply ssum_ext. intros k Hk. rewrite nth_skipn. rewrite cov_entry by (unfold K in *; lia). reflexivity. }
    assert (EC : forall u r, length u = K -> lsum (map (fun k => nth k u 0 * deviation X r (n + k))%Qc (seq 0 (length u)))
       = comb (fun k r => deviation X r (n + k)) K (fun k => nth k u 0%Qc) r).
    { intros u r ->. reflexivity. }
    assert (LT : length (tomo_row i) = K) by (unfold tomo_row; rewrite map_length; exact LP).
    assert (ES : forall u, length u = K -> sq_error X n i u
      = E X (fun r => (deviation X r i - comb (fun k r => deviation X r (n + k)) K (fun k => nth k u 0%Qc) r)
                    * (deviation X r i - comb (fun k r => deviation X r (n + k)) K (fun k => nth k u 0%Qc) r))%Qc).
    { intros u Hu. unfold sq_error, E. f_equal. apply map_ext. intros r. unfold estimate_error. rewrite !EC by auto. reflexivity. }
    rewrite (ES (tomo_row i) LT), (ES v Hv).
    eapply Qcle_trans; [|exact L]. apply Qcle_refl_eq.
    apply E_ext. intros r _.
    assert (EE : comb (fun k r => deviation X r (n + k)) K (fun k => nth k (tomo_row i) 0%Qc) r
       = comb (fun k r => deviation X r (n + k)) K (w X (fun r => deviation X r i) (fun k r => deviation X r (n + k)) K c (fun j k => nth k (nth j P []) 0%Qc)) r).
    { unfold comb. apply ssum_ext. intros k Hk. rewrite EW by auto. reflexivity. }
    rewrite EE. reflexivity.
  Qed.

  Lemma tomo_exact i v : (i < n)%nat -> length v = K ->
    (forall r, In r X -> estimate_error X n i v r = 0%Qc) ->
    forall r, In r X -> estimate_error X n i (tomo_row i) r = 0%Qc.
  Proof.
    intros Hi Hv H0. apply (E_sq_zero X (estimate_error X n i (tomo_row i))).
    apply Qcle_antisym; [|apply E_nonneg; intros; apply sq_nn].
    eapply Qcle_trans; [apply (tomo_least i v Hi Hv)|]. apply Qcle_refl_eq.
    unfold sq_error. etransitivity; [|apply (E_zero X)]. apply (E_ext X). intros r Hr. rewrite H0 by auto. ring.
  Qed.
End Tomo.

Lemma la_calc_inv pinvT rcond ws imat frs n T Pc : first_sh ws n -> la_calc pinvT rcond ws imat frs = Ok (T, Pc) ->
  exists X C P, learn ws frs = Ok X /\ cov (total_data ws) X = Ok C /\
    pinvT cov_rcond (map (skipn n) (skipn n C)) = Ok P /\ pinvT rcond imat = Ok Pc /\
    T = map (fun r => map (fun q => dot r q) P) (map (skipn n) (firstn n C)).
Proof.
  intros Hn H. unfold la_calc in H. rewrite (on_axis_sh ws n Hn) in H. cbn [bind] in H.
  destruct (learn ws frs) as [X|e]; cbn [bind] in H; [|discriminate].
  destruct (cov (total_w ws) X) as [C|e] eqn:EC; cbn [bind] in H; [|discriminate].
  unfold tomography in H. rewrite Nat.sub_0_r in H. cbn [skipn] in H.
  destruct (pinvT cov_rcond (map (skipn n) (skipn n C))) as [P|e] eqn:EP; cbn [bind] in H; [|discriminate].
  destruct (pinvT rcond imat) as [Q|e] eqn:EQ; cbn [bind] in H; [|discriminate].
  injection H as <- <-. exists X, C, P. auto 10.
Qed.

Lemma nth_tomo (C P : mat) n i : (i < n)%nat -> (n <= length C)%nat ->
  nth i (map (fun r => map (fun q => dot r q) P) (map (skipn n) (firstn n C))) [] = tomo_row C n P i.
Proof.
  intros Hi Hn. rewrite map_map.
  rewrite (nth_indep _ [] (map (fun q => dot (skipn n (@nil Qc)) q) P)) by (rewrite map_length, firstn_length; lia).
  rewrite (map_nth (fun x => map (fun q => dot (skipn n x) q) P)). unfold tomo_row.
  assert (A : nth i (firstn n C) [] = nth i C []).
  { rewrite <- (firstn_skipn n C) at 2. rewrite app_nth1; [reflexivity|]. rewrite firstn_length. lia. }
  unfold mat, vec in *. etransitivity; [|apply (f_equal (fun x => map (fun q => dot (skipn n x) q) P) A)]. reflexivity.
Qed.

Lemma total_equal n ws : Forall (fun s => s_meas s = n) ws -> total_data ws = (length ws * n)%nat.
Proof.
  intros HW. unfold total_data. induction HW as [|s ws Hs HW IH]; [reflexivity|].
  cbn [map length]. rewrite total_acts_cons, IH, Hs. lia.
Qed.

Lemma la_tomography pinvT rcond ws imat frs n T Pc :
  first_sh ws n -> Forall (fun s => s_meas s = n) ws ->
  Forall (fun fr : list vec => length fr = length ws /\ Forall (fun f : vec => length f = n) fr) frs ->
  (forall C P, cov (total_data ws) (map (@concat Qc) frs) = Ok C ->
     pinvT cov_rcond (map (skipn n) (skipn n C)) = Ok P ->
     shaped (total_data ws - n) (total_data ws - n) P /\ generalised_inverse (map (skipn n) (skipn n C)) P) ->
  la_calc pinvT rcond ws imat frs = Ok (T, Pc) ->
  forall i v, (i < n)%nat -> length v = (total_data ws - n)%nat ->
    (sq_error (map (@concat Qc) frs) n i (nth i T []) <= sq_error (map (@concat Qc) frs) n i v)%Qc /\
    ((forall r, In r (map (@concat Qc) frs) -> estimate_error (map (@concat Qc) frs) n i v r = 0%Qc) ->
      forall r, In r (map (@concat Qc) frs) -> estimate_error (map (@concat Qc) frs) n i (nth i T []) r = 0%Qc).
Proof.
  intros Hn HW HF HPI E i v Hi Hv.
  destruct (la_calc_inv _ _ _ _ _ _ _ _ Hn E) as (X & C & P & EX & EC & EP & _ & ET).
  rewrite (learn_equal n ws frs HW HF) in EX. injection EX as <-.
  destruct (HPI C P EC EP) as [SP GP].
  assert (Hle : (n <= total_data ws)%nat).
  { rewrite (total_equal n ws HW). destruct Hn as (s & r & h & -> & _). cbn [length]. lia. }
  assert (HX : Forall (fun r => length r = total_data ws) (map (@concat Qc) frs)).
  { apply Forall_map. eapply Forall_impl; [|exact HF]. intros fr [L1 L2]. cbn beta.
    rewrite (total_equal n ws HW), <- L1. clear L1. induction L2 as [|f fr Hf L2 IH]; [reflexivity|].
    cbn [concat length]. rewrite app_length, IH, Hf. lia. }
  pose proof (cov_shape _ _ _ EC) as [LC _].
  assert (ER : nth i T [] = tomo_row C n P i).
  { rewrite ET. apply nth_tomo; auto. unfold mat in *. rewrite LC. exact Hle. }
  rewrite ER. split.
  - apply (tomo_least (total_data ws) _ HX C EC n Hle P SP GP i v Hi Hv).
  - apply (tomo_exact (total_data ws) _ HX C EC n Hle P SP GP i v Hi Hv).
Qed.

(** ** A single sensor *)
Lemma la_single pinvT rcond s imat frs n T Pc : inverts pinvT -> first_sh [s] n ->
  la_calc pinvT rcond [s] imat frs = Ok (T, Pc) -> T = repeat [] n.
Proof.
  intros HP Hn E. destruct (la_calc_inv _ _ _ _ _ _ _ _ Hn E) as (X & C & P & EX & EC & EP & _ & ->).
  destruct Hn as (s' & r & h & Es & Hh & Hn & Hm). injection Es as <- <-.
  pose proof (cov_shape _ _ _ EC) as [LC FC].
  assert (Ht : total_data [s] = n). { unfold total_data. cbn [map]. rewrite total_acts_cons. cbn. lia. }
  rewrite Ht in *. unfold mat in *. rewrite skipn_all2 in EP by lia. cbn [map] in EP.
  destruct (HP cov_rcond 0%nat 0%nat []) as (P' & EP' & [LP' _]); [split; [reflexivity | constructor]|].
  assert (EQP : P = P') by (assert (Q : Ok P = Ok P') by (etransitivity; [symmetry; exact EP | exact EP']); injection Q; auto).
  subst P'. destruct P; [|discriminate].
  rewrite firstn_all2 by lia. rewrite !map_map. cbn [map]. rewrite <- LC. clear. induction C; cbn; congruence.
Qed.

Lemma mvm_repeat_nil n v : mvm (repeat [] n) v = vzero n.
Proof. unfold mvm, vzero. induction n as [|n IH]; [reflexivity|]. cbn [repeat map]. rewrite IH. reflexivity. Qed.

(** ** Commands stay at zero when the reconstructed vector does *)
Lemma vzero_add n : vadd (vzero n) (vzero n) = vzero n.
Proof. apply vadd_0_l. apply vzero_length. Qed.
Lemma apply_gain_zero ds : forall n1 n m, Forall has_valid ds -> (total_acts (nvalids ds) + n1 <= n)%nat ->
  (total_acts (nvalids ds) + n1 <= m)%nat -> apply_gain_from n1 ds (vzero n) (vzero m) = Ok (vzero n).
Proof.
  induction ds as [|d ds IH]; intros n1 n m HV Hn Hm; [reflexivity|].
  apply Forall_cons_iff in HV as [Hd HV]. cbn [apply_gain_from]. unfold has_valid in Hd.
  cbn [nvalids map] in Hn, Hm. rewrite total_acts_cons in Hn, Hm. fold (nvalids ds) in Hn, Hm.
  destruct (n_valid d) as [k|]; [|congruence].
  assert (ES : forall q, (n1 + k <= q)%nat -> firstn k (skipn n1 (vzero q)) = vzero k).
  { intros q Hq. unfold vzero. rewrite skipn_repeat'. apply firstn_repeat'. lia. }
  rewrite !ES by lia. rewrite vzero_length, bcast_same by apply vzero_length. cbn [bind].
  rewrite !vscale_zero, vzero_add.
  assert (EP : splice (vzero n) n1 (if closed d then vzero k else vzero k) = vzero n).
  { destruct (closed d); unfold splice; rewrite vzero_length; unfold vzero; rewrite skipn_repeat', firstn_repeat' by lia;
    rewrite <- !repeat_app; f_equal; lia. }
  destruct (closed d); rewrite EP; apply IH; auto; lia.
Qed.
Lemma reconstruct_zero ds nmeas total ctrl s m : Forall has_valid ds -> (total_acts (nvalids ds) <= total)%nat ->
  (total <= length ctrl)%nat -> length m = nmeas -> mvm ctrl m = vzero (length ctrl) ->
  (s = None \/ s = Some (vzero total)) -> reconstruct ds nmeas total ctrl s m = Ok (vzero total).
Proof.
  intros HV Ht Hc Hm E Hs. unfold reconstruct. rewrite Hm, Nat.eqb_refl, E.
  assert (Ea : match s with None => vzero total | Some a => a end = vzero total) by (destruct Hs as [-> | ->]; reflexivity).
  rewrite Ea. apply apply_gain_zero; auto; lia.
Qed.

Lemma frames_zero ws ms net cl c : (cl = MVM \/ cl = MVM_SeparateDMs \/ cl = WooferTweeter) ->
  Forall has_valid (map m_dm ms) -> (total_valid ms <= length (k_ctrl c))%nat ->
  forall l s, (s = None \/ s = Some (vzero (total_valid ms))) ->
  Forall (fun m => length m = k_cols c /\ mvm (k_ctrl c) m = vzero (length (k_ctrl c))) l ->
  frames_of ws ms net cl (total_valid ms) c s l = Ok (map (fun _ => vzero (total_valid ms)) l).
Proof.
  intros Hcl HV HC. induction l as [|m l IH]; intros s Hs HF; [reflexivity|].
  apply Forall_cons_iff in HF as [[Hm Hz] HF].
  assert (ER : reconstruct (map m_dm ms) (k_cols c) (total_valid ms) (k_ctrl c) s m = Ok (vzero (total_valid ms))).
  { apply reconstruct_zero; auto. }
  cbn [frames_of]. destruct Hcl as [-> | [-> | ->]]; cbn [frame_of]; rewrite ER; cbn [bind fst snd];
    rewrite (IH (Some (vzero (total_valid ms)))) by auto; reflexivity.
Qed.

Lemma woofer_idle pinvT rc ws m net imat learn1 learn2 k : n_valid (m_dm m) = Some k -> (k <= n_acts (m_dm m))%nat ->
  forall l, Forall (fun v : vec => length v = total_data ws) l ->
    use pinvT rc ws [m] net WooferTweeter imat learn1 learn2 l = Ok (map (fun _ => vzero k) l).
Proof.
  intros Hv Hk l HF. unfold use. cbn [calibrate bind].
  assert (Ek : total_valid [m] = k).
  { unfold total_valid. cbn [map nvalids]. rewrite Hv, total_acts_cons. cbn. lia. }
  assert (En : total_n_acts [m] = n_acts (m_dm m)).
  { unfold total_n_acts. cbn [map]. rewrite total_acts_cons. cbn. lia. }
  rewrite (frames_zero ws [m] net WooferTweeter _); auto.
  - rewrite Ek. reflexivity.
  - constructor; [|constructor]. unfold has_valid. rewrite Hv. discriminate.
  - cbn [k_ctrl]. unfold zeros2. rewrite repeat_length. lia.
  - eapply Forall_impl; [|exact HF]. intros v Lv. cbn beta in *. split; [exact Lv|]. cbn [k_ctrl].
    unfold zeros2. rewrite repeat_length. unfold mvm, vzero at 2. clear.
    induction (total_n_acts [m]) as [|q IH]; [reflexivity|]. cbn [repeat map]. rewrite IH, dot_zero_l. reflexivity.
Qed.

Lemma la_single_idle pinvT rcond ws s ms d0 r net imat learn1 learn2 n : inverts pinvT -> ws = [s] -> first_sh ws n ->
  ms = d0 :: r -> m_tt d0 = false -> Forall has_valid (map m_dm ms) -> shaped (total_valid ms) (total_data ws) imat ->
  forall l outs, Forall (fun m : vec => length m = total_data ws) l ->
    use pinvT rcond ws ms net LearnAndApply imat learn1 learn2 l = Ok outs -> outs = map (fun _ => vzero (total_valid ms)) l.
Proof.
  intros HP Ews Hn Ems Htt HV [LI FI] l outs HF E. unfold use in E. cbn [calibrate] in E.
  unfold la_imat in E. rewrite (on_axis_sh ws n Hn) in E. cbn [bind] in E.
  destruct (la_calc pinvT rcond ws (map (firstn n) imat) learn1) as [[T Pc]|e] eqn:EL; cbn [bind fst snd] in E; [|discriminate].
  destruct (la_calc_inv _ _ _ _ _ _ _ _ Hn EL) as (_ & _ & _ & _ & _ & _ & EPc & _).
  assert (HS : shaped (total_valid ms) n (map (firstn n) imat)).
  { split; [rewrite map_length; exact LI|]. apply Forall_map. eapply Forall_impl; [|exact FI]. intros x Lx. cbn beta in *.
    rewrite firstn_length. destruct Hn as (s' & r' & h & Er & _ & _ & Hm). rewrite Er in Lx. unfold total_data in Lx. cbn [map] in Lx.
    rewrite total_acts_cons in Lx. lia. }
  destruct (HP rcond _ _ _ HS) as (P' & EP' & [LP' FP']). rewrite EPc in EP'. injection EP' as <-.
  rewrite (la_frames ws ms net n _ Pc T d0 r Hn Ems Htt l None HF) in E.
  subst ws. rewrite (la_single pinvT rcond s _ _ n T Pc HP Hn EL) in E.
  rewrite (frames_zero [s] ms net MVM _) in E; auto.
  - injection E as <-. rewrite map_map. reflexivity.
  - cbn [k_ctrl]. unfold mat in *. lia.
  - apply Forall_map. apply Forall_forall. intros v _. rewrite mvm_repeat_nil. cbn [k_cols k_ctrl].
    split; [apply vzero_length|]. apply mvm_zero.
Qed.

(** ** Reconstructors that can never be used *)
Lemma start_lt ws : Forall sensor_ok ws -> forall w s o, get_wfs ws w = Ok (o, s) -> (o < total_data ws)%nat.
Proof.
  intros HO w s o E. apply get_wfs_inv in E as [H1 H2]. pose proof (total_data_start _ _ _ _ H1 H2).
  assert (0 < s_meas s)%nat by (rewrite Forall_forall in HO; apply (HO s); eapply nth_error_In; eauto). lia.
Qed.

Lemma start_S ws w s o s' o' : get_wfs ws w = Ok (o, s) -> get_wfs ws (S w) = Ok (o', s') -> o' = (o + s_meas s)%nat.
Proof.
  intros H1 H2. apply get_wfs_inv in H1 as [A1 B1]. apply get_wfs_inv in H2 as [A2 B2]. unfold data_starts in *.
  assert (Hn : nth_error (map s_meas ws) w = Some (s_meas s)) by (rewrite nth_error_map, A1; reflexivity).
  assert (Hn' : nth_error (map s_meas ws) (S w) = Some (s_meas s')) by (rewrite nth_error_map, A2; reflexivity).
  rewrite (dm_offsets_nth _ 0 _ _ Hn) in B1. rewrite (dm_offsets_nth _ 0 _ _ Hn') in B2.
  assert (Q1 : forall a b : nat, Some a = Some b -> a = b) by (intros ? ? Q; injection Q; auto).
  apply Q1 in B1. apply Q1 in B2. pose proof (fold_firstn_S (map s_meas ws) w _ Hn) as G. lia.
Qed.

Lemma start_total ws w s o : get_wfs ws w = Ok (o, s) -> nth_error ws (S w) = None -> (o + s_meas s = total_data ws)%nat.
Proof.
  intros H1 H2. apply get_wfs_inv in H1 as [A1 B1]. unfold data_starts in *.
  assert (Hn : nth_error (map s_meas ws) w = Some (s_meas s)) by (rewrite nth_error_map, A1; reflexivity).
  rewrite (dm_offsets_nth _ 0 _ _ Hn) in B1.
  assert (Q1 : forall a b : nat, Some a = Some b -> a = b) by (intros ? ? Q; injection Q; auto).
  apply Q1 in B1. subst o. unfold total_data, total_acts. rewrite <- (firstn_all (map s_meas ws)) at 2.
  apply nth_error_None in H2. assert (HL : (w < length ws)%nat) by (apply nth_error_Some; congruence).
  rewrite map_length. replace (length ws) with (S w) by lia. cbn [Nat.add].
  symmetry. apply fold_firstn_S. exact Hn.
Qed.

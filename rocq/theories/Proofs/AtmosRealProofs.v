From Coq Require Import Reals List Lra Lia.
Import ListNotations.
From Verif.Model Require Import AtmosReal.
Open Scope R_scope.

Lemma Rpower_pos x y : 0 < Rpower x y.
Proof. unfold Rpower. apply exp_pos. Qed.

Lemma Rpower_opp_inv a p q : 0 < a -> p * q = 1 -> Rpower (Rpower a p) q = a.
Proof. intros Ha E. rewrite Rpower_mult, E. apply Rpower_1; auto. Qed.

Lemma layer_r0_spec r0 n : 0 < r0 -> 0 < n -> Rpower (layer_r0 r0 n) (-5/3) = Rpower r0 (-5/3) * n.
Proof.
  intros H0 Hn. unfold layer_r0. apply Rpower_opp_inv; [|lra]. apply Rmult_lt_0_compat; auto. apply Rpower_pos.
Qed.

Lemma rsum_scale c l : rsum (map (fun x => c * x) l) = c * rsum l.
Proof. induction l as [|x l IH]; cbn; [lra|]. unfold rsum in IH. rewrite IH. lra. Qed.
Lemma rsum_ext {A} (f g : A -> R) l : (forall x, In x l -> f x = g x) -> rsum (map f l) = rsum (map g l).
Proof.
  intros H. f_equal. apply map_ext_in. auto.
Qed.

Lemma rsum_pos l : Forall (fun x => 0 < x) l -> l <> [] -> 0 < rsum l.
Proof.
  intros H. induction H as [|x l Hx H IH]; intros Hne; [contradiction|].
  cbn. fold (rsum l). destruct l as [|y l]; [cbn; lra|]. assert (0 < rsum (y :: l)) by (apply IH; discriminate). lra.
Qed.

Lemma rnorm_sum k st : Forall (fun x => 0 < x) st -> (0 < k)%nat -> st <> [] ->
  rsum (firstn k (rnorm k st)) = 1 /\ Forall (fun x => 0 < x) (rnorm k st).
Proof.
  intros HF Hk Hne. unfold rnorm. rewrite firstn_map. set (S := rsum (firstn k st)).
  assert (HS : 0 < S).
  { apply rsum_pos; [|destruct k, st; [lia | lia | contradiction | discriminate]].
    rewrite Forall_forall in *. intros x Hx. apply HF. rewrite <- (firstn_skipn k st). apply in_or_app. auto. }
  split.
  - rewrite (rsum_ext _ (fun x => / S * x)) by (intros; unfold Rdiv; ring). rewrite rsum_scale. fold S. field. lra.
  - rewrite Forall_forall in *. intros y Hy. apply in_map_iff in Hy. destruct Hy as (x & <- & Hx).
    apply Rdiv_lt_0_compat; auto.
Qed.

Lemma integrated_r0 r0 k st : 0 < r0 -> Forall (fun x => 0 < x) st -> (0 < k)%nat -> st <> [] ->
  rsum (map (fun n => Rpower (layer_r0 r0 n) (-5/3)) (firstn k (rnorm k st))) = Rpower r0 (-5/3).
Proof.
  intros H0 HF Hk Hne. destruct (rnorm_sum k st HF Hk Hne) as [E P].
  rewrite (rsum_ext _ (fun n => Rpower r0 (-5/3) * n)).
  - rewrite rsum_scale, E. ring.
  - intros n Hn. apply layer_r0_spec; auto. rewrite Forall_forall in P. apply P.
    rewrite <- (firstn_skipn k (rnorm k st)). apply in_or_app. auto.
Qed.

Lemma layer_scale_sq r0 n : 0 < r0 -> 0 < n -> layer_scale r0 n * layer_scale r0 n = Rpower r0 (-5/3) * n.
Proof.
  intros H0 Hn. unfold layer_scale. rewrite <- Rpower_plus. replace (-5/6 + -5/6) with (-5/3) by lra.
  replace (layer_r0 r0 n / 1) with (layer_r0 r0 n) by lra. apply layer_r0_spec; auto.
Qed.

Lemma rsum_combine_pos speeds norms : Forall (fun x => 0 < x) norms -> length speeds = length norms -> norms <> [] ->
  0 < rsum (map (fun p => Rpower (fst p) (5/3) * snd p) (combine speeds norms)).
Proof.
  revert norms. induction speeds as [|v speeds IH]; intros [|n norms] HF HL Hne; try discriminate; [contradiction|].
  inversion HF; subst. cbn. fold (rsum (map (fun p => Rpower (fst p) (5/3) * snd p) (combine speeds norms))).
  assert (0 < Rpower v (5/3) * n) by (apply Rmult_lt_0_compat; auto; apply Rpower_pos).
  destruct norms as [|n' norms]; [destruct speeds; cbn; lra|].
  assert (0 < rsum (map (fun p => Rpower (fst p) (5 / 3) * snd p) (combine speeds (n' :: norms)))).
  { apply IH; auto. discriminate. }
  lra.
Qed.

Lemma rsum_scaled c speeds norms : 0 < c -> Forall (fun x => 0 < x) speeds ->
  rsum (map (fun p => Rpower (fst p) (5/3) * snd p) (combine (map (fun v => c * v) speeds) norms))
  = Rpower c (5/3) * rsum (map (fun p => Rpower (fst p) (5/3) * snd p) (combine speeds norms)).
Proof.
  intros Hc HF. revert norms. induction HF as [|v speeds Hv HF IH]; intros [|n norms]; cbn; try lra.
  fold (rsum (map (fun p => Rpower (fst p) (5/3) * snd p) (combine (map (fun v => c * v) speeds) norms))).
  rewrite IH. unfold rsum. rewrite <- Rpower_mult_distr by auto. ring.
Qed.

Lemma vbar_scaled c speeds norms : 0 < c -> Forall (fun x => 0 < x) speeds -> Forall (fun x => 0 < x) norms ->
  length speeds = length norms -> norms <> [] -> vbar53 (map (fun v => c * v) speeds) norms = c * vbar53 speeds norms.
Proof.
  intros Hc Hs Hn HL Hne. unfold vbar53. rewrite rsum_scaled by auto.
  rewrite <- Rpower_mult_distr; [|apply Rpower_pos | apply rsum_combine_pos; auto].
  f_equal. apply Rpower_opp_inv; auto. lra.
Qed.

Lemma tau0_requested r0 speeds norms req : 0 < r0 -> 0 < req -> Forall (fun x => 0 < x) speeds -> Forall (fun x => 0 < x) norms ->
  length speeds = length norms -> norms <> [] ->
  tau0_of r0 (scale_speeds r0 speeds norms req) norms = req.
Proof.
  intros H0 Hr Hs Hn HL Hne.
  assert (Hv : 0 < vbar53 speeds norms) by apply Rpower_pos.
  assert (Ht : 0 < tau0_of r0 speeds norms) by (unfold tau0_of; apply Rdiv_lt_0_compat; auto; lra).
  unfold scale_speeds. rewrite (map_ext _ (fun v => tau0_of r0 speeds norms / req * v)) by (intros; field; lra).
  unfold tau0_of at 1. rewrite vbar_scaled; auto; [|apply Rdiv_lt_0_compat; auto].
  unfold tau0_of. field. repeat split; lra.
Qed.

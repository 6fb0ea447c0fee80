From Coq Require Import Reals Lra.
From Verif.Model Require Import ShReal.
Open Scope R_scope.
Lemma five_mags zp area mag t : photons_R zp area (mag + 5) t * 100 = photons_R zp area mag t.
Proof.
  unfold photons_R. replace (- (mag + 5) / (5 / 2)) with (- mag / (5 / 2) + - INR 2) by (cbn [INR]; field).
  rewrite Rpower_plus, Rpower_Ropp, Rpower_pow by lra. field.
Qed.
Lemma linear_exposure zp area mag t k : photons_R zp area mag (k * t) = k * photons_R zp area mag t.
Proof. unfold photons_R. ring. Qed.
Lemma brighter zp area m m' t : 0 < zp -> 0 < area -> 0 < t -> m < m' -> photons_R zp area m' t < photons_R zp area m t.
Proof.
  intros Hz Ha Ht Hm. unfold photons_R. apply Rmult_lt_compat_l; [apply Rmult_lt_0_compat; auto|].
  apply Rmult_lt_compat_r; auto. apply Rpower_lt; lra.
Qed.

(** The discrete Fourier transform is inverted by its inverse, and so is the filter of the pyramid. *)
From Coq Require Import ZArith Reals List Bool Lra Lia.
From Coquelicot Require Import Complex.
From Verif.Base Require Import Py CSum CSumFacts.
From Verif.Model Require Import Numerics Pyramid.
From Verif.Spec Require Import PyramidSpec.
From Verif.Proofs Require Import PyramidProofs PyramidSymmetry.
Import ListNotations.
Open Scope R_scope.

Lemma inv1 n (s : R) (f : Z -> C) x : (0 <= x < n)%Z -> s = 1 \/ s = -1 ->
  csum n (fun u => csum n (fun i => f i * cis (s * (2 * PI * IZR (u * i) / IZR n))) * cis (- s * (2 * PI * IZR (u * x) / IZR n)))%C = (RtoC (IZR n) * f x)%C.
Proof.
  intros Hx Hs. assert (Rn : IZR n <> 0) by (apply IZR_neq; lia).
  transitivity (csum n (fun i => csum n (fun u => f i * cis (s * (2 * PI * IZR (u * (i - x)) / IZR n))))%C).
  { rewrite csum_swap. apply csum_ext. intros u Hu. rewrite <- csum_scale_r. apply csum_ext. intros i Hi. rewrite <- Cmult_assoc, <- cis_add. do 2 f_equal.
    rewrite !mult_IZR, minus_IZR. field. auto. }
  rewrite (csum_single n x); [|lia|].
  - rewrite csum_scale. rewrite (csum_ext n _ (fun _ => RtoC 1)).
    + rewrite csum_R, rsum_const by lia. rewrite Rmult_1_r. ring.
    + intros u Hu. rewrite Z.sub_diag, Z.mul_0_r. replace (s * (2 * PI * IZR 0 / IZR n)) with 0; [apply cis_0|]. field. auto.
  - intros i Hi Hne. rewrite csum_scale.
    rewrite (csum_ext n _ (fun u => cis (2 * PI * IZR ((if Rlt_dec s 0 then (x - i) else (i - x)) * u) / IZR n)))
      by (intros u Hu; f_equal; destruct Hs as [-> | ->]; destruct (Rlt_dec _ 0); try lra; rewrite !mult_IZR, !minus_IZR; field; auto).
    rewrite root_sum by lia. destruct (Z.eqb_spec ((if Rlt_dec s 0 then (x - i) else (i - x)) mod n) 0) as [M|M]; [|ring].
    exfalso. apply Z.mod_divide in M; [|lia]. destruct M as [q M].
    assert (q <= -1 \/ q = 0 \/ 1 <= q)%Z as [|[|]] by lia; subst; destruct (Rlt_dec s 0); nia.
Qed.
Lemma inv2 n (s : R) (f : Z -> Z -> C) x y : (0 <= x < n)%Z -> (0 <= y < n)%Z -> s = 1 \/ s = -1 ->
  csum n (fun u => csum n (fun v => csum n (fun i => csum n (fun j => f i j * cis (s * (2 * PI * IZR (v * j) / IZR n))) * cis (s * (2 * PI * IZR (u * i) / IZR n)))
     * cis (- s * (2 * PI * IZR (v * y) / IZR n))) * cis (- s * (2 * PI * IZR (u * x) / IZR n)))%C = (RtoC (IZR n) * RtoC (IZR n) * f x y)%C.
Proof.
  intros Hx Hy Hs.
  transitivity (csum n (fun u => csum n (fun i => (RtoC (IZR n) * f i y) * cis (s * (2 * PI * IZR (u * i) / IZR n))) * cis (- s * (2 * PI * IZR (u * x) / IZR n)))%C).
  - apply csum_ext. intros u Hu. f_equal.
    transitivity (csum n (fun i => csum n (fun v => csum n (fun j => f i j * cis (s * (2 * PI * IZR (v * j) / IZR n))) * cis (- s * (2 * PI * IZR (v * y) / IZR n))) * cis (s * (2 * PI * IZR (u * i) / IZR n)))%C).
    + rewrite (csum_ext n _ (fun v => csum n (fun i => csum n (fun j => f i j * cis (s * (2 * PI * IZR (v * j) / IZR n))) * cis (- s * (2 * PI * IZR (v * y) / IZR n)) * cis (s * (2 * PI * IZR (u * i) / IZR n)))))%C.
      * rewrite csum_swap. apply csum_ext. intros i Hi. rewrite csum_scale_r. reflexivity.
      * intros v Hv. rewrite <- csum_scale_r. apply csum_ext. intros i Hi. ring.
    + apply csum_ext. intros i Hi. f_equal. apply (inv1 n s (f i) y Hy Hs).
  - rewrite (inv1 n s (fun i => RtoC (IZR n) * f i y)%C x Hx Hs). ring.
Qed.
Lemma nn n : (0 < n)%Z -> (RtoC (/ (IZR n * IZR n)) * (RtoC (IZR n) * RtoC (IZR n)))%C = RtoC 1.
Proof. intro H. rewrite <- !RtoC_mult. f_equal. field. apply IZR_neq. lia. Qed.
Lemma dft2_idft2 n F u v : (0 <= u < n)%Z -> (0 <= v < n)%Z -> dft2 n (idft2 n F) u v = F u v.
Proof.
  intros Hu Hv. unfold dft2, idft2.
  transitivity (RtoC (/ (IZR n * IZR n)) * (RtoC (IZR n) * RtoC (IZR n) * F u v))%C; [|rewrite Cmult_assoc, nn by lia; ring].
  rewrite <- (inv2 n 1 F u v Hu Hv (or_introl eq_refl)). rewrite <- csum_scale. apply csum_ext. intros i Hi. rewrite Cmult_assoc. f_equal.
  - rewrite <- csum_scale. apply csum_ext. intros j Hj. rewrite Cmult_assoc. f_equal.
    + f_equal. apply csum_ext. intros a Ha. f_equal; [|f_equal; rewrite (Z.mul_comm i), Rmult_1_l; reflexivity]. apply csum_ext. intros b Hb. do 2 f_equal. rewrite (Z.mul_comm j), Rmult_1_l. reflexivity.
    + f_equal. rewrite (Z.mul_comm j). ring.
  - f_equal. rewrite (Z.mul_comm i). ring.
Qed.
Lemma idft2_dft2 n f i j : (0 <= i < n)%Z -> (0 <= j < n)%Z -> idft2 n (dft2 n f) i j = f i j.
Proof.
  intros Hi Hj. unfold dft2, idft2.
  transitivity (RtoC (/ (IZR n * IZR n)) * (RtoC (IZR n) * RtoC (IZR n) * f i j))%C; [|rewrite Cmult_assoc, nn by lia; ring].
  rewrite <- (inv2 n (-1) f i j Hi Hj (or_intror eq_refl)). f_equal. apply csum_ext. intros a Ha. f_equal; [|f_equal; ring].
  apply csum_ext. intros b Hb. f_equal; [|f_equal; ring]. apply csum_ext. intros p Hp. f_equal; [|f_equal; ring]. apply csum_ext. intros q Hq. do 2 f_equal. ring.
Qed.
(** Any field on the detector is made by some field in the memory. *)
Definition unshifted (n k : Z) : Z := ((k + n / 2) mod n)%Z.
Lemma unshift n k : (0 <= k < n)%Z -> unshifted n (shifted n k) = k.
Proof.
  intro H. unfold unshifted, shifted. rewrite Zplus_mod_idemp_l. replace (k + (n - n / 2) + n / 2)%Z with (k + 1 * n)%Z by ring. rewrite Z_mod_plus_full. apply Z.mod_small. exact H.
Qed.
Definition preimage (c : pyr) (t : Z -> Z -> C) : Z -> Z -> C :=
  idft2 (y_N c) (fun a b => dft2 (y_N c) t (unshifted (y_N c) a) (unshifted (y_N c) b) * cis (- pyr_phase c (unshifted (y_N c) a) (unshifted (y_N c) b)))%C.
Lemma filter_preimage c mem k t i j : mem (shifted (pyr_slots c) k) = preimage c t -> (0 <= i < y_N c)%Z -> (0 <= j < y_N c)%Z -> pyr_filter c mem k i j = t i j.
Proof.
  intros E Hi Hj. unfold pyr_filter. rewrite E. rewrite (idft2_ext _ _ (dft2 (y_N c) t)); [apply idft2_dft2; auto|]. intros u v Hu Hv. unfold preimage.
  rewrite dft2_idft2 by (apply shifted_range; lia). rewrite !unshift by auto. rewrite <- Cmult_assoc, <- cis_add. replace (- pyr_phase c u v + pyr_phase c u v) with 0 by ring. rewrite cis_0. ring.
Qed.

(** C147-C150: the parallel array kernels give one result, whatever the interleaving of their iterations. *)
From Verif.Base Require Import Vec.
From Verif.Model Require Import Numerics Parallel.
From Verif.Spec Require Import NumericsSpec ParallelSpec.
From Verif.Proofs Require Import NumericsProofs ParallelProofs ParallelKernels.
Open Scope Z_scope.

(** ** C147: interpolation and zoom *)
(** In any arithmetic (so also in floating point, to the last bit), for every schedule: element (i, j) of the output is the bilinear interpolation of the
    data at the coordinates given, nothing else changes. *)
Theorem C147_bilinear : forall V (add sub mul : V -> V -> V) ofZ int32 ge eps data xc yc out n0 n1 nx ny (m : memory V),
  data <> out -> xc <> out -> yc <> out ->
  always_gives m (prange nx (bilinear_iter add sub mul ofZ int32 ge eps data xc yc out n0 n1 ny))
    (with_array m out (box2 (Z.of_nat nx) (Z.of_nat ny)) (fun i j _ =>
       bilinear_value add sub mul ofZ int32 n0 n1 (fun u v => m (data, u, v, 0))
         (clamp_to sub ofZ ge eps n0 (m (xc, i, 0, 0))) (clamp_to sub ofZ ge eps n1 (m (yc, j, 0, 0))))).
Proof. intros. apply bilinear_gives; assumption. Qed.
Theorem C147_zoom : forall V (add sub mul : V -> V -> V) ofZ int32 post data out n0 n1 mr mc cx cy (m : memory V), data <> out ->
  always_gives m (prange mr (zoom_iter add sub mul ofZ int32 post data out n0 n1 mc cx cy))
    (with_array m out (box2 (Z.of_nat mr) (Z.of_nat mc)) (fun i j _ =>
       post (bilinear_value add sub mul ofZ int32 n0 n1 (fun u v => m (data, u, v, 0)) (cx i) (cy j)))).
Proof. intros. apply zoom_gives; assumption. Qed.
Lemma bval_at (a : arr Qc) (m : memory Qc) data x y v : holds m data a -> bilinear_at a x y = Ok v ->
  bilinear_value Qcplus Qcminus Qcmult qz qc_int (nrow a) (ncol a) (fun u w => m (data, u, w, 0)) x y = v.
Proof.
  intros H E. unfold bilinear_at in E. unfold bilinear_value. cbv zeta in *.
  assert (G : forall i j w, nb_get a i j = Ok w -> m (data, nb_index (nrow a) i, nb_index (ncol a) j, 0) = w).
  { intros i j w Q. unfold nb_get in Q. cbv zeta in Q. destruct (_ && _) eqn:B in Q; [|discriminate]. injection Q as <-.
    rewrite !andb_true_iff, !Z.leb_le, !Z.ltb_lt in B. apply H; lia. }
  destruct (nb_get a (qc_int x) (qc_int y)) as [d00|] eqn:E00; [|discriminate]. destruct (nb_get a (qc_int x + 1) (qc_int y)) as [d10|] eqn:E10; [|discriminate].
  destruct (nb_get a (qc_int x) (qc_int y + 1)) as [d01|] eqn:E01; [|discriminate]. destruct (nb_get a (qc_int x + 1) (qc_int y + 1)) as [d11|] eqn:E11; [|discriminate].
  apply G in E00, E10, E01, E11. rewrite E00, E10, E01, E11. cbn [bind] in E. injection E as <-. reflexivity.
Qed.
(** Over the rationals, these are the arrays of C35 and C36. *)
Theorem C147_exact : forall (a : arr Qc) (m : memory Qc) data xc yc out, data <> out -> xc <> out -> yc <> out -> holds m data a ->
  (forall nx ny, exists f, always_gives m (prange nx (bilinear_iter Qcplus Qcminus Qcmult qz qc_int (fun x y => qc_leb y x) interp_eps data xc yc out (nrow a) (ncol a) ny)) f /\
     forall i j v, 0 <= i < Z.of_nat nx -> 0 <= j < Z.of_nat ny ->
       at2 (bilinear_interp true a (Z.of_nat nx) (Z.of_nat ny) (fun i => m (xc, i, 0, 0)) (fun j => m (yc, j, 0, 0))) i j = Ok v -> f (out, i, j, 0) = v) /\
  (forall mr mc, exists f, always_gives m (prange mr (zoom_iter Qcplus Qcminus Qcmult qz qc_int (fun v => v) data out (nrow a) (ncol a) mc
       (zoom_coord (nrow a) (Z.of_nat mr)) (zoom_coord (ncol a) (Z.of_nat mc)))) f /\
     forall i j v, 0 <= i < Z.of_nat mr -> 0 <= j < Z.of_nat mc -> at2 (zoom a (Z.of_nat mr) (Z.of_nat mc)) i j = Ok v -> f (out, i, j, 0) = v).
Proof.
  intros a m data xc yc out D X Y H.
  assert (B : forall nr nc i j, 0 <= i < nr -> 0 <= j < nc -> box2 nr nc i j 0 = true).
  { intros nr nc i j Hi Hj. unfold box2. rewrite !andb_true_iff, !Z.leb_le, !Z.ltb_lt, Z.eqb_eq. lia. }
  split.
  - intros nx ny. eexists. split; [apply bilinear_gives; assumption|]. intros i j v Hi Hj E. cbn. rewrite Nat.eqb_refl, B by assumption. cbn [andb].
    apply (bval_at a m data _ _ v H). exact E.
  - intros mr mc. eexists. split; [apply zoom_gives; assumption|]. intros i j v Hi Hj E. cbn. rewrite Nat.eqb_refl, B by assumption. cbn [andb].
    apply (bval_at a m data _ _ v H). exact E.
Qed.
(** The output array has to be another one than the input: otherwise two schedules of the same call end differently. *)
Theorem C147_separate_arrays_needed : exists (m : memory Z) data m1 m2,
  let p := prange 2 (zoom_iter Z.add Z.sub Z.mul (fun z => z) (fun z => z) (fun v => v) data data 2 2 1 (fun i => 1 - i) (fun j => j)) in
  steps (m, p) (m1, [Done; Done]) /\ steps (m, p) (m2, [Done; Done]) /\ exists a, m1 a <> m2 a.
Proof.
  set (q := zoom_iter Z.add Z.sub Z.mul (fun z => z) (fun z => z) (fun v => v) 0 0 2 2 1 (fun i => 1 - i) (fun j => j)).
  set (m := (fun a => snd (fst (fst a))) : memory Z).
  exists m, 0%nat, (run (q 1) (run (q 0) m)), (run (q 0) (run (q 1) m)). cbv zeta. split; [|split].
  - eapply steps_trans; [exact (run_thread (q 0) m [] [q 1]) | exact (run_thread (q 1) _ [Done] [])].
  - eapply steps_trans; [exact (run_thread (q 1) m [q 0] []) | exact (run_thread (q 0) _ [] [Done])].
  - exists (0%nat, 1, 0, 0). vm_compute. discriminate.
Qed.
Print Assumptions C147_bilinear.
Print Assumptions C147_zoom.
Print Assumptions C147_exact.
Print Assumptions C147_separate_arrays_needed.
(** Two rows, run with their accesses alternating. *)
Definition ex_mem : memory Z := fun a => let '(n, i, j, k) := a in Z.of_nat n + 10 * i + j * j.
Example C147_instance : (0 <> 3)%nat /\ holds ex_mem 0 (mkArr 3 3 (fun i j => 10 * i + j * j)) /\
  let p := prange 2 (zoom_iter Z.add Z.sub Z.mul (fun z => z) (fun z => z) (fun v => v) 0 3 3 3 2 (fun i => i) (fun j => j)) in
  in_order p ex_mem (3%nat, 1, 1, 0) = 11 /\ exists s, step (ex_mem, p) s.
Proof.
  split; [discriminate|]. split; [intros i j _ _; reflexivity|]. split; [vm_compute; reflexivity|]. eexists. exact (step_read ex_mem [] _ _ _).
Qed.

(** ** C148: binning *)
Theorem C148_bin : forall V (add : V -> V -> V) ofZ img out b nr nc (m : memory V), img <> out -> 0 <= b ->
  always_gives m (prange nr (bin_iter add ofZ img out b nc))
    (with_array m out (box2 (Z.of_nat nr) (Z.of_nat nc)) (fun i j _ => block_sum add ofZ b (fun x y => m (img, i * b + x, j * b + y, 0)))).
Proof. intros. apply bin_gives; assumption. Qed.
Theorem C148_bin_stack : forall V (add : V -> V -> V) ofZ imgs out b nn nr nc (m : memory V), imgs <> out -> 0 <= b ->
  always_gives m (prange nn (bins_iter add ofZ imgs out b nr nc))
    (with_array m out (box3 (Z.of_nat nn) (Z.of_nat nr) (Z.of_nat nc)) (fun n i j => block_sum add ofZ b (fun x y => m (imgs, n, i * b + x, j * b + y)))).
Proof. intros. apply bins_gives; assumption. Qed.
(** The variants without parallel loops (in order) give the same, to the last bit. *)
Theorem C148_slow_variants : forall V (add : V -> V -> V) ofZ img out b nn nr nc (m : memory V), img <> out -> 0 <= b ->
  (forall s, steps (m, prange nr (bin_iter add ofZ img out b nc)) s -> finished s -> forall a, fst s a = in_order (prange nr (bin_iter add ofZ img out b nc)) m a) /\
  (forall s, steps (m, prange nn (bins_iter add ofZ img out b nr nc)) s -> finished s -> forall a, fst s a = in_order (prange nn (bins_iter add ofZ img out b nr nc)) m a).
Proof.
  intros V add ofZ img out b nn nr nc m D Hb.
  assert (G : forall (l : list (prog V)) f, always_gives m l f -> forall s, steps (m, l) s -> finished s -> forall a, fst s a = in_order l m a).
  { intros l f A [m' l'] S F a. rewrite (gives_in_order m l f A). destruct A as [_ A]. destruct (A _ S) as [[s' C]|[_ E]]; [destruct (done_stuck _ _ _ F C) | apply E]. }
  split; eapply G; [apply bin_gives | apply bins_gives]; assumption.
Qed.
Lemma fold_zsum (b : Z) (g : Z -> Qc) s : 0 <= b -> fold_left (fun s y => (s + g y)%Qc) (zseq b) s = (s + zsum b g)%Qc.
Proof.
  intros Hb. revert s. pattern b. apply natlike_ind; [| |exact Hb].
  - intros s. cbn [zseq Z.to_nat seq map fold_left]. rewrite zsum_nil by lia. ring.
  - intros x Hx IH s. unfold Z.succ. rewrite zseq_next, fold_left_app, IH, zsum_succ by exact Hx. cbn. ring.
Qed.
Lemma block_zsum (b : Z) (g : Z -> Z -> Qc) : 0 <= b -> block_sum Qcplus qz b g = zsum b (fun x => zsum b (g x)).
Proof.
  intros Hb. unfold block_sum. transitivity (fold_left (fun s x => (s + zsum b (g x))%Qc) (zseq b) (qz 0)).
  - generalize (qz 0). generalize (zseq b) at 2 3. induction l as [|x l IH]; intros s; cbn; [reflexivity|]. rewrite fold_zsum by exact Hb. apply IH.
  - rewrite fold_zsum by exact Hb. rewrite qz_0. ring.
Qed.
(** Over the rationals, this is the image of C37. *)
Theorem C148_exact : forall (a : arr Qc) (m : memory Qc) img out b nr nc, img <> out -> 0 <= b -> holds m img a ->
  nrow a = Z.of_nat nr * b -> ncol a = Z.of_nat nc * b ->
  exists f, always_gives m (prange nr (bin_iter Qcplus qz img out b nc)) f /\ holds f out (bin_img a b (Z.of_nat nr) (Z.of_nat nc)).
Proof.
  intros a m img out b nr nc D Hb H Er Ec. eexists. split; [apply bin_gives; assumption|]. intros i j Hi Hj. cbn in Hi, Hj. cbn.
  replace (box2 (Z.of_nat nr) (Z.of_nat nc) i j 0) with true by (symmetry; unfold box2; rewrite !andb_true_iff, !Z.leb_le, !Z.ltb_lt, Z.eqb_eq; lia).
  rewrite Nat.eqb_refl. cbn [andb]. rewrite block_zsum by exact Hb. apply zsum_ext. intros x Hx. apply zsum_ext. intros y Hy. apply H; nia.
Qed.
Print Assumptions C148_bin.
Print Assumptions C148_bin_stack.
Print Assumptions C148_slow_variants.
Print Assumptions C148_exact.
Example C148_instance : (1 <> 2)%nat /\ in_order (prange 2 (bin_iter Z.add (fun z => z) 1 2 2 1)) (fun a => let '(n, i, j, k) := a in 10 * i + j) (2%nat, 1, 0, 0) = 102.
Proof. split; [discriminate | vm_compute; reflexivity]. Qed.

(** ** C149: cutting out the sub-apertures *)
Theorem C149_chop : forall V (mul : V -> V -> V) phase mask out nn s cx cy (m : memory V), phase <> out -> mask <> Some out ->
  always_gives m (prange nn (chop_iter mul phase mask out s cx cy))
    (with_array m out (box3 (Z.of_nat nn) (Z.of_nat s) (Z.of_nat s)) (fun n u v =>
       let p := m (phase, cx n + u, cy n + v, 0) in match mask with Some mk => mul p (m (mk, cx n + u, cy n + v, 0)) | None => p end)).
Proof. intros. apply chop_gives; assumption. Qed.
Print Assumptions C149_chop.
Example C149_instance : (0 <> 2)%nat /\ Some 1%nat <> Some 2%nat /\
  in_order (prange 2 (chop_iter Z.mul 0 (Some 1%nat) 2 2 (fun n => 2 * n) (fun n => n))) ex_mem (2%nat, 1, 1, 1) = (30 + 4) * (1 + 30 + 4).
Proof. split; [discriminate|]. split; [discriminate | vm_compute; reflexivity]. Qed.

(** ** C150: the shift in place *)
Theorem C150_shift : forall V (a : arr V) (m : memory V) n, 0 <= nrow a -> 0 <= ncol a -> holds m n a ->
  exists f, always_gives m (prange (Z.to_nat (nrow a / 2)) (shift_iter n (nrow a) (ncol a))) f /\
  holds f n (fftshift_inplace a (zseq (nrow a / 2))) /\ (Z.even (nrow a) = true -> Z.even (ncol a) = true -> holds f n (fftshift a)) /\
  forall b i j k, b <> n \/ k <> 0 \/ ~ (0 <= i < nrow a) \/ ~ (0 <= j < ncol a) -> f (b, i, j, k) = m (b, i, j, k).
Proof.
  intros V a m n H0 H1 H. eexists. split; [apply shift_gives; assumption|].
  assert (X : holds (with_array m n (box2 (2 * (nrow a / 2)) (2 * (ncol a / 2))) (fun i j _ => m (n, flip (nrow a / 2) i, flip (ncol a / 2) j, 0))) n (fftshift_inplace a (zseq (nrow a / 2)))).
  { intros i j Hi Hj. cbn [nrow ncol fftshift_inplace] in Hi, Hj. rewrite fftshift_inplace_at by (auto using Permutation.Permutation_refl).
    pose proof (Z.div_mod (nrow a) 2 ltac:(lia)). pose proof (Z.mod_pos_bound (nrow a) 2 ltac:(lia)). pose proof (Z.div_mod (ncol a) 2 ltac:(lia)). pose proof (Z.mod_pos_bound (ncol a) 2 ltac:(lia)).
    set (h := nrow a / 2) in *. set (w := ncol a / 2) in *. unfold with_array, box2. rewrite Nat.eqb_refl, Z.eqb_refl. cbn [andb].
    destruct (Z.leb_spec 0 i), (Z.ltb_spec i (2 * h)), (Z.leb_spec 0 j), (Z.ltb_spec j (2 * w)); cbn [andb]; try lia;
      (rewrite H; [|unfold flip; destruct (Z.ltb_spec i h); lia|unfold flip; destruct (Z.ltb_spec j w); lia] || rewrite H by lia);
      unfold s_ix, flip; repeat (match goal with |- context [?u <? ?v] => destruct (Z.ltb_spec u v) end); try lia; reflexivity. }
  split; [exact X|]. split.
  - intros E0 E1 i j Hi Hj. rewrite (X i j Hi Hj). cbn [nrow ncol fftshift] in Hi, Hj.
    apply (fftshift_even a (zseq (nrow a / 2)) E0 E1 (Permutation.Permutation_refl _)); assumption.
  - intros b i j k N. unfold with_array. destruct (Nat.eqb_spec b n) as [->|]; [|reflexivity]. cbn [andb]. unfold box2.
    pose proof (Z.div_mod (nrow a) 2 ltac:(lia)). pose proof (Z.mod_pos_bound (nrow a) 2 ltac:(lia)). pose proof (Z.div_mod (ncol a) 2 ltac:(lia)). pose proof (Z.mod_pos_bound (ncol a) 2 ltac:(lia)).
    destruct (Z.leb_spec 0 i), (Z.ltb_spec i (2 * (nrow a / 2))), (Z.leb_spec 0 j), (Z.ltb_spec j (2 * (ncol a / 2))), (Z.eqb_spec k 0); cbn [andb]; try reflexivity. exfalso. destruct N as [N|[N|[N|N]]]; [congruence | lia | lia | lia].
Qed.
Print Assumptions C150_shift.
Example C150_instance : holds ex_mem 0 (mkArr 4 2 (fun i j => 10 * i + j * j)) /\
  map (fun i => map (fun j => in_order (prange 2 (shift_iter 0 4 2)) ex_mem (0%nat, i, j, 0)) [0; 1]) [0; 1; 2; 3] = [[21; 20]; [31; 30]; [1; 0]; [11; 10]].
Proof. split; [intros i j _ _; reflexivity | vm_compute; reflexivity]. Qed.

(** C142-C146: strength of phase screens, screen files, interpolation over missing data. *)
From Verif.Base Require Import Vec.
From Verif.Model Require Import ScreenFiles ZoomMissing.
From Verif.Model Require AtmosReal.
From Verif.Spec Require Import ScreenSpec.
From Verif.Proofs Require Import ScreenProofs.
From Coq Require Import Reals Lra Lia.
Open Scope Z_scope.

(** ** C142: screens of every origin have the strength asked for *)
(** Screens made by makePhaseScreens with any r0, saved, and loaded by a simulation with that pixel scale, are the ones the
    simulation would have made itself (of the same random numbers, outer and inner scale). *)
Theorem C142_files : forall gen n r0 N ps L0 s, kolmogorov gen -> (1 <= n)%nat -> (0 < r0)%R -> (0 < ps)%R -> 1 <= s -> s <= N -> 4 <= N ->
  exists d l, make_screens gen n r0 N ps L0 (1/1000)%R empty_dir = (d, None) /\ load_screens s ps n (listed d n) = Ok (l, N) /\
  Forall2 same_screen l (own_screens gen n N ps (fun _ => L0)).
Proof.
  intros gen n r0 N ps L0 s K Hn Hr Hp Hs HsN HN. unfold make_screens. set (fs := map _ (seq 0 n)).
  assert (LF : length fs = n) by (unfold fs; rewrite map_length, seq_length; reflexivity).
  destruct (write_all_free fs 0 empty_dir) as [d E]; [reflexivity|]. destruct (write_all_ok _ _ _ _ E) as [A B]. rewrite LF in A.
  assert (FN : forall i, (i < n)%nat -> nth_error (listed d n) i = Some (Some (mkFile N N (Some (r0 / ps)%R) (gen i r0 N ps L0 (1/1000)%R)))).
  { intros i Hi. rewrite listed_nth by exact Hi. f_equal. destruct (A i Hi) as [_ Q]. cbn in Q. rewrite Q. unfold fs. rewrite nth_error_map.
    rewrite (nth_error_nth' _ 0%nat) by (rewrite seq_length; exact Hi). rewrite seq_nth by exact Hi. reflexivity. }
  destruct (proj2 (load_iff s ps n (listed d n) Hs Hn)) as [[l W] L].
  { exists N. split; [exact HsN|]. split; [exact HN|]. intros i Hi. eexists. split; [apply FN; exact Hi | split; reflexivity]. }
  destruct (load_value _ _ _ _ _ _ L) as [Ll [FF V]]. exists d, l. split; [exact E|].
  assert (W = N). { destruct FF as [_ [_ FF]]. destruct (FF 0%nat ltac:(lia)) as (f & Q & R & _). rewrite FN in Q by lia. injection Q as <-. cbn in R. lia. }
  subst W. split; [exact L|].
  assert (P : forall i a b, nth_error l i = Some a -> nth_error (own_screens gen n N ps (fun _ => L0)) i = Some b -> same_screen a b).
  { intros i a b Ha Hb. assert (Hi : (i < n)%nat) by (rewrite <- Ll; apply nth_error_Some; congruence). destruct (V i Hi) as (f & Q & R). rewrite FN in Q by exact Hi.
    injection Q as <-. rewrite R in Ha. injection Ha as <-. unfold own_screens in Hb. rewrite nth_error_map in Hb. rewrite (nth_error_nth' _ 0%nat) in Hb by (rewrite seq_length; exact Hi).
    rewrite seq_nth in Hb by exact Hi. cbn in Hb. injection Hb as <-. repeat split. intros x y. cbn. rewrite (K i r0 N ps L0 _ x y Hr). apply rescale_unit; assumption. }
  assert (LL : length l = length (own_screens gen n N ps (fun _ => L0))) by (unfold own_screens; rewrite map_length, seq_length; exact Ll).
  clear -P LL. revert LL P. generalize (own_screens gen n N ps (fun _ => L0)). intros m. revert m. induction l as [|a l IH]; intros [|b m] LL P; try discriminate; constructor.
  - apply (P 0%nat); reflexivity.
  - apply IH; [injection LL; auto|]. intros i x y Hx Hy. apply (P (Datatypes.S i)); assumption.
Qed.
(** A random screen of a frame has the strength of a moving one: both are the r0 = 1 screen times the layer's factor. *)
Theorem C142_random_partial : forall gen k s ps L0 r0 norm i j, kolmogorov gen ->
  random_value gen k s ps L0 r0 norm i j = moved_value r0 norm (gen k 1%R s ps L0 (1/100)%R i j).
Proof.
  intros gen k s ps L0 r0 norm i j K. unfold random_value, moved_value, AtmosReal.layer_scale. rewrite K; [|unfold AtmosReal.layer_r0; apply exp_pos].
  replace (AtmosReal.layer_r0 r0 norm / 1)%R with (AtmosReal.layer_r0 r0 norm) by field. reflexivity.
Qed.
(** But not its inner scale: 0.01 m, where the moving screens have 0.001 m. *)
Theorem C142_inner_scale_refuted : exists gen, kolmogorov gen /\ forall k s ps L0 i j,
  random_value gen k s ps L0 1 1 i j <> moved_value 1 1 (ws_data (nth k (own_screens gen (Datatypes.S k) s ps (fun _ => L0)) (mkScr 0 0 (fun _ _ => 0%R))) i j).
Proof.
  exists (fun _ r0 _ _ _ l0 _ _ => (l0 * Rpower r0 (-5/6))%R). split.
  - intros k r0 N ps L0 l0 i j H. rewrite Rpower_base_one. ring.
  - intros k s ps L0 i j. unfold own_screens. rewrite (nth_indep _ _ (mkScr s s (fun _ _ => (1/1000 * Rpower 1 (-5/6))%R))) by (rewrite map_length, seq_length; lia).
    rewrite (map_nth (fun k => mkScr s s (fun _ _ => (1/1000 * Rpower 1 (-5/6))%R)) (seq 0 (Datatypes.S k)) 0%nat k). cbn [ws_data].
    unfold random_value, moved_value, AtmosReal.layer_scale. replace (AtmosReal.layer_r0 1 1 / 1)%R with (AtmosReal.layer_r0 1 1) by field.
    rewrite Rpower_base_one, Rmult_1_r. set (p := Rpower (AtmosReal.layer_r0 1 1) (-5/6)). assert (0 < p)%R by apply exp_pos.
    assert (0 < 500 / (2 * PI))%R by (pose proof PI_RGT_0 as PP; apply Rdiv_lt_0_compat; lra). intros E.
    apply Rmult_eq_reg_r in E; [|apply Rgt_not_eq; assumption]. lra.
Qed.
Print Assumptions C142_files.
Print Assumptions C142_random_partial.
Print Assumptions C142_inner_scale_refuted.
Example C142_instance : kolmogorov (fun k r0 _ _ _ _ i j => (IZR (i + 2 * j + Z.of_nat k) * Rpower r0 (-5/6))%R) /\ (0 < 15/100)%R /\ 1 <= 64 /\ 64 <= 128.
Proof. split; [|split; [lra|lia]]. intros k r0 N ps L0 l0 i j H. rewrite Rpower_base_one. ring. Qed.

(** ** C143: screen files that fit are loaded, others refused *)
(** Loading succeeds exactly when every file is there and all hold square images of one size, at least that of the
    simulation's screens (and 4, for the cubic spline). *)
Theorem C143_files_partial : forall s ps n files, 1 <= s -> (1 <= n)%nat ->
  (exists l W, load_screens s ps n files = Ok (l, W)) <-> (exists W, files_fit s W n files).
Proof.
  intros s ps n files Hs Hn. rewrite <- (load_iff s ps n files Hs Hn). split; [intros (l & W & E); eauto | intros [[l W] E]; eauto].
Qed.
(** A screen that is too small should be refused with the explanation the code has for it.  It is a numpy ValueError, except
    when the last file is a single pixel or row. *)
Theorem C143_too_small_refuted : forall s ps n f, (1 <= n)%nat -> 2 <= sf_rows f < s ->
  load_screens s ps n (repeat (Some f) n) = Err ValueError.
Proof.
  intros s ps n f Hn Hf. unfold load_screens. destruct n as [|n]; [lia|]. cbn.
  replace (fits_axis (Z.min (sf_rows f) s) s) with false; [reflexivity|]. unfold fits_axis. rewrite Z.min_l by lia. symmetry. apply orb_false_iff. split; apply Z.eqb_neq; lia.
Qed.
(** Only the size of the last screen is compared with the configured one; another screen of another size fails in the
    interpolator. *)
Theorem C143_mixed_refuted : forall s ps f g, 1 <= s -> s <= sf_rows f -> s <= sf_cols f -> s <= sf_rows g -> s <= sf_cols g -> sf_rows f <> sf_rows g ->
  load_screens s ps 2 [Some f; Some g] = Err ValueError.
Proof.
  intros s ps f g Hs F1 F2 G1 G2 N. unfold load_screens. cbn [load_loop]. rewrite !fits_axis_big by lia. cbn. destruct (Z.ltb_spec (sf_rows g) s); [lia|].
  unfold spline_ok. cbn. replace (sf_rows f =? sf_rows g) with false by (symmetry; apply Z.eqb_neq; exact N). reflexivity.
Qed.
Print Assumptions C143_files_partial.
Print Assumptions C143_too_small_refuted.
Print Assumptions C143_mixed_refuted.
Example C143_instance : let f := mkFile 128 128 None (fun _ _ => 1%R) in files_fit 64 128 2 [Some f; Some f; None].
Proof. split; [lia|]. split; [lia|]. intros [|[|i]] Hi; [eexists; repeat split; reflexivity| eexists; repeat split; reflexivity|lia]. Qed.

(** ** C144: saved screens load back *)
Theorem C144_round_trip_partial : forall s W ps n whole d, (0 < ps)%R -> (1 <= n)%nat -> 1 <= s -> s <= W -> 4 <= W -> length whole = n ->
  (forall w, In w whole -> ws_rows w = W /\ ws_cols w = W) -> (forall k, (k < n)%nat -> d (Z.of_nat k) = None) ->
  exists d' l, save_screens ps n whole d = (d', None) /\ load_screens s ps n (listed d' n) = Ok (l, W) /\ Forall2 same_screen l whole /\
  forall z, z < 0 \/ Z.of_nat n <= z -> d' z = d z.
Proof.
  intros s W ps n whole d Hp Hn Hs HsW HW Lw Hw Hd. unfold save_screens. replace (firstn n whole) with whole by (rewrite <- Lw; symmetry; apply firstn_all). set (fs := map _ whole).
  assert (LF : length fs = n) by (unfold fs; rewrite map_length; exact Lw).
  destruct (write_all_free fs 0 d) as [d' E]; [intros k Hk; apply Hd; lia|]. rewrite E. destruct (write_all_ok _ _ _ _ E) as [A B]. rewrite LF in A, B.
  assert (FN : forall i w, nth_error whole i = Some w -> nth_error (listed d' n) i = Some (Some (mkFile (ws_rows w) (ws_cols w) (Some (1 / ps)%R) (ws_data w)))).
  { intros i w Q. assert (Hi : (i < n)%nat) by (rewrite <- Lw; apply nth_error_Some; congruence). rewrite listed_nth by exact Hi. f_equal. destruct (A i Hi) as [_ R]. cbn in R. rewrite R.
    unfold fs. rewrite nth_error_map, Q. reflexivity. }
  assert (EX : forall i, (i < n)%nat -> exists w, nth_error whole i = Some w).
  { intros i Hi. destruct (nth_error whole i) eqn:Q; [eauto|]. apply nth_error_None in Q. lia. }
  destruct (proj2 (load_iff s ps n (listed d' n) Hs Hn)) as [[l V] L].
  { exists W. split; [exact HsW|]. split; [exact HW|]. intros i Hi. destruct (EX i Hi) as [w Q]. eexists. split; [apply FN; exact Q|]. cbn. apply Hw. eapply nth_error_In. exact Q. }
  destruct (load_value _ _ _ _ _ _ L) as [Ll [FF VV]].
  assert (V = W). { destruct FF as [_ [_ FF]]. destruct (FF 0%nat ltac:(lia)) as (f & Q & R & _). destruct (EX 0%nat ltac:(lia)) as [w Qw]. rewrite (FN _ _ Qw) in Q. injection Q as <-. cbn in R.
    destruct (Hw w); [eapply nth_error_In; exact Qw | lia]. }
  subst V. exists d', l. split.
  { replace (Nat.ltb (length whole) n) with false; [reflexivity|]. symmetry. apply Nat.ltb_ge. lia. }
  split; [exact L|]. split; [|exact B].
  assert (P : forall i a b, nth_error l i = Some a -> nth_error whole i = Some b -> same_screen a b).
  { intros i a b Ha Hb. assert (Hi : (i < n)%nat) by (rewrite <- Ll; apply nth_error_Some; congruence). destruct (VV i Hi) as (f & Q & R). rewrite (FN _ _ Hb) in Q.
    injection Q as <-. rewrite R in Ha. injection Ha as <-. repeat split. intros x y. cbn. replace (1 / (1 / ps * ps))%R with 1%R by (field; apply Rgt_not_eq; exact Hp).
    rewrite Rpower_base_one. ring. }
  assert (LL : length l = length whole) by lia. clear -P LL. revert whole LL P. induction l as [|a l IH]; intros [|b m] LL P; try discriminate; constructor.
  - apply (P 0%nat); reflexivity.
  - apply IH; [injection LL; auto|]. intros i x y Hx Hy. apply (P (Datatypes.S i)); assumption.
Qed.
(** Saving where a screen file already is fails - after the screens before it have been written, so that the directory then holds
    screens of two different atmospheres. *)
Theorem C144_again_refuted : forall ps n whole d k f, length whole = n -> (k < n)%nat -> (forall j, (j < k)%nat -> d (Z.of_nat j) = None) -> d (Z.of_nat k) = Some f ->
  exists d', save_screens ps n whole d = (d', Some OSError) /\ d' (Z.of_nat k) = Some f /\
  forall j w, (j < k)%nat -> nth_error whole j = Some w -> exists g, d' (Z.of_nat j) = Some g /\ sf_data g = ws_data w.
Proof.
  intros ps n whole d k f Lw Hk Hd Df. unfold save_screens. replace (firstn n whole) with whole by (rewrite <- Lw; symmetry; apply firstn_all). set (fs := map _ whole).
  assert (LF : length fs = n) by (unfold fs; rewrite map_length; exact Lw).
  destruct (write_all_stop fs 0 d k f) as (d' & E & A & B); [lia | exact Hd | exact Df|]. rewrite E. exists d'. split; [reflexivity|]. split.
  - rewrite <- Df. apply B. lia.
  - intros j w Hj Q. specialize (A j Hj). cbn in A. rewrite A. unfold fs. rewrite nth_error_map, Q. eexists. split; reflexivity.
Qed.
(** Infinite screens cannot be saved. *)
Theorem C144_infinite_refuted : forall ps n d, (1 <= n)%nat -> save_screens ps n [] d = (d, Some KeyError).
Proof. intros ps n d H. unfold save_screens. rewrite firstn_nil. cbn. destruct n; [lia | reflexivity]. Qed.
Print Assumptions C144_round_trip_partial.
Print Assumptions C144_again_refuted.
Print Assumptions C144_infinite_refuted.
Example C144_instance : let w := mkScr 128 128 (fun i j => IZR (i * j)) in
  length [w; w] = 2%nat /\ (forall x, In x [w; w] -> ws_rows x = 128 /\ ws_cols x = 128) /\ (forall k, (k < 2)%nat -> empty_dir (Z.of_nat k) = None).
Proof. split; [reflexivity|]. split; [|reflexivity]. intros x [<-|[<-|[]]]; split; reflexivity. Qed.

(** ** C145: missing elements are left out of the interpolation *)
(** A square array with a number marking the missing elements: only the others are given to the interpolator (so another
    marker makes no difference), and at unchanged size they come back as they were. *)
Theorem C145_marker_partial : forall gd n p q arr v v' i' j',
  (forall i j, arr i j <> Some v') ->
  (exists z z', zoom_2d gd n n p q (Some v) arr = Ok (q, p, z) /\
   zoom_2d gd n n p q (Some v') (fun i j => if fl_eq (arr i j) (Some v) then Some v' else arr i j) = Ok (q, p, z') /\ z i' j' = z' i' j').
Proof.
  intros gd n p q arr v v' i' j' H. rewrite !zoom_square. do 2 eexists. split; [reflexivity|]. split; [reflexivity|]. cbv beta. f_equal. unfold samples.
  rewrite (filter_ext (fun ij => negb (fl_eq (if fl_eq (arr (fst ij) (snd ij)) (Some v) then Some v' else arr (fst ij) (snd ij)) (Some v'))) (fun ij => negb (fl_eq (arr (fst ij) (snd ij)) (Some v)))).
  - apply map_ext_in. intros [i j] Hi. apply filter_In in Hi. destruct Hi as [_ Hi]. cbn in *. destruct (fl_eq (arr i j) (Some v)); [discriminate | reflexivity].
  - intros [i j]. cbn. f_equal. destruct (fl_eq (arr i j) (Some v)) eqn:E.
    + cbn. apply qc_eqb_true. reflexivity.
    + destruct (arr i j) as [x|] eqn:A; [|reflexivity]. cbn. destruct (qc_eqb x v') eqn:B; [|reflexivity]. apply qc_eqb_true in B. subst x. contradiction (H i j A).
Qed.
Theorem C145_kept_partial : forall gd n arr v, gives_back gd -> 0 < n -> (forall i j, arr i j <> None) ->
  exists z, zoom_2d gd n n n n (Some v) arr = Ok (n, n, z) /\
  forall i j, 0 <= i < n -> 0 <= j < n -> arr i j <> Some v -> z i j = arr i j.
Proof.
  intros gd n arr v G Hn NN. rewrite zoom_square. eexists. split; [reflexivity|]. intros i j Hi Hj Hv. cbv beta. apply G.
  - apply samples_nodup. exact Hn.
  - apply samples_in; auto. destruct (arr i j) as [x|] eqn:A; [|reflexivity]. cbn. destruct (qc_eqb x v) eqn:B; [|reflexivity]. apply qc_eqb_true in B. subst. contradiction (Hv eq_refl).
  - right. intros p Hp. apply samples_valid in Hp. destruct Hp as (a & b & _ & _ & -> & _). apply NN.
Qed.
(** With NaN as the marker - the default - nothing is left out, as NaN is not equal to itself: a missing element stays missing
    instead of being interpolated. *)
Theorem C145_nan_refuted : forall gd n arr i j, gives_back gd -> 0 < n -> 0 <= i < n -> 0 <= j < n -> arr i j = None ->
  exists z, zoom_2d gd n n n n None arr = Ok (n, n, z) /\ z i j = None.
Proof.
  intros gd n arr i j G Hn Hi Hj A. rewrite zoom_square. eexists. split; [reflexivity|]. cbv beta. apply G; auto.
  - apply samples_nodup. exact Hn.
  - pose proof (samples_in n None arr i j Hi Hj (fl_eq_nan _)) as Q. rewrite A in Q. exact Q.
Qed.
(** The result of newSize (p, q) has shape (q, p); arrays that are not square are an IndexError, and stacks to a size that is not
    square a ValueError. *)
Theorem C145_shape_refuted :
  (forall gd n p q bad arr, exists z, zoom_2d gd n n p q bad arr = Ok (q, p, z)) /\
  (forall gd n m p q bad arr, n <> m -> zoom_2d gd n m p q bad arr = Err IndexError) /\
  (forall gd k n p q bad arr, p <> q -> zoom_3d gd k n n p q bad arr = Err ValueError).
Proof.
  split; [|split].
  - intros. rewrite zoom_square. eauto.
  - intros. unfold zoom_2d. replace (n =? m) with false by (symmetry; apply Z.eqb_neq; assumption). reflexivity.
  - intros. unfold zoom_3d. rewrite Z.eqb_refl. replace (p =? q) with false by (symmetry; apply Z.eqb_neq; assumption). reflexivity.
Qed.
Print Assumptions C145_marker_partial.
Print Assumptions C145_kept_partial.
Print Assumptions C145_nan_refuted.
Print Assumptions C145_shape_refuted.
(** Looking up the sample at the very place is such an interpolator. *)
Example C145_instance : gives_back (fun l x y => match find (fun p => qc_eqb (fst (fst p)) x && qc_eqb (snd (fst p)) y) l with Some p => snd p | None => None end).
Proof.
  intros l x y v ND I _. induction l as [|[[a b] w] l IH]; [contradiction|]. cbn. inversion ND; subst. destruct I as [I|I].
  - injection I as -> -> ->. rewrite !(proj2 (qc_eqb_true _ _) eq_refl). reflexivity.
  - destruct (qc_eqb a x && qc_eqb b y) eqn:E; [|apply IH; assumption]. apply andb_true_iff in E. destruct E as [E1 E2]. apply qc_eqb_true in E1, E2. subst.
    exfalso. apply H1. apply in_map_iff. exists (x, y, v). split; [reflexivity | exact I].
Qed.

(** ** C146: custom mirror shapes *)
(** Shapes of the mirror's size are used as they are, missing elements being zero.  Shapes of another size, with no zero or missing element, keep
    their values wherever the finer grid has a point of theirs (the mirror an odd number of times larger). *)
Theorem C146_same_size : forall gd acts k p file, acts <= k ->
  exists z, custom_shapes gd acts k p p p file = Ok z /\ forall c i j, z c i j = match file c i j with Some v => v | None => 0%Qc end.
Proof.
  intros gd acts k p file H. unfold custom_shapes. destruct (Z.ltb_spec k acts); [lia|]. rewrite Z.eqb_refl. cbn. eexists. split; reflexivity.
Qed.
Theorem C146_zoomed_partial : forall gd acts k n c file, gives_back gd -> acts <= k -> 0 < n -> 0 < c ->
  (forall a i j, exists v, file a i j = Some v /\ v <> 0%Qc) ->
  exists z, custom_shapes gd acts k n n ((2 * c + 1) * n) file = Ok z /\
  forall a i j, 0 <= i < n -> 0 <= j < n -> Some (z a ((2 * c + 1) * i + c) ((2 * c + 1) * j + c)) = file a i j.
Proof.
  intros gd acts k n c file G H Hn Hc NZ. unfold custom_shapes. destruct (Z.ltb_spec k acts); [lia|].
  replace (n =? (2 * c + 1) * n) with false by (symmetry; apply Z.eqb_neq; nia). cbn [negb orb]. unfold zoom_3d. rewrite !Z.eqb_refl. cbn [bind]. eexists. split; [reflexivity|].
  intros a i j Hi Hj. cbv beta. rewrite zoom_square. cbv beta iota. rewrite !coord_shared by assumption.
  assert (ZN : forall x y, zero_to_nan (file a x y) = file a x y).
  { intros x y. destruct (NZ a x y) as (v & -> & NV). cbn. destruct (qc_eqb v 0) eqn:B; [apply qc_eqb_true in B; contradiction | reflexivity]. }
  destruct (NZ a i j) as (v & F & NV). rewrite F. f_equal.
  rewrite (G _ _ _ (Some v)); [reflexivity| | |].
  - apply samples_nodup. exact Hn.
  - rewrite <- F, <- ZN. apply (samples_in n None (fun x y => zero_to_nan (file a x y)) i j); auto. apply fl_eq_nan.
  - right. intros p Hp. apply samples_valid in Hp. destruct Hp as (x & y & _ & _ & -> & _). cbn. rewrite ZN. destruct (NZ a x y) as (w & -> & _). discriminate.
Qed.
(** Too few shapes are refused, and so are shapes that are not square unless they fit. *)
Theorem C146_refused : forall gd acts k n m p file,
  (k < acts -> custom_shapes gd acts k n m p file = Err AssertionError) /\
  (acts <= k -> n <> m -> custom_shapes gd acts k n m p file = Err IndexError).
Proof.
  intros gd acts k n m p file. split; intros H; unfold custom_shapes.
  - destruct (Z.ltb_spec k acts); [reflexivity | lia].
  - intros N. destruct (Z.ltb_spec k acts); [lia|]. replace (negb (n =? p) || negb (m =? p)) with true.
    + unfold zoom_3d. replace (n =? m) with false by (symmetry; apply Z.eqb_neq; exact N). reflexivity.
    + symmetry. apply orb_true_iff. destruct (Z.eqb_spec n p), (Z.eqb_spec m p); cbn; auto. lia.
Qed.
(** A value of zero in the file counts as missing: blanking zeros changes nothing. *)
Theorem C146_zero_is_missing : forall gd acts k n m p file file',
  (forall c i j, file' c i j = file c i j \/ (file c i j = Some 0%Qc /\ file' c i j = None)) ->
  match custom_shapes gd acts k n m p file, custom_shapes gd acts k n m p file' with
  | Ok s, Ok s' => forall c i j, s c i j = s' c i j | Err e, Err e' => e = e' | _, _ => False end.
Proof. exact zero_is_missing. Qed.
Print Assumptions C146_zero_is_missing.
Print Assumptions C146_same_size.
Print Assumptions C146_zoomed_partial.
Print Assumptions C146_refused.
Example C146_instance : forall a i j : Z, exists v, Some (qz (a * a + 1)) = Some v /\ v <> 0%Qc.
Proof. intros a i j. eexists. split; [reflexivity|]. apply qz_neq0. nia. Qed.

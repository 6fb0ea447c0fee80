From Coq Require Import Reals Lra Lia FinFun.
From Verif.Base Require Import Vec PyFacts.
From Verif.Model Require Import ScreenFiles ZoomMissing.
From Verif.Model Require AtmosReal.
From Verif.Spec Require Import ScreenSpec.
Open Scope Z_scope.

Lemma fits_axis_big n s : 1 <= s -> s <= n -> fits_axis (Z.min n s) s = true.
Proof. intros. unfold fits_axis. rewrite Z.min_r, Z.eqb_refl by lia. reflexivity. Qed.
Lemma fits_axis_true n s : 1 <= n -> fits_axis (Z.min n s) s = true -> s <= n \/ n = 1 \/ s = 1.
Proof. unfold fits_axis. intros H E. apply orb_true_iff in E. destruct E as [E|E]; apply Z.eqb_eq in E; lia. Qed.

Lemma load_loop_ok s ps n files l : load_loop s ps n files = Ok l ->
  length l = n /\ forall i, (i < n)%nat -> exists f, nth_error files i = Some (Some f) /\ nth_error l i = Some (rescale ps f).
Proof.
  revert files l. induction n as [|n IH]; intros files l E; cbn in E.
  - injection E as <-. split; [reflexivity|]. intros i Hi. lia.
  - destruct files as [|[f|] r]; try discriminate. destruct (fits_axis _ _ && fits_axis _ _); [|discriminate].
    destruct (load_loop s ps n r) as [l'|e] eqn:E'; cbn in E; [|discriminate]. injection E as <-. destruct (IH r l' E') as [A B]. split; [cbn; lia|].
    intros [|i] Hi; cbn; [exists f; auto | apply B; lia].
Qed.
Lemma load_loop_fits s ps W n files : 1 <= s -> files_fit s W n files -> exists l, load_loop s ps n files = Ok l.
Proof.
  intros Hs [H1 [H2 H]]. revert files H. induction n as [|n IH]; intros files H; cbn; [eauto|].
  destruct (H 0%nat ltac:(lia)) as (f & E & R & C). destruct files as [|o r]; [discriminate|]. cbn in E. injection E as ->.
  rewrite R, C, !fits_axis_big by lia. cbn. destruct (IH r) as [l ->]; [|cbn; eauto]. intros i Hi. apply (H (Datatypes.S i)). lia.
Qed.
Lemma last_rev {A} (l : list A) n : length l = Datatypes.S n -> exists w r, rev l = w :: r /\ nth_error l n = Some w.
Proof.
  intros L. destruct (rev l) as [|w r] eqn:E; [apply (f_equal (@length A)) in E; rewrite rev_length in E; cbn in E; lia|].
  exists w, r. split; [reflexivity|]. rewrite <- (rev_involutive l), E. cbn. apply (f_equal (@length A)) in E. rewrite rev_length in E. cbn in E.
  rewrite nth_error_app2; rewrite rev_length; [|lia]. replace (n - length r)%nat with 0%nat by lia. reflexivity.
Qed.
Lemma load_iff s ps n files : 1 <= s -> (1 <= n)%nat ->
  (exists r, load_screens s ps n files = Ok r) <-> (exists W, files_fit s W n files).
Proof.
  intros Hs Hn. split.
  - intros [[l W] E]. unfold load_screens in E. destruct (load_loop s ps n files) as [l'|e] eqn:E1; cbn [bind] in E; [|discriminate].
    destruct (load_loop_ok s ps n files l' E1) as [L H]. destruct n as [|n]; [lia|]. destruct (last_rev l' n L) as (w & r & R & Q). rewrite R in E.
    destruct (Z.ltb_spec (ws_rows w) s) as [Y|Y]; [discriminate|]. destruct (forallb (spline_ok (ws_rows w)) l') eqn:F; [|discriminate].
    rewrite forallb_forall in F. exists (ws_rows w). split; [exact Y|]. assert (G : forall i, (i < Datatypes.S n)%nat -> exists f, nth_error files i = Some (Some f) /\ spline_ok (ws_rows w) (rescale ps f) = true).
    { intros i Hi. destruct (H i Hi) as (f & A & B). exists f. split; [exact A|]. apply F. eapply nth_error_In. exact B. }
    split.
    + destruct (G 0%nat ltac:(lia)) as (f & _ & B). unfold spline_ok in B. apply andb_true_iff in B. destruct B as [_ B]. apply Z.leb_le in B. exact B.
    + intros i Hi. destruct (G i Hi) as (f & A & B). exists f. unfold spline_ok in B. rewrite !andb_true_iff, !Z.eqb_eq in B. cbn in B. tauto.
  - intros [W F]. destruct (load_loop_fits s ps W n files Hs F) as [l E]. destruct F as [H1 [H2 H]]. destruct (load_loop_ok s ps n files l E) as [L G].
    unfold load_screens. rewrite E. cbn [bind]. destruct n as [|n]; [lia|]. destruct (last_rev l n L) as (w & r & R & Q). rewrite R.
    assert (K : forall x, In x l -> ws_rows x = W /\ ws_cols x = W).
    { intros x Hx. apply In_nth_error in Hx. destruct Hx as (i & Hx). assert (Hi : (i < Datatypes.S n)%nat) by (rewrite <- L; apply nth_error_Some; congruence).
      destruct (G i Hi) as (f & A & B). destruct (H i Hi) as (f' & A' & B' & C'). assert (f = f') by congruence. subst f'. assert (x = rescale ps f) by congruence. subst x. cbn. auto. }
    destruct (K w) as [Kr Kc]; [eapply nth_error_In; exact Q|]. rewrite Kr. destruct (Z.ltb_spec W s); [lia|].
    replace (forallb (spline_ok W) l) with true; [eauto|]. symmetry. apply forallb_forall. intros x Hx. destruct (K x Hx) as [A B].
    unfold spline_ok. rewrite A, B, Z.eqb_refl. cbn. apply Z.leb_le. exact H2.
Qed.
Lemma load_value s ps n files l W : load_screens s ps n files = Ok (l, W) -> length l = n /\ files_fit s W n files /\
  forall i, (i < n)%nat -> exists f, nth_error files i = Some (Some f) /\ nth_error l i = Some (rescale ps f).
Proof.
  intros E. unfold load_screens in E. destruct (load_loop s ps n files) as [l'|e] eqn:E1; cbn [bind] in E; [|discriminate].
  destruct (load_loop_ok s ps n files l' E1) as [L H]. destruct (rev l') as [|w r] eqn:R; [discriminate|].
  destruct (Z.ltb_spec (ws_rows w) s) as [Y|Y]; [discriminate|]. destruct (forallb (spline_ok (ws_rows w)) l') eqn:F; [|discriminate]. injection E as <- <-.
  split; [exact L|]. split; [|exact H]. rewrite forallb_forall in F.
  assert (G : forall i, (i < n)%nat -> exists f, nth_error files i = Some (Some f) /\ spline_ok (ws_rows w) (rescale ps f) = true).
  { intros i Hi. destruct (H i Hi) as (f & A & B). exists f. split; [exact A|]. apply F. eapply nth_error_In. exact B. }
  split; [exact Y|]. split.
  - assert (In w l'). { apply in_rev. rewrite R. left. reflexivity. } specialize (F w H0). unfold spline_ok in F. rewrite !andb_true_iff in F. apply Z.leb_le. tauto.
  - intros i Hi. destruct (G i Hi) as (f & A & B). exists f. unfold spline_ok in B. rewrite !andb_true_iff, !Z.eqb_eq in B. cbn in B. tauto.
Qed.

(** ** Writing *)
Lemma write_all_ok l i d d' : write_all i l d = (d', None) ->
  (forall k, (k < length l)%nat -> d (i + Z.of_nat k) = None /\ d' (i + Z.of_nat k) = nth_error l k) /\ (forall z, z < i \/ i + Z.of_nat (length l) <= z -> d' z = d z).
Proof.
  revert i d. induction l as [|f l IH]; intros i d E; cbn in E.
  - injection E as <-. split; [intros k Hk; cbn in Hk; lia | auto].
  - destruct (d i) as [f'|] eqn:D; [discriminate|]. destruct (IH _ _ E) as [A B]. split.
    + intros [|k] Hk; cbn in Hk.
      * rewrite Z.add_0_r. split; [exact D|]. rewrite B by lia. unfold put_file. rewrite Z.eqb_refl. reflexivity.
      * destruct (A k ltac:(lia)) as [A1 A2]. replace (i + Z.of_nat (Datatypes.S k)) with (i + 1 + Z.of_nat k) by lia. split; [|exact A2].
        rewrite <- A1. unfold put_file. destruct (Z.eqb_spec (i + 1 + Z.of_nat k) i); [lia | reflexivity].
    + intros z Hz. rewrite B by (cbn in Hz; lia). unfold put_file. destruct (Z.eqb_spec z i); [cbn in Hz; lia | reflexivity].
Qed.
Lemma write_all_free l i d : (forall k, (k < length l)%nat -> d (i + Z.of_nat k) = None) -> exists d', write_all i l d = (d', None).
Proof.
  revert i d. induction l as [|f l IH]; intros i d H; cbn; [eauto|]. pose proof (H 0%nat ltac:(cbn; lia)) as H0. rewrite Z.add_0_r in H0. rewrite H0. apply IH.
  intros k Hk. unfold put_file. destruct (Z.eqb_spec (i + 1 + Z.of_nat k) i); [lia|]. replace (i + 1 + Z.of_nat k) with (i + Z.of_nat (Datatypes.S k)) by lia.
  apply H. cbn. lia.
Qed.
Lemma write_all_stop l i d k f : (k < length l)%nat -> (forall j, (j < k)%nat -> d (i + Z.of_nat j) = None) -> d (i + Z.of_nat k) = Some f ->
  exists d', write_all i l d = (d', Some OSError) /\ (forall j, (j < k)%nat -> d' (i + Z.of_nat j) = nth_error l j) /\ (forall z, z < i \/ i + Z.of_nat k <= z -> d' z = d z).
Proof.
  revert i d l. induction k as [|k IH]; intros i d l Hl H D.
  - destruct l as [|g l]; [cbn in Hl; lia|]. cbn. cbn in D. rewrite Z.add_0_r in D. rewrite D. exists d. repeat split; auto. intros; lia.
  - destruct l as [|g l]; [cbn in Hl; lia|]. cbn [write_all]. specialize (H 0%nat ltac:(lia)) as H0. rewrite Z.add_0_r in H0. rewrite H0.
    destruct (IH (i + 1) (put_file d i g) l) as (d' & E & A & B).
    + cbn in Hl. lia.
    + intros j Hj. unfold put_file. destruct (Z.eqb_spec (i + 1 + Z.of_nat j) i); [lia|]. replace (i + 1 + Z.of_nat j) with (i + Z.of_nat (Datatypes.S j)) by lia. apply H. lia.
    + unfold put_file. destruct (Z.eqb_spec (i + 1 + Z.of_nat k) i); [lia|]. replace (i + 1 + Z.of_nat k) with (i + Z.of_nat (Datatypes.S k)) by lia. exact D.
    + exists d'. split; [exact E|]. split.
      * intros [|j] Hj; cbn [nth_error].
        -- rewrite Z.add_0_r. rewrite B by lia. unfold put_file. rewrite Z.eqb_refl. reflexivity.
        -- replace (i + Z.of_nat (Datatypes.S j)) with (i + 1 + Z.of_nat j) by lia. apply A. lia.
      * intros z Hz. rewrite B by lia. unfold put_file. destruct (Z.eqb_spec z i); [lia | reflexivity].
Qed.
Lemma listed_nth d n i : (i < n)%nat -> nth_error (listed d n) i = Some (d (Z.of_nat i)).
Proof.
  intros H. unfold listed. rewrite nth_error_map. rewrite (nth_error_nth' _ 0%nat) by (rewrite seq_length; exact H). rewrite seq_nth by exact H. reflexivity.
Qed.

(** ** Strength *)
Open Scope R_scope.
Lemma Rpower_base_one y : Rpower 1 y = 1.
Proof. unfold Rpower. rewrite ln_1, Rmult_0_r. apply exp_0. Qed.
Lemma rescale_unit r0 ps (x : R) : 0 < r0 -> 0 < ps -> x * Rpower r0 (-5/6) * Rpower (1 / (r0 / ps * ps)) (-5/6) = x.
Proof.
  intros Hr Hp. replace (1 / (r0 / ps * ps)) with (/ r0) by (field; split; apply Rgt_not_eq; assumption). rewrite Rmult_assoc. rewrite Rpower_mult_distr; [|exact Hr | apply Rinv_0_lt_compat; exact Hr].
  rewrite Rinv_r by (apply Rgt_not_eq; assumption). rewrite Rpower_base_one. ring.
Qed.
Close Scope R_scope.

(** ** Interpolation with missing data *)
Lemma qz_pos n : 0 < n -> (0 < qz n)%Qc.
Proof. intros H. rewrite <- qz_0. apply qz_lt. exact H. Qed.
Lemma coord_lin n i : 0 < n -> (coord n i * qz n = qz (2 * i - n + 1))%Qc.
Proof.
  intros H. unfold coord. assert (N : qz n <> 0%Qc) by (apply qz_neq0; lia). assert (T : qz 2 <> 0%Qc) by (apply qz_neq0; lia).
  rewrite qz_add, qz_sub, qz_mul, qz_1. field. split; assumption.
Qed.
Lemma coord_inj n i j : 0 < n -> coord n i = coord n j -> i = j.
Proof.
  intros H E. apply (f_equal (fun x => (x * qz n)%Qc)) in E. rewrite !coord_lin in E by exact H. apply qz_inj in E. lia.
Qed.
Lemma coord_shared n c i : 0 < n -> 0 < c -> coord ((2 * c + 1) * n) ((2 * c + 1) * i + c) = coord n i.
Proof.
  intros Hn Hc. set (m := ((2 * c + 1) * n)%Z). assert (Hm : 0 < m) by (unfold m; nia).
  assert (N : qz m <> 0%Qc) by (apply qz_neq0; lia).
  assert (E : (coord m ((2 * c + 1) * i + c) * qz m = coord n i * qz m)%Qc).
  { rewrite coord_lin by exact Hm. unfold m at 2. rewrite qz_mul.
    transitivity (coord n i * qz n * qz (2 * c + 1))%Qc; [|ring]. rewrite coord_lin, <- qz_mul by exact Hn. f_equal. unfold m. ring. }
  apply (f_equal (fun x => (x / qz m)%Qc)) in E. unfold Qcdiv in E. rewrite <- !Qcmult_assoc, !(Qcmult_inv_r _ N), !Qcmult_1_r in E. exact E.
Qed.
Lemma cells_in n m i j : In (i, j) (cells n m) <-> 0 <= i < n /\ 0 <= j < m.
Proof.
  unfold cells. rewrite in_flat_map. split.
  - intros (a & Ha & Hb). apply in_map_iff in Hb. destruct Hb as (b & E & Hb). injection E as <- <-. apply in_seq in Ha. apply in_seq in Hb. lia.
  - intros [Hi Hj]. exists (Z.to_nat i). split; [apply in_seq; lia|]. apply in_map_iff. exists (Z.to_nat j). split; [f_equal; lia | apply in_seq; lia].
Qed.
Lemma nodup_app {A} (a b : list A) : NoDup a -> (forall x, In x a -> ~ In x b) -> NoDup b -> NoDup (a ++ b).
Proof.
  induction a as [|x a IH]; intros Na D Nb; [exact Nb|]. inversion Na; subst. cbn. constructor.
  - rewrite in_app_iff. intros [H|H]; [contradiction | exact (D x (or_introl eq_refl) H)].
  - apply IH; auto. intros y Hy. apply D. right. exact Hy.
Qed.
Lemma cells_nodup n m : NoDup (cells n m).
Proof.
  unfold cells. assert (G : forall l, NoDup l -> NoDup (flat_map (fun i : nat => map (fun j : nat => (Z.of_nat i, Z.of_nat j)) (seq 0 (Z.to_nat m))) l)).
  { induction l as [|a l IH]; intros ND; cbn; [constructor|]. inversion ND; subst. apply nodup_app; [| |apply IH; assumption].
    - apply Injective_map_NoDup; [intros x y E; injection E; lia | apply seq_NoDup].
    - intros x Hx Hy. apply in_map_iff in Hx. destruct Hx as (j & <- & _). apply in_flat_map in Hy. destruct Hy as (b & Hb & Hy). apply in_map_iff in Hy.
      destruct Hy as (k & E & _). injection E. intros. apply H1. replace a with b by lia. exact Hb. }
  apply G. apply seq_NoDup.
Qed.
Section Zoom.
Variable gd : list (Qc * Qc * fl) -> Qc -> Qc -> fl.
Definition samples (n : Z) (bad : fl) (arr : Z -> Z -> fl) : list (Qc * Qc * fl) :=
  map (fun ij => (coord n (snd ij), coord n (fst ij), arr (fst ij) (snd ij))) (filter (fun ij => negb (fl_eq (arr (fst ij) (snd ij)) bad)) (cells n n)).
Lemma samples_in n bad arr i j : 0 <= i < n -> 0 <= j < n -> fl_eq (arr i j) bad = false -> In (coord n j, coord n i, arr i j) (samples n bad arr).
Proof.
  intros Hi Hj E. unfold samples. apply in_map_iff. exists (i, j). split; [reflexivity|]. apply filter_In. split; [apply cells_in; auto|]. cbn. rewrite E. reflexivity.
Qed.
Lemma samples_nodup n bad arr : 0 < n -> NoDup (map fst (samples n bad arr)).
Proof.
  intros H. unfold samples. rewrite map_map. assert (G : NoDup (filter (fun ij => negb (fl_eq (arr (fst ij) (snd ij)) bad)) (cells n n))) by (apply NoDup_filter, cells_nodup).
  revert G. apply Injective_map_NoDup. intros [a b] [c d] E. pose proof (coord_inj n _ _ H (f_equal fst E)) as E1. pose proof (coord_inj n _ _ H (f_equal snd E)) as E2. cbn [fst snd] in E1, E2. subst. reflexivity.
Qed.
Lemma samples_valid n bad arr p : In p (samples n bad arr) -> exists i j, 0 <= i < n /\ 0 <= j < n /\ p = (coord n j, coord n i, arr i j) /\ fl_eq (arr i j) bad = false.
Proof.
  intros H. unfold samples in H. apply in_map_iff in H. destruct H as ([i j] & <- & H). apply filter_In in H. destruct H as [H1 H2]. apply cells_in in H1. cbn in *.
  exists i, j. repeat split; try tauto. destruct (fl_eq (arr i j) bad); [discriminate | reflexivity].
Qed.
Lemma zoom_square n p q bad arr : zoom_2d gd n n p q bad arr = Ok (q, p, fun a b => gd (samples n bad arr) (coord p b) (coord q a)).
Proof. unfold zoom_2d. rewrite Z.eqb_refl. reflexivity. Qed.
Lemma fl_eq_nan x : fl_eq x None = false.
Proof. destruct x; reflexivity. Qed.
End Zoom.

Lemma zero_is_missing gd acts k n m p file file' :
  (forall c i j, file' c i j = file c i j \/ (file c i j = Some 0%Qc /\ file' c i j = None)) ->
  match custom_shapes gd acts k n m p file, custom_shapes gd acts k n m p file' with
  | Ok s, Ok s' => forall c i j, s c i j = s' c i j | Err e, Err e' => e = e' | _, _ => False end.
Proof.
  intro H. assert (Z : forall c i j, zero_to_nan (file' c i j) = zero_to_nan (file c i j)).
  { intros c i j. destruct (H c i j) as [->|[-> ->]]; auto. }
  unfold custom_shapes. destruct (k <? acts)%Z; [reflexivity|].
  destruct (negb (n =? p) || negb (m =? p))%Z; cbn [bind].
  - unfold zoom_3d. destruct (n =? m)%Z eqn:E; [|reflexivity]. rewrite Z.eqb_refl. cbn [bind]. intros c i j.
    unfold zoom_2d. rewrite E. f_equal.
    replace (filter (fun ij => negb (fl_eq (zero_to_nan (file' c (fst ij) (snd ij))) None)) (cells n m))
      with (filter (fun ij => negb (fl_eq (zero_to_nan (file c (fst ij) (snd ij))) None)) (cells n m)) by (apply filter_ext; intro; rewrite Z; reflexivity).
    f_equal. apply map_ext. intro a. rewrite Z. reflexivity.
  - intros c i j. destruct (H c i j) as [->|[-> ->]]; reflexivity.
Qed.

(** Piezo and FastPiezo mirrors; tip-tilt; placement of actuators. *)
From Coq Require Import FinFun.
From Verif.Base Require Import Vec PyFacts.
From Verif.Model Require Import Recon Numerics Dm DmShapes.
From Verif.Spec Require Import DmSpec DmShapesSpec.
From Verif.Proofs Require Import ReconProofs DmProofs.

(** ** Lists *)
Lemma nth_lt {A} (l : list A) k x : nth_error l k = Some x -> (k < length l)%nat.
Proof. intros H. apply nth_error_Some. congruence. Qed.
Lemma f2_length {A B} (P : A -> B -> Prop) l m : Forall2 P l m -> length l = length m.
Proof. induction 1; cbn; congruence. Qed.
Lemma lsum_cons x l : lsum (x :: l) = (x + lsum l)%Qc.
Proof. reflexivity. Qed.
Lemma keep_map {A B} (f : A -> B) : forall flags l, keep flags (map f l) = map f (keep flags l).
Proof.
  unfold keep. induction flags as [|b flags IH]; intros [|x l]; cbn; auto. destruct b; cbn; rewrite IH; reflexivity.
Qed.
Lemma keep_incl {A} : forall flags (l : list A) x, In x (keep flags l) -> In x l.
Proof.
  unfold keep. induction flags as [|b flags IH]; intros [|x l] y H; cbn in *; auto; try contradiction.
  destruct b; cbn in H; [destruct H; auto|]; right; apply IH; auto.
Qed.
Lemma keep_nodup {A} : forall flags (l : list A), NoDup l -> NoDup (keep flags l).
Proof.
  induction flags as [|b flags IH]; intros [|x l] H; try constructor. inversion H; subst.
  unfold keep. destruct b; cbn; [constructor|]; auto.
  - intros C. apply (keep_incl flags) in C. contradiction.
  - apply IH; auto.
  - apply IH; auto.
Qed.

Lemma coords_nodup n : NoDup (piezo_coords n).
Proof.
  unfold piezo_coords. assert (G : forall l, NoDup l -> NoDup (flat_map (fun x => map (fun y => (Z.of_nat x, Z.of_nat y)) (seq 0 n)) l)).
  { induction l as [|x l IH]; intros HN; [constructor|]. inversion HN; subst. cbn.
    assert (D : forall p, In p (map (fun y => (Z.of_nat x, Z.of_nat y)) (seq 0 n)) ->
              ~ In p (flat_map (fun x => map (fun y => (Z.of_nat x, Z.of_nat y)) (seq 0 n)) l)).
    { intros p Hp C. apply in_map_iff in Hp as (y & <- & _). apply in_flat_map in C as (x' & Hx' & C).
      apply in_map_iff in C as (y' & E & _). injection E as E _. apply Nat2Z.inj in E. subst. contradiction. }
    assert (D0 : NoDup (map (fun y => (Z.of_nat x, Z.of_nat y)) (seq 0 n))).
    { apply Injective_map_NoDup; [|apply seq_NoDup]. intros a b E. injection E as E. apply Nat2Z.inj. exact E. }
    clear -D D0 IH H2. specialize (IH H2). revert D D0. generalize (map (fun y => (Z.of_nat x, Z.of_nat y)) (seq 0 n)).
    intros l0. induction l0 as [|a l0 IH0]; intros D D0; [exact IH|]. inversion D0; subst. cbn [app]. constructor.
    - rewrite in_app_iff. intros [C|C]; [contradiction|]. apply (D a); [left; reflexivity | exact C].
    - apply IH0; auto. intros p Hp. apply D. right. exact Hp. }
  apply G, seq_NoDup.
Qed.

(** ** Linearity of the interpolation over a list of pokes *)
Definition hit (i j : Z) (c : Z * Z) : bool := (i =? fst c + 1) && (j =? snd c + 1).
Lemma hit_inj i j c d : hit i j c = true -> hit i j d = true -> c = d.
Proof.
  unfold hit. rewrite !andb_true_iff, !Z.eqb_eq. intros [A B] [C D]. destruct c, d; cbn in *. f_equal; lia.
Qed.

Lemma fold_hit i j : forall (l : list ((Z * Z) * Qc)) acc, NoDup (map fst l) ->
  fold_left (fun acc p => if hit i j (fst p) then snd p else acc) l acc
  = if existsb (fun p => hit i j (fst p)) l then lsum (map (fun p => if hit i j (fst p) then snd p else 0%Qc) l) else acc.
Proof.
  induction l as [|p l IH]; intros acc HN; [reflexivity|]. cbn [map] in HN. inversion HN as [|? ? Hnot HN']; subst.
  cbn [fold_left existsb map]. rewrite IH by auto. destruct (hit i j (fst p)) eqn:E; cbn [orb].
  - assert (E0 : existsb (fun p0 => hit i j (fst p0)) l = false).
    { apply Bool.not_true_iff_false. intros C. apply existsb_exists in C as (q & Hq & Eq).
      apply Hnot. rewrite (hit_inj i j _ _ E Eq). apply in_map. exact Hq. }
    rewrite E0.
    assert (Z0 : lsum (map (fun p0 => if hit i j (fst p0) then snd p0 else 0%Qc) l) = 0%Qc).
    { clear -E0. induction l as [|q l IH]; [reflexivity|]. cbn [existsb] in E0. apply orb_false_iff in E0 as [A B].
      cbn [map]. rewrite A. rewrite lsum_cons, IH by auto. ring. }
    rewrite lsum_cons, Z0. ring.
  - rewrite lsum_cons. destruct (existsb _ l); ring.
Qed.

Section Lin.
  Variable spl : arr Qc -> Qc -> Qc -> Qc.
  Hypothesis HL : linear_spline spl.
  Variable n : nat.

  Lemma spl_zero a : (forall i j, 0 <= i < nrow a -> 0 <= j < ncol a -> at2 a i j = 0%Qc) -> forall x y, spl a x y = 0%Qc.
  Proof.
    intros H x y. etransitivity; [apply (HL 0%Qc 0%Qc a a a); auto; intros i j Hi Hj; rewrite H by auto|]; ring.
  Qed.
  Lemma spl_ext a b : nrow a = nrow b -> ncol a = ncol b -> (forall i j, 0 <= i < nrow b -> 0 <= j < ncol b -> at2 a i j = at2 b i j) ->
    forall x y, spl a x y = spl b x y.
  Proof.
    intros H1 H2 H x y. etransitivity; [apply (HL 1%Qc 0%Qc b b a); auto; intros i j Hi Hj; rewrite H by lia|]; ring.
  Qed.

  Lemma spl_grid : forall (l : list ((Z * Z) * Qc)) x y,
    spl (mkArr (Z.of_nat n + 2) (Z.of_nat n + 2) (fun i j => lsum (map (fun p => if hit i j (fst p) then snd p else 0%Qc) l))) x y
    = lsum (map (fun p => snd p * spl (poke n (fst p)) x y)%Qc l).
  Proof.
    induction l as [|p l IH]; intros x y; cbn [map].
    - rewrite spl_zero; [reflexivity|]. intros; reflexivity.
    - rewrite lsum_cons, <- IH. etransitivity; [apply (HL (snd p) 1%Qc (poke n (fst p))
        (mkArr (Z.of_nat n + 2) (Z.of_nat n + 2) (fun i j => lsum (map (fun p => if hit i j (fst p) then snd p else 0%Qc) l)))); try reflexivity|ring].
      intros i j _ _. cbn [at2 poke]. rewrite lsum_cons. fold (hit i j (fst p)). destruct (hit i j (fst p)); ring.
  Qed.

  Lemma fast_grid_spl coords vals x y : NoDup coords -> length vals = length coords ->
    spl (fast_grid n coords vals) x y = lsum (map (fun p => snd p * spl (poke n (fst p)) x y)%Qc (combine coords vals)).
  Proof.
    intros HN HLen. rewrite <- spl_grid. apply spl_ext; try reflexivity. intros i j _ _. cbn [at2 fast_grid].
    change (fold_left (fun acc p => if hit i j (fst p) then snd p else acc) (combine coords vals) 0%Qc
            = lsum (map (fun p => if hit i j (fst p) then snd p else 0%Qc) (combine coords vals))).
    rewrite fold_hit.
    - destruct (existsb _ _) eqn:E; [reflexivity|]. symmetry. revert E. generalize (combine coords vals). clear.
      induction l as [|q l IH]; intros E; [reflexivity|]. cbn [existsb] in E. apply orb_false_iff in E as [A B].
      cbn [map]. rewrite A. rewrite lsum_cons, IH by auto. ring.
    - replace (map fst (combine coords vals)) with coords; auto. clear HN. revert vals HLen.
      induction coords as [|c coords IH]; intros [|v vals] HLen; try discriminate; auto. cbn. f_equal. apply IH. cbn in HLen. lia.
  Qed.
End Lin.

(** ** Superpositions *)
Lemma superposition_nil cs i j : superposition [] cs i j = 0%Qc.
Proof. reflexivity. Qed.
Lemma superposition_cons c cs s sh i j : length sh = length cs ->
  superposition (c :: cs) (s :: sh) i j = (c * at2 s i j + superposition cs sh i j)%Qc.
Proof.
  intros L. unfold superposition. rewrite <- (lsum_combine (c :: cs) (s :: sh)) by (cbn; congruence).
  cbn [combine map fst snd]. rewrite lsum_cons. f_equal. apply lsum_combine. exact L.
Qed.

Section Agree.
  Variable spl : arr Qc -> Qc -> Qc -> Qc.
  Hypothesis HL : linear_spline spl.
  Variables (n : nat) (dms scrn : Z) (ival : Qc).

  (** what a poke of an actuator looks like on the whole mirror *)
  Definition raw (c : Z * Z) : arr Qc := scale_arr ival (spl_zoom spl (poke n c) dms dms).

  Lemma fast_at coords cs i j : NoDup coords -> length cs = length coords ->
    at2 (spl_zoom spl (fast_grid n coords (map (fun c => c * ival)%Qc cs)) dms dms) i j = superposition cs (map raw coords) i j.
  Proof.
    intros HN HLen. cbn [spl_zoom at2].
    change (ncol (fast_grid n coords (map (fun c => c * ival)%Qc cs))) with (Z.of_nat n + 2).
    change (nrow (fast_grid n coords (map (fun c => c * ival)%Qc cs))) with (Z.of_nat n + 2).
    rewrite (fast_grid_spl spl HL n coords) by (auto; rewrite map_length; auto). clear HN.
    revert coords HLen. induction cs as [|c cs IH]; intros [|p coords] HLen; try discriminate; [reflexivity|].
    cbn [map combine]. rewrite superposition_cons by (rewrite map_length; cbn in HLen; lia).
    rewrite lsum_cons, IH by (cbn in HLen; lia). cbn [fst snd raw scale_arr at2 spl_zoom poke nrow ncol]. ring.
  Qed.

  Lemma fast_surface_ok coords cs : length cs = length coords ->
    fast_surface spl n dms ival coords cs = Ok (spl_zoom spl (fast_grid n coords (map (fun c => c * ival)%Qc cs)) dms dms).
  Proof. intros E. unfold fast_surface. rewrite E, Nat.eqb_refl. reflexivity. Qed.

  Lemma remove_piston_of m a f : nrow a = m -> ncol a = m -> (forall i j, 0 <= i < m -> 0 <= j < m -> at2 a i j = f i j) ->
    forall i j, 0 <= i < m -> 0 <= j < m -> at2 (remove_piston a) i j = (f i j - average m f)%Qc.
  Proof.
    intros R C H i j Hi Hj. unfold remove_piston. cbn [at2]. rewrite H by auto. f_equal. f_equal.
    unfold arr_mean, arr_sum, average. rewrite R, C. f_equal. apply zsum_ext. intros a0 Ha. apply zsum_ext. intros b0 Hb. auto.
  Qed.

  Hypothesis Hd : 0 <= dms.
  Hypothesis Hs : 0 <= scrn.
  Hypothesis HE : Z.even (dms - scrn) = true.

  Lemma fast_frame_ok coords s cs : NoDup coords -> length cs = length coords -> screen_inv dms scrn s ->
    exists r, fast_frame spl n dms scrn ival 0 coords s cs = Ok r /\
      arr_eq r (centred dms scrn (piston_free dms cs (map raw coords))) /\ screen_inv dms scrn r.
  Proof.
    intros HN HLen HI. unfold fast_frame. rewrite fast_surface_ok by auto. cbn [bind].
    replace (negb (qc_eqb 0 0)) with false by reflexivity.
    destruct (fit_screen_ok dms scrn s (remove_piston (spl_zoom spl (fast_grid n coords (map (fun c => c * ival)%Qc cs)) dms dms)))
      as (r & E & A & I); auto.
    exists r. split; [exact E|]. split; [|exact I]. eapply arr_eq_trans; [exact A|].
    apply centred_ext. intros i j Hi Hj. unfold piston_free.
    apply (remove_piston_of dms); auto. intros i' j' _ _. apply fast_at; auto.
  Qed.

  Lemma fast_history_ok coords : NoDup coords -> forall css s, screen_inv dms scrn s ->
    Forall (fun cs => length cs = length coords) css ->
    Forall2 (fun cs out => exists r, out = Ok r /\ arr_eq r (centred dms scrn (piston_free dms cs (map raw coords))))
      css (fast_history spl n dms scrn ival 0 coords s css).
  Proof.
    intros HN. induction css as [|cs css IH]; intros s HI HF; [constructor|]. apply Forall_cons_iff in HF as [H1 HF].
    destruct (fast_frame_ok coords s cs HN H1 HI) as (r & E & A & I). cbn [fast_history]. constructor.
    - exists r. auto.
    - rewrite E. apply IH; auto.
  Qed.

  Lemma piezo_cut_ok s : nrow s = dms -> ncol s = dms -> dms <> scrn ->
    exists r, piezo_cut dms scrn s = Ok r /\ arr_eq r (centred dms scrn (at2 s)).
  Proof.
    intros R C Hne. unfold piezo_cut. destruct (Z.eqb_spec dms scrn) as [?|_]; [contradiction|].
    destruct (round_half_even _ HE) as [E1 E2]. set (h := (dms - scrn) / 2) in *.
    destruct (Z.ltb_spec scrn dms) as [Hlt|Hge]; eexists; (split; [reflexivity|]).
    - rewrite E1. assert (Hh : 0 < h) by lia. repeat split.
      + cbn [slice2 nrow centred]. rewrite R. unfold slice_len, norm_ix.
        replace (h <? 0) with false by (symmetry; apply Z.ltb_ge; lia).
        replace (- h <? 0) with true by (symmetry; apply Z.ltb_lt; lia). lia.
      + cbn [slice2 ncol centred]. rewrite C. unfold slice_len, norm_ix.
        replace (h <? 0) with false by (symmetry; apply Z.ltb_ge; lia).
        replace (- h <? 0) with true by (symmetry; apply Z.ltb_lt; lia). lia.
      + intros i j Hi Hj. cbn [slice2 at2 centred nrow ncol] in *. rewrite R, C in *. unfold slice_len, norm_ix in *.
        replace (h <? 0) with false in * by (symmetry; apply Z.ltb_ge; lia).
        replace (- h <? 0) with true in * by (symmetry; apply Z.ltb_lt; lia). fold h.
        replace ((0 <=? i + h) && (i + h <? dms) && (0 <=? j + h) && (j + h <? dms)) with true.
        * f_equal; lia.
        * symmetry. rewrite !andb_true_iff, !Z.leb_le, !Z.ltb_lt. lia.
    - assert (E3 : round_div (scrn - dms) 2 = - h).
      { replace (scrn - dms) with (- h * 2) by lia. apply round_div_mul; lia. }
      rewrite E3. repeat split; cbn [pad_zero nrow ncol at2 centred]; try lia.
      intros i j Hi Hj. fold h. rewrite R, C. replace (i - - h) with (i + h) by lia. replace (j - - h) with (j + h) by lia. reflexivity.
  Qed.

  (** the influence function of one actuator of the stack *)
  Definition cut (c : Z * Z) : arr Qc :=
    match piezo_cut dms scrn (remove_piston (spl_zoom spl (poke n c) dms dms)) with Ok s => scale_arr ival s | Err _ => arr_zero 0 end.
  Lemma piezo_shapes_ok : dms <> scrn -> piezo_shapes spl n dms scrn ival = Ok (map cut (piezo_coords n)).
  Proof.
    intros Hne. unfold piezo_shapes. apply ReconProofs.mapM_ok. intros c _. unfold cut.
    destruct (piezo_cut_ok (remove_piston (spl_zoom spl (poke n c) dms dms)) eq_refl eq_refl Hne) as (r & -> & _). reflexivity.
  Qed.
  Lemma cut_at c i j : dms <> scrn -> 0 <= i < scrn -> 0 <= j < scrn ->
    nrow (cut c) = scrn /\ ncol (cut c) = scrn /\
    at2 (cut c) i j = at2 (centred dms scrn (fun i j => at2 (raw c) i j - average dms (at2 (raw c)))%Qc) i j.
  Proof.
    intros Hne Hi Hj. unfold cut.
    destruct (piezo_cut_ok (remove_piston (spl_zoom spl (poke n c) dms dms)) eq_refl eq_refl Hne) as (r & -> & A1 & A2 & A3).
    cbn [scale_arr nrow ncol at2]. split; [exact A1|]. split; [exact A2|].
    cbn [centred nrow ncol] in A1, A2. rewrite A3 by lia. cbn [centred at2].
    destruct ((0 <=? i + (dms - scrn) / 2) && (i + (dms - scrn) / 2 <? dms) && (0 <=? j + (dms - scrn) / 2) && (j + (dms - scrn) / 2 <? dms)) eqn:EB; [|ring].
    rewrite !andb_true_iff, !Z.leb_le, !Z.ltb_lt in EB.
    rewrite (remove_piston_of dms _ (at2 (spl_zoom spl (poke n c) dms dms))) by (auto; lia).
    cbn [raw scale_arr at2]. rewrite (average_ext dms (fun i j => at2 (spl_zoom spl (poke n c) dms dms) i j * ival)%Qc
      (fun i j => ival * at2 (spl_zoom spl (poke n c) dms dms) i j + 0 * 0)%Qc) by (intros; ring).
    rewrite average_linear. ring.
  Qed.

  Lemma cut_superposition i j : dms <> scrn -> 0 <= i < scrn -> 0 <= j < scrn -> forall cs coords, length cs = length coords ->
    superposition cs (map cut coords) i j = at2 (centred dms scrn (piston_free dms cs (map raw coords))) i j.
  Proof.
    intros Hne Hi Hj. induction cs as [|c cs IH]; intros [|p coords] HLen; try discriminate.
    - cbn [map]. rewrite superposition_nil. cbn [centred at2]. destruct (_ && _); [|reflexivity].
      unfold piston_free, superposition, average. cbn [length Z.of_nat]. rewrite !zsum_nil by lia.
      rewrite (zsum_zero_ext dms) by (intros; apply zsum_zero_ext; intros; apply zsum_nil; lia).
      unfold Qcdiv. ring.
    - cbn [map]. cbn in HLen. rewrite superposition_cons by (rewrite map_length; lia). rewrite IH by lia.
      destruct (cut_at p i j Hne Hi Hj) as (_ & _ & ->). cbn [centred at2].
      destruct (_ && _); [|ring]. unfold piston_free.
      rewrite superposition_cons by (rewrite map_length; lia).
      rewrite (average_ext dms (superposition (c :: cs) (raw p :: map raw coords))
                 (fun i j => c * at2 (raw p) i j + 1 * superposition cs (map raw coords) i j)%Qc).
      + rewrite average_linear. ring.
      + intros a b _ _. rewrite superposition_cons by (rewrite map_length; lia). ring.
  Qed.

  Lemma centred_average f : 0 < dms -> dms < scrn -> average dms f = 0%Qc -> average scrn (at2 (centred dms scrn f)) = 0%Qc.
  Proof.
    intros Hd0 Hlt H. destruct (round_half_even _ HE) as [E1 E2]. set (h := (dms - scrn) / 2) in *.
    assert (Z0 : zsum dms (fun i => zsum dms (fun j => f i j)) = 0%Qc).
    { unfold average in H. assert (Q : qz (dms * dms) <> 0%Qc) by (apply qz_neq0; nia).
      replace (zsum dms (fun i => zsum dms (fun j => f i j)))
        with (zsum dms (fun i => zsum dms (fun j => f i j)) / qz (dms * dms) * qz (dms * dms))%Qc by (field; auto).
      rewrite H. ring. }
    unfold average. replace (zsum scrn (fun i => zsum scrn (fun j => at2 (centred dms scrn f) i j))) with 0%Qc; [unfold Qcdiv; ring|].
    rewrite (zsum_window scrn (- h) dms).
    - rewrite <- Z0. symmetry. apply zsum_ext. intros i Hi. rewrite (zsum_window scrn (- h) dms).
      + apply zsum_ext. intros j Hj. cbn [centred at2]. fold h.
        replace ((0 <=? - h + i + h) && (- h + i + h <? dms) && (0 <=? - h + j + h) && (- h + j + h <? dms)) with true.
        * f_equal; lia.
        * symmetry. rewrite !andb_true_iff, !Z.leb_le, !Z.ltb_lt. lia.
      + lia.
      + lia.
      + lia.
      + intros j Hj Hn. cbn [centred at2]. fold h. destruct (_ && _) eqn:EB; [|reflexivity].
        rewrite !andb_true_iff, !Z.leb_le, !Z.ltb_lt in EB. lia.
    - lia.
    - lia.
    - lia.
    - intros i Hi Hn. apply zsum_zero_ext. intros j Hj. cbn [centred at2]. fold h. destruct (_ && _) eqn:EB; [|reflexivity].
      rewrite !andb_true_iff, !Z.leb_le, !Z.ltb_lt in EB. lia.
  Qed.

  Theorem stack_and_fast flags css : dms <> scrn -> keep flags (piezo_coords n) <> [] ->
    Forall (fun cs => length cs = length (keep flags (piezo_coords n))) css ->
    exists sh, piezo_shapes spl n dms scrn ival = Ok sh /\
      forall t cs o1 o2, nth_error css t = Some cs ->
        nth_error (dm_history scrn 0 (keep flags sh) (arr_zero scrn) css) t = Some o1 ->
        nth_error (fast_history spl n dms scrn ival 0 (keep flags (piezo_coords n)) (arr_zero scrn) css) t = Some o2 ->
        exists r1 r2, o1 = Ok r1 /\ o2 = Ok r2 /\
          nrow r1 = scrn /\ ncol r1 = scrn /\ nrow r2 = scrn /\ ncol r2 = scrn /\
          (forall i j, 0 <= i < scrn -> 0 <= j < scrn -> at2 r2 i j = at2 (centred dms scrn (piston_free dms cs (map raw (keep flags (piezo_coords n))))) i j) /\
          (forall i j, 0 <= i < scrn -> 0 <= j < scrn -> at2 r1 i j = (at2 r2 i j - average scrn (at2 r2))%Qc) /\
          (0 < dms < scrn -> average scrn (at2 r2) = 0%Qc).
  Proof.
    intros Hne Hk HF. eexists. split; [apply piezo_shapes_ok; auto|]. rewrite keep_map.
    set (ks := keep flags (piezo_coords n)) in *.
    assert (HN : NoDup ks) by (apply keep_nodup, coords_nodup).
    intros t cs o1 o2 Ht H1 H2.
    assert (HFt : length cs = length ks) by (rewrite Forall_forall in HF; apply HF; eapply nth_error_In; eauto).
    pose proof (Forall2_nth _ _ _ (fast_history_ok ks HN css _ (arr_zero_inv dms scrn) HF) t cs o2 Ht H2) as (r2 & -> & A2).
    assert (HF' : Forall (fun cs : list Qc => length cs = length (map cut ks)) css).
    { eapply Forall_impl; [|exact HF]. intros x Hx. cbn beta in *. rewrite map_length. exact Hx. }
    assert (Hcase : 0 < scrn \/ scrn = 0) by lia.
    assert (HSq : scrn = 0 \/ square_shapes scrn (map cut ks)).
    { destruct Hcase; [right|auto]. unfold square_shapes. apply Forall_map, Forall_forall. intros c _.
      destruct (cut_at c 0 0 Hne) as (? & ? & _); auto; lia. }
    assert (HSq' : square_shapes scrn (map cut ks)).
    { destruct HSq as [H0|]; auto. unfold square_shapes. apply Forall_map, Forall_forall. intros c _. unfold cut.
      destruct (piezo_cut_ok (remove_piston (spl_zoom spl (poke n c) dms dms)) eq_refl eq_refl Hne) as (r & -> & B1 & B2 & _).
      cbn [scale_arr nrow ncol]. auto. }
    assert (Hnn : map cut ks <> []) by (destruct ks; [congruence | discriminate]).
    assert (HEv : Z.even (scrn - scrn) = true) by (rewrite Z.sub_diag; reflexivity).
    pose proof (Forall2_nth _ _ _ (dm_history_ok scrn scrn (map cut ks) css Hs Hs HEv HSq' Hnn HF') t cs o1 Ht H1) as (r1 & -> & A1).
    destruct A1 as (B1 & B2 & B3). destruct A2 as (C1 & C2 & C3). cbn [centred nrow ncol] in B1, B2, C1, C2.
    assert (E2 : forall i j, 0 <= i < scrn -> 0 <= j < scrn -> at2 r2 i j = at2 (centred dms scrn (piston_free dms cs (map raw ks))) i j).
    { intros i j Hi Hj. apply C3; cbn [centred nrow ncol]; lia. }
    exists r1, r2. do 6 (split; [auto; lia|]). split; [exact E2|]. split.
    - intros i j Hi Hj. rewrite B3 by (cbn [centred nrow ncol]; lia). cbn [centred at2]. rewrite Z.sub_diag, Z.div_0_l, !Z.add_0_r by lia.
      replace ((0 <=? i) && (i <? scrn) && (0 <=? j) && (j <? scrn)) with true
        by (symmetry; rewrite !andb_true_iff, !Z.leb_le, !Z.ltb_lt; lia).
      unfold piston_free at 1. rewrite cut_superposition by auto. rewrite E2 by auto.
      match goal with |- (_ - ?x)%Qc = (_ - ?y)%Qc => assert (EA : x = y); [|rewrite EA; reflexivity] end. apply average_ext. intros a b Ha Hb. rewrite cut_superposition by auto. symmetry. apply E2; auto.
    - intros Hlt. rewrite (average_ext scrn _ _ E2). apply centred_average; try lia.
      pose proof (piston_free_sum dms cs (map raw ks) ltac:(lia)) as S0. unfold average. rewrite S0. unfold Qcdiv. ring.
  Qed.
End Agree.

(** ** Mirror images *)
Lemma grid_at {A} (f : nat -> nat -> A) n : forall m s x y, (x < m)%nat -> (y < n)%nat ->
  nth_error (flat_map (fun x => map (f x) (seq 0 n)) (seq s m)) (x * n + y) = Some (f (s + x)%nat y).
Proof.
  induction m as [|m IH]; intros s x y Hx Hy; [lia|]. cbn [seq flat_map].
  assert (L : length (map (f s) (seq 0 n)) = n) by (rewrite map_length, seq_length; reflexivity).
  destruct x as [|x].
  - cbn [Nat.mul Nat.add]. rewrite nth_error_app1 by lia. rewrite Nat.add_0_r. apply map_nth_error.
    rewrite <- (Nat.add_0_l y) at 2. rewrite (nth_error_nth' _ 0%nat) by (rewrite seq_length; lia). rewrite seq_nth by lia. reflexivity.
  - rewrite nth_error_app2 by (rewrite L; cbn; lia). rewrite L. replace (S x * n + y - n)%nat with (x * n + y)%nat by (cbn; lia).
    rewrite IH by lia. f_equal. f_equal. lia.
Qed.
Lemma grid_len {A} (f : nat -> nat -> A) n : forall m s, length (flat_map (fun x => map (f x) (seq 0 n)) (seq s m)) = (m * n)%nat.
Proof. induction m as [|m IH]; intros s; [reflexivity|]. cbn. rewrite app_length, map_length, seq_length, IH. reflexivity. Qed.

Lemma piezo_coords_at n x y : (x < n)%nat -> (y < n)%nat -> nth_error (piezo_coords n) (x * n + y) = Some (Z.of_nat x, Z.of_nat y).
Proof. intros. unfold piezo_coords. rewrite (grid_at (fun x y => (Z.of_nat x, Z.of_nat y))) by auto. reflexivity. Qed.
Lemma piezo_coords_len n : length (piezo_coords n) = (n * n)%nat.
Proof. unfold piezo_coords. apply (grid_len (fun x y => (Z.of_nat x, Z.of_nat y))). Qed.
Lemma mirror_x_at n cs x y : (x < n)%nat -> (y < n)%nat -> nth (x * n + y) (mirror_x n cs) 0%Qc = nth ((n - 1 - x) * n + y) cs 0%Qc.
Proof.
  intros. apply nth_error_nth. unfold mirror_x. rewrite (grid_at (fun x y => nth ((n - 1 - x) * n + y) cs 0%Qc)) by auto. reflexivity.
Qed.
Lemma mirror_y_at n cs x y : (x < n)%nat -> (y < n)%nat -> nth (x * n + y) (mirror_y n cs) 0%Qc = nth (x * n + (n - 1 - y)) cs 0%Qc.
Proof.
  intros. apply nth_error_nth. unfold mirror_y. rewrite (grid_at (fun x y => nth (x * n + (n - 1 - y)) cs 0%Qc)) by auto. reflexivity.
Qed.
Lemma mirror_x_len n cs : length (mirror_x n cs) = (n * n)%nat.
Proof. unfold mirror_x. apply (grid_len (fun x y => nth ((n - 1 - x) * n + y) cs 0%Qc)). Qed.
Lemma mirror_y_len n cs : length (mirror_y n cs) = (n * n)%nat.
Proof. unfold mirror_y. apply (grid_len (fun x y => nth (x * n + (n - 1 - y)) cs 0%Qc)). Qed.

Lemma fast_grid_hit n coords : forall vals k c i j, NoDup coords -> length vals = length coords -> nth_error coords k = Some c ->
  hit i j c = true -> at2 (fast_grid n coords vals) i j = nth k vals 0%Qc.
Proof.
  intros vals k c i j HN HLen Hk Hh. cbn [at2 fast_grid].
  change (fold_left (fun acc p => if hit i j (fst p) then snd p else acc) (combine coords vals) 0%Qc = nth k vals 0%Qc).
  generalize 0%Qc at 1. revert vals k HLen Hk HN. induction coords as [|d coords IH]; intros [|v vals] k HLen Hk HN acc; try discriminate.
  - destruct k; discriminate.
  - cbn [combine fold_left fst snd]. inversion HN as [|? ? Hnot HN']; subst. destruct k as [|k].
    + injection Hk as ->. rewrite Hh. cbn [nth].
      assert (G : forall l, (forall d, In d l -> hit i j d = false) -> forall (vs : list Qc) (acc : Qc),
                  fold_left (fun acc p => if hit i j (fst p) then snd p else acc) (combine l vs) acc = acc).
      { induction l as [|d l IHl]; intros Hl [|v' vs] acc'; try reflexivity. cbn [combine fold_left fst snd].
        rewrite (Hl d) by (left; reflexivity). apply IHl. intros; apply Hl; right; auto. }
      apply G. intros d Hd. destruct (hit i j d) eqn:E; auto. rewrite (hit_inj i j _ _ Hh E) in Hnot. contradiction.
    + cbn [nth]. apply IH; auto; cbn in HLen; lia.
Qed.
Lemma fast_grid_miss n coords vals i j : (forall c, In c coords -> hit i j c = false) -> at2 (fast_grid n coords vals) i j = 0%Qc.
Proof.
  intros H. cbn [at2 fast_grid].
  change (fold_left (fun acc p => if hit i j (fst p) then snd p else acc) (combine coords vals) 0%Qc = 0%Qc).
  revert vals. induction coords as [|d coords IH]; intros [|v vals]; try reflexivity. cbn [combine fold_left fst snd].
  rewrite (H d) by (left; reflexivity). apply IH. intros; apply H; right; auto.
Qed.
Lemma fast_grid_full n vals i j : length vals = (n * n)%nat ->
  at2 (fast_grid n (piezo_coords n) vals) i j
  = if (1 <=? i) && (i <=? Z.of_nat n) && (1 <=? j) && (j <=? Z.of_nat n)
    then nth (Z.to_nat (i - 1) * n + Z.to_nat (j - 1)) vals 0%Qc else 0%Qc.
Proof.
  intros HLen. destruct (_ && _) eqn:E.
  - rewrite !andb_true_iff, !Z.leb_le in E.
    apply (fast_grid_hit n (piezo_coords n) vals _ (Z.of_nat (Z.to_nat (i - 1)), Z.of_nat (Z.to_nat (j - 1)))).
    + apply coords_nodup.
    + rewrite piezo_coords_len. exact HLen.
    + apply piezo_coords_at; lia.
    + unfold hit. cbn [fst snd]. rewrite andb_true_iff, !Z.eqb_eq. lia.
  - apply fast_grid_miss. intros c Hc. unfold piezo_coords in Hc. apply in_flat_map in Hc as (x & Hx & Hc).
    apply in_map_iff in Hc as (y & <- & Hy). apply in_seq in Hx, Hy. unfold hit. cbn [fst snd].
    destruct (Z.eqb_spec i (Z.of_nat x + 1)) as [Ei|]; [|reflexivity].
    destruct (Z.eqb_spec j (Z.of_nat y + 1)) as [Ej|]; [|reflexivity].
    rewrite !andb_false_iff, !Z.leb_gt in E. lia.
Qed.

Lemma linspace_rev L m i : 2 <= m -> (qz L - linspace0 L m i)%Qc = linspace0 L m (m - 1 - i).
Proof.
  intros H. unfold linspace0. destruct (Z.eqb_spec m 1); [lia|].
  assert (Q : qz (m - 1) <> 0%Qc) by (apply qz_neq0; lia). replace (m - 1 - i) with ((m - 1) - i) by lia. rewrite (qz_sub (m - 1) i). field. exact Q.
Qed.

Lemma nth_map_mul (ival : Qc) (cs : vec) k : nth k (map (fun c => c * ival)%Qc cs) 0%Qc = (nth k cs 0 * ival)%Qc.
Proof. revert k. induction cs as [|c cs IH]; intros [|k]; cbn [map nth]; auto; ring. Qed.

Lemma average_mirror m f g : (forall i j, 0 <= i < m -> 0 <= j < m -> g i j = f (m - 1 - i) j) -> average m g = average m f.
Proof.
  intros H. unfold average. f_equal. rewrite <- (zsum_rev m (fun i => zsum m (fun j => f i j))).
  apply zsum_ext. intros i Hi. apply zsum_ext. intros j Hj. auto.
Qed.
Lemma average_mirror' m f g : (forall i j, 0 <= i < m -> 0 <= j < m -> g i j = f i (m - 1 - j)) -> average m g = average m f.
Proof.
  intros H. unfold average. f_equal. apply zsum_ext. intros i Hi. rewrite <- (zsum_rev m (fun j => f i j)).
  apply zsum_ext. intros j Hj. auto.
Qed.

Section Mirror.
  Variable spl : arr Qc -> Qc -> Qc -> Qc.
  Hypothesis HL : linear_spline spl.
  Hypothesis HV : even_spline spl.
  Variables (n : nat) (dms scrn : Z) (ival : Qc).
  Hypothesis Hd : 2 <= dms.

  Notation F cs := (spl_zoom spl (fast_grid n (piezo_coords n) (map (fun c => c * ival)%Qc cs)) dms dms).

  Lemma surface_mirror_x cs i j : length cs = (n * n)%nat ->
    at2 (F (mirror_x n cs)) i j = at2 (F cs) (dms - 1 - i) j.
  Proof.
    intros HLen. cbn [spl_zoom at2].
    set (g := fast_grid n (piezo_coords n) (map (fun c => c * ival)%Qc cs)).
    set (g' := fast_grid n (piezo_coords n) (map (fun c => c * ival)%Qc (mirror_x n cs))).
    change (ncol g') with (Z.of_nat n + 2). change (nrow g') with (Z.of_nat n + 2).
    change (ncol g) with (Z.of_nat n + 2). change (nrow g) with (Z.of_nat n + 2).
    destruct (HV g g' eq_refl eq_refl) as [Hx _]. rewrite Hx.
    - change (nrow g) with (Z.of_nat n + 2). rewrite linspace_rev by auto. reflexivity.
    - intros a b Ha Hb. change (nrow g') with (Z.of_nat n + 2) in Ha. change (ncol g') with (Z.of_nat n + 2) in Hb.
      change (nrow g) with (Z.of_nat n + 2). unfold g, g'.
      rewrite !fast_grid_full by (rewrite map_length; auto using mirror_x_len).
      replace ((1 <=? Z.of_nat n + 2 - 1 - a) && (Z.of_nat n + 2 - 1 - a <=? Z.of_nat n) && (1 <=? b) && (b <=? Z.of_nat n))
        with ((1 <=? a) && (a <=? Z.of_nat n) && (1 <=? b) && (b <=? Z.of_nat n)).
      + destruct (_ && _) eqn:E; [|reflexivity]. rewrite !andb_true_iff, !Z.leb_le in E.
        rewrite !nth_map_mul, mirror_x_at by lia.
        replace (n - 1 - Z.to_nat (a - 1))%nat with (Z.to_nat (Z.of_nat n + 2 - 1 - a - 1)) by lia. reflexivity.
      + f_equal. f_equal. apply eq_true_iff_eq. rewrite !andb_true_iff, !Z.leb_le. lia.
  Qed.
  Lemma surface_mirror_y cs i j : length cs = (n * n)%nat ->
    at2 (F (mirror_y n cs)) i j = at2 (F cs) i (dms - 1 - j).
  Proof.
    intros HLen. cbn [spl_zoom at2].
    set (g := fast_grid n (piezo_coords n) (map (fun c => c * ival)%Qc cs)).
    set (g' := fast_grid n (piezo_coords n) (map (fun c => c * ival)%Qc (mirror_y n cs))).
    change (ncol g') with (Z.of_nat n + 2). change (nrow g') with (Z.of_nat n + 2).
    change (ncol g) with (Z.of_nat n + 2). change (nrow g) with (Z.of_nat n + 2).
    destruct (HV g g' eq_refl eq_refl) as [_ Hy]. rewrite Hy.
    - change (ncol g) with (Z.of_nat n + 2). rewrite linspace_rev by auto. reflexivity.
    - intros a b Ha Hb. change (nrow g') with (Z.of_nat n + 2) in Ha. change (ncol g') with (Z.of_nat n + 2) in Hb.
      change (ncol g) with (Z.of_nat n + 2). unfold g, g'.
      rewrite !fast_grid_full by (rewrite map_length; auto using mirror_y_len).
      replace ((1 <=? a) && (a <=? Z.of_nat n) && (1 <=? Z.of_nat n + 2 - 1 - b) && (Z.of_nat n + 2 - 1 - b <=? Z.of_nat n))
        with ((1 <=? a) && (a <=? Z.of_nat n) && (1 <=? b) && (b <=? Z.of_nat n)).
      + destruct (_ && _) eqn:E; [|reflexivity]. rewrite !andb_true_iff, !Z.leb_le in E.
        rewrite !nth_map_mul, mirror_y_at by lia.
        replace (n - 1 - Z.to_nat (b - 1))%nat with (Z.to_nat (Z.of_nat n + 2 - 1 - b - 1)) by lia. reflexivity.
      + apply eq_true_iff_eq. rewrite !andb_true_iff, !Z.leb_le. lia.
  Qed.

  Hypothesis Hs : 0 <= scrn.
  Hypothesis HE : Z.even (dms - scrn) = true.

  Lemma free_mirror_x cs i j : length cs = (n * n)%nat ->
    let sh := map (raw spl n dms ival) (piezo_coords n) in
    piston_free dms (mirror_x n cs) sh i j = piston_free dms cs sh (dms - 1 - i) j.
  Proof.
    intros HLen sh. unfold piston_free, sh.
    assert (S : forall i j, superposition (mirror_x n cs) (map (raw spl n dms ival) (piezo_coords n)) i j
                          = superposition cs (map (raw spl n dms ival) (piezo_coords n)) (dms - 1 - i) j).
    { intros a b. rewrite <- !fast_at by (auto using coords_nodup; rewrite piezo_coords_len; auto using mirror_x_len).
      apply surface_mirror_x; auto. }
    rewrite S. rewrite (average_mirror dms _ _ (fun a b _ _ => S a b)). reflexivity.
  Qed.
  Lemma free_mirror_y cs i j : length cs = (n * n)%nat ->
    let sh := map (raw spl n dms ival) (piezo_coords n) in
    piston_free dms (mirror_y n cs) sh i j = piston_free dms cs sh i (dms - 1 - j).
  Proof.
    intros HLen sh. unfold piston_free, sh.
    assert (S : forall i j, superposition (mirror_y n cs) (map (raw spl n dms ival) (piezo_coords n)) i j
                          = superposition cs (map (raw spl n dms ival) (piezo_coords n)) i (dms - 1 - j)).
    { intros a b. rewrite <- !fast_at by (auto using coords_nodup; rewrite piezo_coords_len; auto using mirror_y_len).
      apply surface_mirror_y; auto. }
    rewrite S. rewrite (average_mirror' dms _ _ (fun a b _ _ => S a b)). reflexivity.
  Qed.

  Lemma centred_mirror f g i j : 0 <= i < scrn -> 0 <= j < scrn ->
    (forall i j, g i j = f (dms - 1 - i) j) -> at2 (centred dms scrn g) i j = at2 (centred dms scrn f) (scrn - 1 - i) j.
  Proof.
    intros Hi Hj H. destruct (round_half_even _ HE) as [_ E2]. cbn [centred at2]. set (h := (dms - scrn) / 2) in *.
    replace ((0 <=? scrn - 1 - i + h) && (scrn - 1 - i + h <? dms)) with ((0 <=? i + h) && (i + h <? dms)).
    - destruct (_ && _); [|reflexivity]. rewrite H. f_equal. lia.
    - apply eq_true_iff_eq. rewrite !andb_true_iff, !Z.leb_le, !Z.ltb_lt. lia.
  Qed.
  Lemma centred_mirror' f g i j : 0 <= i < scrn -> 0 <= j < scrn ->
    (forall i j, g i j = f i (dms - 1 - j)) -> at2 (centred dms scrn g) i j = at2 (centred dms scrn f) i (scrn - 1 - j).
  Proof.
    intros Hi Hj H. destruct (round_half_even _ HE) as [_ E2]. cbn [centred at2]. set (h := (dms - scrn) / 2) in *.
    replace ((0 <=? i + h) && (i + h <? dms) && (0 <=? scrn - 1 - j + h) && (scrn - 1 - j + h <? dms))
      with ((0 <=? i + h) && (i + h <? dms) && (0 <=? j + h) && (j + h <? dms)).
    - destruct (_ && _); [|reflexivity]. rewrite H. f_equal. lia.
    - apply eq_true_iff_eq. rewrite !andb_true_iff, !Z.leb_le, !Z.ltb_lt. lia.
  Qed.

  Theorem fast_mirror css t t' cs out : nth_error css t = Some cs ->
    Forall (fun cs => length cs = (n * n)%nat) css ->
    nth_error (fast_history spl n dms scrn ival 0 (piezo_coords n) (arr_zero scrn) css) t = Some out ->
    (nth_error css t' = Some (mirror_x n cs) -> exists r r', out = Ok r /\
       nth_error (fast_history spl n dms scrn ival 0 (piezo_coords n) (arr_zero scrn) css) t' = Some (Ok r') /\
       forall i j, 0 <= i < scrn -> 0 <= j < scrn -> at2 r' i j = at2 r (scrn - 1 - i) j) /\
    (nth_error css t' = Some (mirror_y n cs) -> exists r r', out = Ok r /\
       nth_error (fast_history spl n dms scrn ival 0 (piezo_coords n) (arr_zero scrn) css) t' = Some (Ok r') /\
       forall i j, 0 <= i < scrn -> 0 <= j < scrn -> at2 r' i j = at2 r i (scrn - 1 - j)).
  Proof.
    intros Ht HF Ho.
    assert (HF' : Forall (fun cs : list Qc => length cs = length (piezo_coords n)) css) by (rewrite piezo_coords_len; exact HF).
    pose proof (fast_history_ok spl HL n dms scrn ival ltac:(lia) Hs HE (piezo_coords n) (coords_nodup n) css _ (arr_zero_inv dms scrn) HF') as FH.
    pose proof (Forall2_nth _ _ _ FH t cs out Ht Ho) as (r & Er & A1 & A2 & A3).
    assert (HLen : length cs = (n * n)%nat) by (rewrite Forall_forall in HF; apply HF; eapply nth_error_In; eauto).
    cbn [centred nrow ncol] in A1, A2.
    split; intros Ht'.
    - destruct (nth_some (fast_history spl n dms scrn ival 0 (piezo_coords n) (arr_zero scrn) css) t') as (o' & Ho').
      { rewrite <- (f2_length _ _ _ FH). exact (nth_lt _ _ _ Ht'). }
      pose proof (Forall2_nth _ _ _ FH t' _ o' Ht' Ho') as (r' & Er' & B1 & B2 & B3). cbn [centred nrow ncol] in B1, B2.
      exists r, r'. split; [exact Er|]. split; [rewrite Ho', Er'; reflexivity|]. intros i j Hi Hj.
      rewrite A3, B3 by lia. apply centred_mirror; auto. intros a b. apply free_mirror_x; auto.
    - destruct (nth_some (fast_history spl n dms scrn ival 0 (piezo_coords n) (arr_zero scrn) css) t') as (o' & Ho').
      { rewrite <- (f2_length _ _ _ FH). exact (nth_lt _ _ _ Ht'). }
      pose proof (Forall2_nth _ _ _ FH t' _ o' Ht' Ho') as (r' & Er' & B1 & B2 & B3). cbn [centred nrow ncol] in B1, B2.
      exists r, r'. split; [exact Er|]. split; [rewrite Ho', Er'; reflexivity|]. intros i j Hi Hj.
      rewrite A3, B3 by lia. apply centred_mirror'; auto. intros a b. apply free_mirror_y; auto.
  Qed.
End Mirror.

(** ** Hats *)
Lemma hat_linear : linear_spline hat_spline.
Proof.
  intros al be a b c R1 C1 R2 C2 H x y. unfold hat_spline. rewrite R1, C1, R2, C2, <- !zsum_scale, <- zsum_add.
  apply zsum_ext. intros i Hi. rewrite <- !zsum_scale, <- zsum_add. apply zsum_ext. intros j Hj. rewrite H by auto. ring.
Qed.
Lemma hat_even t : hat (- t) = hat t.
Proof. unfold hat. rewrite qc_abs_opp. reflexivity. Qed.
Lemma hat_mirror : even_spline hat_spline.
Proof.
  intros a b R C. split; intros H x y; unfold hat_spline; rewrite <- R, <- C in *.
  - rewrite <- (zsum_rev (nrow a) (fun i => zsum (ncol a) (fun j => at2 a i j * hat (qz (nrow a - 1) - x - qz i) * hat (y - qz j))%Qc)).
    apply zsum_ext. intros i Hi. apply zsum_ext. intros j Hj. rewrite H by auto.
    replace (qz (nrow a - 1) - x - qz (nrow a - 1 - i))%Qc with (- (x - qz i))%Qc; [rewrite hat_even; reflexivity|].
    rewrite !qz_sub. ring.
  - apply zsum_ext. intros i Hi.
    rewrite <- (zsum_rev (ncol a) (fun j => at2 a i j * hat (x - qz i) * hat (qz (ncol a - 1) - y - qz j))%Qc).
    apply zsum_ext. intros j Hj. rewrite H by auto.
    replace (qz (ncol a - 1) - y - qz (ncol a - 1 - j))%Qc with (- (y - qz j))%Qc; [rewrite hat_even; reflexivity|].
    rewrite !qz_sub. ring.
Qed.

(** ** Tip-tilt *)
Lemma linspace_pm_step n k : 2 <= n -> (linspace_pm n (k + 1) - linspace_pm n k)%Qc = (qz 2 / qz (n - 1))%Qc.
Proof.
  intros H. unfold linspace_pm. destruct (Z.eqb_spec n 1); [lia|].
  assert (Q : qz (n - 1) <> 0%Qc) by (apply qz_neq0; lia). rewrite qz_add, qz_1. field. exact Q.
Qed.

Theorem tt_tilt nx scrn asec tel ival pupil css t a b out : 2 <= nx -> 0 <= scrn -> Z.even (nx - scrn) = true ->
  asec <> 0%Qc -> tel <> 0%Qc -> 0 < pupil ->
  Forall (fun cs => length cs = 2%nat) css -> nth_error css t = Some [a; b] ->
  nth_error (dm_history scrn 0 (tt_shapes nx asec tel ival) (arr_zero scrn) css) t = Some out ->
  exists r, out = Ok r /\ nrow r = scrn /\ ncol r = scrn /\
    (forall i j, 0 <= i < scrn -> 0 <= j -> j + 1 < scrn ->
       0 <= i + (nx - scrn) / 2 < nx -> 0 <= j + (nx - scrn) / 2 -> j + 1 + (nx - scrn) / 2 < nx ->
       tilt_arcsec asec tel pupil (at2 r i (j + 1) - at2 r i j) = (- (a * ival * (qz pupil / qz (nx - 1))))%Qc) /\
    (forall i j, 0 <= j < scrn -> 0 <= i -> i + 1 < scrn ->
       0 <= j + (nx - scrn) / 2 < nx -> 0 <= i + (nx - scrn) / 2 -> i + 1 + (nx - scrn) / 2 < nx ->
       tilt_arcsec asec tel pupil (at2 r (i + 1) j - at2 r i j) = (- (b * ival * (qz pupil / qz (nx - 1))))%Qc).
Proof.
  intros Hn Hs HE Ha0 Ht0 Hp HF Ht Ho.
  assert (SQ : square_shapes nx (tt_shapes nx asec tel ival)) by (repeat constructor).
  pose proof (Forall2_nth _ _ _ (dm_history_ok nx scrn (tt_shapes nx asec tel ival) css ltac:(lia) Hs HE SQ ltac:(discriminate) HF) t _ out Ht Ho)
    as (r & -> & A1 & A2 & A3). cbn [centred nrow ncol] in A1, A2. exists r. do 3 (split; [auto|]).
  set (h := (nx - scrn) / 2) in *.
  assert (S : forall i j, superposition [a; b] (tt_shapes nx asec tel ival) i j
            = (a * (linspace_pm nx j * tt_amp asec tel * ival) + b * (linspace_pm nx i * tt_amp asec tel * ival))%Qc).
  { intros i j. unfold tt_shapes. rewrite !superposition_cons by reflexivity. cbn [at2]. rewrite superposition_nil. ring. }
  assert (V : forall i j, 0 <= i < scrn -> 0 <= j < scrn -> 0 <= i + h < nx -> 0 <= j + h < nx ->
            at2 r i j = piston_free nx [a; b] (tt_shapes nx asec tel ival) (i + h) (j + h)).
  { intros i j Hi Hj Hi' Hj'. rewrite A3 by lia. cbn [centred at2]. fold h.
    replace ((0 <=? i + h) && (i + h <? nx) && (0 <=? j + h) && (j + h <? nx)) with true; [reflexivity|].
    symmetry. rewrite !andb_true_iff, !Z.leb_le, !Z.ltb_lt. lia. }
  assert (Qp : qz pupil <> 0%Qc) by (apply qz_neq0; lia).
  assert (Qn : qz (nx - 1) <> 0%Qc) by (apply qz_neq0; lia).
  assert (Q9 : qz 1000000000 <> 0%Qc) by (apply qz_neq0; lia).
  assert (Q2 : qz 2 <> 0%Qc) by (apply qz_neq0; lia).
  split; intros i j Hi Hj Hj' Hih Hjh Hjh'; rewrite !V by lia; unfold piston_free; rewrite !S.
  - match goal with |- tilt_arcsec _ _ _ ?d = _ =>
      replace d with (a * ((linspace_pm nx (j + h + 1) - linspace_pm nx (j + h)) * tt_amp asec tel * ival))%Qc
        by (replace (j + 1 + h) with (j + h + 1) by lia; ring) end.
    rewrite linspace_pm_step by auto. unfold tilt_arcsec, tt_amp. field. repeat split; auto.
  - match goal with |- tilt_arcsec _ _ _ ?d = _ =>
      replace d with (b * ((linspace_pm nx (i + h + 1) - linspace_pm nx (i + h)) * tt_amp asec tel * ival))%Qc
        by (replace (i + 1 + h) with (i + h + 1) by lia; ring) end.
    rewrite linspace_pm_step by auto. unfold tilt_arcsec, tt_amp. field. repeat split; auto.
Qed.

(** ** Gaussian stack *)
Theorem gauss_shift bump pupil nacts c s : 2 <= nacts ->
  (forall x y, bump x y = bump (- x)%Qc y) -> gauss_shape bump pupil pupil nacts c = Ok s ->
  exists s', gauss_shape bump pupil pupil nacts (nacts - 1 - fst c, snd c) = Ok s' /\
    forall i j, at2 s' i j = at2 s i (pupil - j).
Proof.
  intros Hn He Hs. unfold gauss_shape, gauss_centre in *. cbn [fst snd]. destruct (Z.eqb_spec nacts 1); [lia|].
  cbn [bind] in *. eexists. split; [reflexivity|]. intros i j. injection Hs as <-. cbn [at2]. rewrite He. f_equal.
  assert (Q : qz (nacts - 1) <> 0%Qc) by (apply qz_neq0; lia). rewrite (qz_sub (nacts - 1)), (qz_sub pupil). field. exact Q.
Qed.

Lemma keep_all {A} (l : list A) : keep (repeat true (length l)) l = l.
Proof. unfold keep. induction l as [|x l IH]; cbn; [reflexivity|]. cbn in IH. rewrite IH. reflexivity. Qed.

Theorem stack_mirror spl n dms scrn ival css t t' cs : linear_spline spl -> even_spline spl ->
  (0 < n)%nat -> 2 <= dms -> 0 <= scrn -> Z.even (dms - scrn) = true -> dms <> scrn ->
  Forall (fun cs => length cs = (n * n)%nat) css -> nth_error css t = Some cs ->
  exists sh, piezo_shapes spl n dms scrn ival = Ok sh /\
    (nth_error css t' = Some (mirror_x n cs) -> exists r r',
       nth_error (dm_history scrn 0 sh (arr_zero scrn) css) t = Some (Ok r) /\
       nth_error (dm_history scrn 0 sh (arr_zero scrn) css) t' = Some (Ok r') /\
       forall i j, 0 <= i < scrn -> 0 <= j < scrn -> at2 r' i j = at2 r (scrn - 1 - i) j) /\
    (nth_error css t' = Some (mirror_y n cs) -> exists r r',
       nth_error (dm_history scrn 0 sh (arr_zero scrn) css) t = Some (Ok r) /\
       nth_error (dm_history scrn 0 sh (arr_zero scrn) css) t' = Some (Ok r') /\
       forall i j, 0 <= i < scrn -> 0 <= j < scrn -> at2 r' i j = at2 r i (scrn - 1 - j)).
Proof.
  intros HL HV Hn Hd Hs HE Hne HF Ht.
  assert (K : keep (repeat true (length (piezo_coords n))) (piezo_coords n) = piezo_coords n) by apply keep_all.
  assert (Hk : piezo_coords n <> []).
  { intros C. pose proof (piezo_coords_len n) as L. rewrite C in L. cbn in L. nia. }
  assert (HF' : Forall (fun cs : list Qc => length cs = length (piezo_coords n)) css) by (rewrite piezo_coords_len; exact HF).
  destruct (stack_and_fast spl HL n dms scrn ival ltac:(lia) Hs HE (repeat true (length (piezo_coords n))) css Hne) as (sh & Esh & HA).
  { rewrite K. exact Hk. }
  { rewrite K. exact HF'. }
  exists sh. split; [exact Esh|].
  assert (Lsh : length sh = length (piezo_coords n)) by (apply (mapM_length _ _ _ Esh)).
  assert (K2 : keep (repeat true (length (piezo_coords n))) sh = sh) by (rewrite <- Lsh; apply keep_all).
  rewrite K, K2 in HA.
  pose proof (fast_history_ok spl HL n dms scrn ival ltac:(lia) Hs HE (piezo_coords n) (coords_nodup n) css _ (arr_zero_inv dms scrn) HF') as FH.
  assert (L2 : length (dm_history scrn 0 sh (arr_zero scrn) css) = length css).
  { generalize (arr_zero scrn). clear. induction css as [|c css IH]; intros s; cbn [dm_history length]; [reflexivity|]. f_equal. apply IH. }
  assert (G : forall u c, nth_error css u = Some c -> exists r1 r2,
            nth_error (dm_history scrn 0 sh (arr_zero scrn) css) u = Some (Ok r1) /\
            nth_error (fast_history spl n dms scrn ival 0 (piezo_coords n) (arr_zero scrn) css) u = Some (Ok r2) /\
            (forall i j, 0 <= i < scrn -> 0 <= j < scrn -> at2 r1 i j = (at2 r2 i j - average scrn (at2 r2))%Qc)).
  { intros u c Hu.
    destruct (nth_some (fast_history spl n dms scrn ival 0 (piezo_coords n) (arr_zero scrn) css) u) as (o2 & E2).
    { rewrite <- (f2_length _ _ _ FH). exact (nth_lt _ _ _ Hu). }
    destruct (nth_some (dm_history scrn 0 sh (arr_zero scrn) css) u) as (o1 & E1).
    { rewrite L2. exact (nth_lt _ _ _ Hu). }
    destruct (HA u c o1 o2 Hu E1 E2) as (r1 & r2 & -> & -> & _ & _ & _ & _ & _ & H & _). exists r1, r2. auto. }
  destruct (G t cs Ht) as (r1 & r2 & E1 & E2 & V).
  destruct (fast_mirror spl HL HV n dms scrn ival Hd Hs HE css t t' cs (Ok r2) Ht HF E2) as [MX MY].
  split; intros Ht'; destruct (G t' _ Ht') as (r1' & r2' & E1' & E2' & V').
  - destruct (MX Ht') as (q & q' & Eq & Eq' & HM). injection Eq as <-. rewrite E2' in Eq'. injection Eq' as <-.
    exists r1, r1'. split; [exact E1|]. split; [exact E1'|]. intros i j Hi Hj.
    rewrite V', V by lia. rewrite HM by auto. rewrite (average_mirror scrn _ _ HM). reflexivity.
  - destruct (MY Ht') as (q & q' & Eq & Eq' & HM). injection Eq as <-. rewrite E2' in Eq'. injection Eq' as <-.
    exists r1, r1'. split; [exact E1|]. split; [exact E1'|]. intros i j Hi Hj.
    rewrite V', V by lia. rewrite HM by auto. rewrite (average_mirror' scrn _ _ HM). reflexivity.
Qed.

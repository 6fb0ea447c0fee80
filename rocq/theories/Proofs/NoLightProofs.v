(** Proofs about missing light and NaN. *)
From Verif.Base Require Import Vec.
From Verif.Model Require Import Recon Sh NoLight.
From Verif.Spec Require Import NoLightSpec.
From Coq Require Import Lia.

Lemma fl2_num f a b : is_num a -> is_num b -> is_num (fl2 f a b).
Proof. intros [x ->] [y ->]. eexists. reflexivity. Qed.
Lemma fl2_nan_l f b : fl2 f NaN b = NaN.
Proof. reflexivity. Qed.
Lemma fl2_nan_r f a : fl2 f a NaN = NaN.
Proof. now destruct a. Qed.
Lemma fsum_num v : Forall is_num v -> is_num (fsum v).
Proof. induction 1; cbn; [eexists; reflexivity|]. now apply fl2_num. Qed.
Lemma fsum_nan v : In NaN v -> fsum v = NaN.
Proof. induction v as [|a v IH]; cbn; [tauto|]. intros [-> | H]; [reflexivity|]. change (fadd a (fsum v) = NaN). rewrite IH by assumption. apply fl2_nan_r. Qed.
Lemma fmean_num v : v <> [] -> Forall is_num v -> is_num (fmean v).
Proof.
  intros HN H. destruct (fsum_num v H) as [q E]. unfold fmean. rewrite E. cbn [fdiv].
  destruct (qc_eqb _ 0) eqn:B; [|eexists; reflexivity].
  apply qc_eqb_true in B. apply (qz_inj _ 0) in B. destruct v; cbn in B; [congruence|lia].
Qed.
Lemma fmean_nan v : In NaN v -> fmean v = NaN.
Proof. intros H. unfold fmean. now rewrite fsum_nan. Qed.
Lemma fsub_mean_num v : Forall is_num v -> Forall is_num (fsub_mean v).
Proof.
  intros H. unfold fsub_mean. apply Forall_map. destruct v as [|a v]; [constructor|].
  pose proof (fmean_num (a :: v) ltac:(discriminate) H) as M. eapply Forall_impl; [|exact H]. intros x Hx. now apply fl2_num.
Qed.
Lemma fzip_num f a b : Forall is_num a -> Forall is_num b -> Forall is_num (fzip (fl2 f) a b).
Proof.
  intros Ha. revert b. induction Ha as [|x a Hx Ha IH]; intros [|y b] Hb; try constructor.
  - apply fl2_num; [assumption|now inversion Hb].
  - apply IH. now inversion Hb.
Qed.
Lemma slopes_num p st n tt c : match st with Some s => Forall is_num s | None => True end -> Forall is_num c ->
  Forall is_num (slopes_from p st n tt c).
Proof.
  intros HS HC. unfold slopes_from.
  assert (H1 : Forall is_num (map (fun v => fsub v (Num (qz p / qz 2)%Qc)) c)).
  { apply Forall_map. eapply Forall_impl; [|exact HC]. intros x Hx. apply fl2_num; [assumption|eexists; reflexivity]. }
  set (s := map _ c) in *. clearbody s.
  assert (T : forall v, Forall is_num v -> Forall is_num (if tt then fsub_mean (firstn n v) ++ fsub_mean (skipn n v) else v)).
  { intros v H2. destruct tt; auto. rewrite <- (firstn_skipn n v) in H2. apply Forall_app in H2. destruct H2 as [Ha Hb].
    apply Forall_app. split; apply fsub_mean_num; assumption. }
  destruct st as [z|]; [destruct (any_true z)|]; apply T; auto. now apply fzip_num.
Qed.
Lemma check_id s : check_slopes s = s.
Proof. unfold check_slopes. now destruct (existsb isnan s). Qed.
Lemma nums c : Forall is_num (map nan_to_num c).
Proof. apply Forall_map, Forall_forall. intros [q|] _; eexists; reflexivity. Qed.
Lemma sh_numbers p st n tt c : match st with Some s => Forall is_num s | None => True end -> Forall is_num (sh_measure p st n tt c).
Proof. intros H. unfold sh_measure. rewrite check_id. apply slopes_num; [assumption|apply nums]. Qed.

Lemma at_map {A B} (f : A -> B) v k x : at_k v k x -> at_k (map f v) k (f x).
Proof. unfold at_k. apply map_nth_error. Qed.
Lemma at_zip f a b k x y : at_k a k x -> at_k b k y -> at_k (fzip f a b) k (f x y).
Proof.
  unfold at_k, fzip. revert b k. induction a as [|u a IH]; intros [|v b] [|k] H1 H2; cbn in *; try discriminate.
  - congruence.
  - now apply IH.
Qed.
Lemma any_false st k q : any_true st = false -> at_k st k q -> q = Num 0.
Proof.
  intros H E. unfold at_k in E. apply nth_error_In in E.
  destruct q as [q|].
  - f_equal. destruct (qc_eqb q 0) eqn:B; [now apply qc_eqb_true|].
    assert (any_true st = true) by (apply existsb_exists; exists (Num q); rewrite B; auto). congruence.
  - assert (any_true st = true) by (apply existsb_exists; exists NaN; auto). congruence.
Qed.
Lemma slope_at p st n c k x z : at_k c k x -> at_k st k (Num z) ->
  at_k (slopes_from p (Some st) n false c) k (fsub (fsub x (Num (qz p / qz 2)%Qc)) (Num z)).
Proof.
  intros HC HS. unfold slopes_from. pose proof (at_map (fun v => fsub v (Num (qz p / qz 2)%Qc)) c k x HC) as HM. cbn beta in HM.
  destruct (any_true st) eqn:B.
  - apply at_zip; assumption.
  - pose proof (any_false st k _ B HS) as E. injection E as ->. cbv iota.
    replace (fsub (fsub x (Num (qz p / qz 2)%Qc)) (Num 0)) with (fsub x (Num (qz p / qz 2)%Qc)); [exact HM|].
    destruct x; cbn; auto. f_equal. ring.
Qed.
(** A dark sub-aperture of the ordinary sensor, with the static slopes of a flat wavefront. *)
Lemma dark_slope p n flat c k q : at_k flat k (Num q) -> at_k c k NaN ->
  at_k (sh_measure p (Some (sh_measure p None n false flat)) n false c) k (Num (- q)%Qc).
Proof.
  intros HF HC. unfold sh_measure. rewrite !check_id.
  set (st := slopes_from p None n false (map nan_to_num flat)).
  assert (HS : at_k st k (Num (q - qz p / qz 2)%Qc)).
  { unfold st, slopes_from. pose proof (at_map nan_to_num _ _ _ HF) as H. cbn in H.
    pose proof (at_map (fun v => fsub v (Num (qz p / qz 2)%Qc)) _ _ _ H) as H2. exact H2. }
  pose proof (at_map nan_to_num _ _ _ HC) as H. change (nan_to_num NaN) with (Num 0) in H.
  pose proof (slope_at p st n _ k _ _ H HS) as H2.
  replace (Num (- q)%Qc) with (fsub (fsub (Num 0) (Num (qz p / qz 2)%Qc)) (Num (q - qz p / qz 2)%Qc)); [exact H2|].
  cbn. f_equal. ring.
Qed.
(** The legacy sensor lets NaN through. *)
Lemma legacy_nan p st n c k z : at_k c k NaN -> match st with Some s => at_k s k z | None => True end ->
  at_k (legacy_measure p st n false c) k NaN.
Proof.
  intros HC HS. unfold legacy_measure. rewrite check_id. unfold slopes_from.
  pose proof (at_map (fun v => fsub v (Num (qz p / qz 2)%Qc)) c k _ HC) as HM. cbn in HM.
  destruct st as [s|]; [|exact HM]. destruct (any_true s); [|exact HM]. exact (at_zip fsub _ _ k _ _ HM HS).
Qed.
Lemma sub_mean_nan v : In NaN v -> fsub_mean v = repeat NaN (length v).
Proof.
  intros H. unfold fsub_mean. rewrite (fmean_nan v H). clear H. induction v as [|a v IH]; cbn; [reflexivity|]. f_equal; auto. apply fl2_nan_r.
Qed.
(** With tip-tilt removal all slopes of the axis are lost. *)
Lemma legacy_tt_nan p st n c k z : at_k c k NaN -> (k < n)%nat -> match st with Some s => at_k s k z | None => True end ->
  forall j, (j < n)%nat -> (j < length (legacy_measure p st n true c))%nat -> at_k (legacy_measure p st n true c) j NaN.
Proof.
  intros HC Hk HS j Hj. pose proof (legacy_nan p st n c k z HC HS) as HN. unfold legacy_measure in *. rewrite check_id in *.
  unfold slopes_from in *. match type of HN with at_k ?t _ _ => set (s := t) in * end. clearbody s.
  intros HL.
  assert (HI : In NaN (firstn n s)).
  { apply (nth_error_In _ k). rewrite <- (firstn_skipn n s) in HN. unfold at_k in HN. rewrite nth_error_app1 in HN; [exact HN|].
    rewrite firstn_length. assert (k < length s)%nat; [|lia]. apply nth_error_Some. rewrite <- (firstn_skipn n s). congruence. }
  rewrite (sub_mean_nan _ HI) in *. unfold at_k.
  destruct (Nat.lt_ge_cases j (length (firstn n s))) as [Hlt|Hge].
  - rewrite nth_error_app1 by (now rewrite repeat_length). apply nth_error_repeat. assumption.
  - exfalso. rewrite app_length, repeat_length in HL. unfold fsub_mean in HL. rewrite map_length, skipn_length, firstn_length in *. lia.
Qed.

(** Centres of gravity. *)
Lemma lsum_zero l : Forall (fun v => v = 0%Qc) l -> lsum l = 0%Qc.
Proof. induction 1 as [|x l -> _ IH]; [reflexivity|]. cbn. fold (lsum l). rewrite IH. reflexivity. Qed.
Lemma dark_weight w : dark w -> weight w = 0%Qc.
Proof. intros H. unfold weight. apply lsum_zero, Forall_map. eapply Forall_impl; [|exact H]. apply lsum_zero. Qed.
Lemma dark_cog w : dark w -> cog_x w = NaN /\ cog_y w = NaN.
Proof. intros H. unfold cog_x, cog_y. cbn [fdiv]. rewrite (dark_weight w H). auto. Qed.


(** On numbers the reconstructor is that of Model/Recon.v. *)
Lemma map_splice {A B} (f : A -> B) l a v : map f (splice l a v) = splice (map f l) a (map f v).
Proof. unfold splice. now rewrite !map_app, firstn_map, skipn_map, map_length. Qed.
Lemma zip_nums f a b : fzip (fl2 f) (map Num a) (map Num b) = map Num (vmap2 f a b).
Proof. revert b. induction a as [|x a IH]; intros [|y b]; cbn; try reflexivity. f_equal. apply IH. Qed.
Lemma scale_nums g v : map (fmul (Num g)) (map Num v) = map Num (vscale g v).
Proof. unfold vscale. rewrite !map_map. reflexivity. Qed.
Lemma map_repeat' {A B} (f : A -> B) x n : map f (repeat x n) = repeat (f x) n.
Proof. induction n; cbn; [reflexivity|]. now f_equal. Qed.
Lemma gain_nums ds : forall n1 a new, fapply_gain n1 ds (map Num a) (map Num new) = rmap (map Num) (apply_gain_from n1 ds a new).
Proof.
  induction ds as [|d ds IH]; intros n1 a new; cbn [fapply_gain apply_gain_from]; [reflexivity|].
  destruct (n_valid d) as [nv|]; [|reflexivity].
  rewrite !skipn_map, !firstn_map, !map_length. unfold bcast.
  set (sn := firstn nv (skipn n1 new)). set (sa := firstn nv (skipn n1 a)).
  assert (K : forall b, fapply_gain (n1 + nv) ds
     (splice (map Num a) n1 (if closed d then fzip fadd (map Num sa) (map (fmul (Num (gain d))) (map Num b))
        else fzip fadd (map (fmul (Num (gain d))) (map Num b)) (map (fmul (Num (1 - gain d)%Qc)) (map Num sa)))) (map Num new)
     = rmap (map Num) (apply_gain_from (n1 + nv) ds (splice a n1 (if closed d then vadd sa (vscale (gain d) b)
         else vadd (vscale (gain d) b) (vscale (1 - gain d) sa))) new)).
  { intros b. rewrite <- IH. f_equal. rewrite map_splice. f_equal.
    destruct (closed d); rewrite ?scale_nums; apply zip_nums. }
  destruct (length sn =? length sa)%nat eqn:E; cbn [bind].
  - apply K.
  - destruct sn as [|x [|y sn']] eqn:Es; cbn [map bind rmap]; try reflexivity.
    rewrite <- map_repeat'. apply K.
Qed.
Lemma dot_nums row m : fdot row (map Num m) = Num (dot row m).
Proof.
  unfold fdot, dot. revert m. induction row as [|x row IH]; intros [|y m]; cbn; try reflexivity.
  change (fadd (Num (x * y)) (fsum (map (fun p => fmul (Num (fst p)) (snd p)) (combine row (map Num m)))) = Num (x * y + lsum (vmap2 Qcmult row m))).
  rewrite IH. reflexivity.
Qed.
Lemma recon_nums ds nmeas total ctrl s m :
  freconstruct ds nmeas total ctrl (option_map (map Num) s) (map Num m) = rmap (map Num) (reconstruct ds nmeas total ctrl s m).
Proof.
  unfold freconstruct, reconstruct. rewrite map_length. destruct (length m =? nmeas)%nat; [|reflexivity].
  replace (map (fun row => fdot row (map Num m)) ctrl) with (map Num (mvm ctrl m))
    by (unfold mvm; rewrite map_map; apply map_ext; intros r; symmetry; apply dot_nums).
  unfold apply_gain. rewrite <- gain_nums. f_equal. destruct s as [a|]; cbn; [reflexivity|]. unfold vzero. now rewrite map_repeat'.
Qed.

(** One NaN among the measurements. *)
Lemma dot_lost row m : In NaN m -> length row = length m -> fdot row m = NaN.
Proof.
  intros H L. unfold fdot. apply fsum_nan. apply in_map_iff.
  revert m H L. induction row as [|x row IH]; intros [|y m] H L; cbn in *; try discriminate; [tauto|].
  destruct H as [-> | H].
  - exists (x, NaN). split; [reflexivity|auto].
  - destruct (IH m H ltac:(lia)) as (p & E & I). exists p. auto.
Qed.
Lemma zip_lost_l f a b : lost a -> length a = length b -> lost (fzip (fl2 f) a b) /\ length (fzip (fl2 f) a b) = length a.
Proof.
  intros H L. split; [|unfold fzip; rewrite map_length, combine_length; lia].
  apply Forall_map, Forall_forall. intros [x y] I. apply in_combine_l in I. unfold lost in H. rewrite Forall_forall in H. cbn. now rewrite (H x I).
Qed.
Lemma zip_lost_r f a b : lost b -> length a = length b -> lost (fzip (fl2 f) a b) /\ length (fzip (fl2 f) a b) = length a.
Proof.
  intros H L. split; [|unfold fzip; rewrite map_length, combine_length; lia].
  apply Forall_map, Forall_forall. intros [x y] I. apply in_combine_r in I. unfold lost in H. rewrite Forall_forall in H. cbn. rewrite (H y I). apply fl2_nan_r.
Qed.
Lemma scale_lost g v : lost v -> lost (map (fmul (Num g)) v).
Proof. intros H. apply Forall_map. eapply Forall_impl; [|exact H]. intros x ->. reflexivity. Qed.
Lemma lost_part v a n : lost v -> lost (firstn n (skipn a v)).
Proof.
  intros H. rewrite <- (firstn_skipn a v) in H. apply Forall_app in H. destruct H as [_ H].
  rewrite <- (firstn_skipn n (skipn a v)) in H. apply Forall_app in H. tauto.
Qed.
Definition sum_acts (ds : list dm) : nat := fold_right plus 0%nat (map acts_of ds).

Lemma gain_lost new : forall ds pre rest, Forall (fun d => n_valid d <> None) ds -> lost pre -> lost rest \/ lost new ->
  length rest = sum_acts ds -> length new = (length pre + sum_acts ds)%nat ->
  exists a, fapply_gain (length pre) ds (pre ++ rest) new = Ok a /\ lost a /\ length a = (length pre + length rest)%nat.
Proof.
  induction ds as [|d ds IH]; intros pre rest HV HP HR LR LN.
  - cbn in LR. destruct rest; [|discriminate]. exists pre. cbn. rewrite app_nil_r. auto.
  - pose proof (Forall_inv HV) as Hd. pose proof (Forall_inv_tail HV) as HV'. cbn [fapply_gain].
    destruct (n_valid d) as [nv|] eqn:En; [|congruence].
    assert (SA : sum_acts (d :: ds) = (nv + sum_acts ds)%nat) by (unfold sum_acts, acts_of; cbn [map fold_right]; rewrite En; reflexivity).
    rewrite SA in *.
    assert (Sk : skipn (length pre) (pre ++ rest) = rest) by (rewrite skipn_app, skipn_all, Nat.sub_diag; reflexivity).
    rewrite Sk. set (sa := firstn nv rest). set (sn := firstn nv (skipn (length pre) new)).
    assert (La : length sa = nv) by (unfold sa; rewrite firstn_length; lia).
    assert (Ln : length sn = nv) by (unfold sn; rewrite firstn_length, skipn_length; lia).
    rewrite La, Ln, Nat.eqb_refl. cbn [bind].
    set (sa' := if closed d then _ else _).
    assert (Lost : lost sa' /\ length sa' = nv).
    { assert (HS : lost sa \/ lost sn).
      { destruct HR as [HR|HR]; [left|right; apply lost_part, HR]. change rest with (skipn 0 rest) in sa. apply (lost_part rest 0), HR. }
      unfold sa'. destruct HS as [HS|HS]; destruct (closed d).
      - destruct (zip_lost_l Qcplus sa (map (fmul (Num (gain d))) sn) HS) as [A B]; [rewrite map_length; lia|]. split; [exact A|]. etransitivity; [exact B|exact La].
      - destruct (zip_lost_r Qcplus (map (fmul (Num (gain d))) sn) (map (fmul (Num (1 - gain d)%Qc)) sa) (scale_lost _ _ HS)) as [A B]; [rewrite !map_length; lia|].
        split; [exact A|]. etransitivity; [exact B|]. now rewrite map_length.
      - destruct (zip_lost_r Qcplus sa (map (fmul (Num (gain d))) sn) (scale_lost _ _ HS)) as [A B]; [rewrite map_length; lia|]. split; [exact A|]. etransitivity; [exact B|exact La].
      - destruct (zip_lost_l Qcplus (map (fmul (Num (gain d))) sn) (map (fmul (Num (1 - gain d)%Qc)) sa) (scale_lost _ _ HS)) as [A B]; [rewrite !map_length; lia|].
        split; [exact A|]. etransitivity; [exact B|]. now rewrite map_length. }
    destruct Lost as [L1 L2]. clearbody sa'.
    assert (Sp : splice (pre ++ rest) (length pre) sa' = (pre ++ sa') ++ skipn nv rest).
    { unfold splice. rewrite firstn_app, firstn_all, Nat.sub_diag. cbn [firstn]. rewrite app_nil_r, skipn_app, <- app_assoc. f_equal. f_equal.
      rewrite skipn_all2 by lia. cbn [app]. f_equal. lia. }
    rewrite Sp. replace (length pre + nv)%nat with (length (pre ++ sa')) by (rewrite app_length; lia).
    destruct (IH (pre ++ sa') (skipn nv rest) HV') as (a & E & HL & LL).
    + apply Forall_app; auto.
    + destruct HR as [HR|HR]; auto. left. rewrite <- (firstn_skipn nv rest) in HR. apply Forall_app in HR. tauto.
    + rewrite skipn_length. lia.
    + rewrite app_length. lia.
    + exists a. split; [exact E|]. split; [exact HL|]. rewrite LL, app_length, skipn_length. lia.
Qed.

Lemma frame_lost ds nmeas total ctrl s m : fitted ds nmeas total ctrl -> length m = nmeas ->
  match s with Some a => length a = total | None => True end ->
  In NaN m \/ (exists a, s = Some a /\ lost a) ->
  exists a, freconstruct ds nmeas total ctrl s m = Ok a /\ lost a /\ length a = total.
Proof.
  intros (HV & HT & HC & HR) HM HS HN. unfold freconstruct. rewrite HM, Nat.eqb_refl.
  set (a0 := match s with None => repeat (Num 0) total | Some a => a end).
  assert (L0 : length a0 = total) by (unfold a0; destruct s; [assumption|apply repeat_length]).
  destruct (gain_lost (map (fun row => fdot row m) ctrl) ds [] a0 HV (Forall_nil _)) as (a & E & HL & LL).
  - destruct HN as [HN|(a & E & HL)].
    + right. apply Forall_map. eapply Forall_impl; [|exact HR]. intros r Hr. apply dot_lost; [assumption|congruence].
    + left. unfold a0. rewrite E. exact HL.
  - rewrite L0. exact HT.
  - rewrite map_length. cbn [length]. rewrite HC. exact HT.
  - exists a. cbn [length app] in E, LL. split; [exact E|]. split; [exact HL|]. now rewrite LL, L0.
Qed.
Lemma stays_lost ds nmeas total ctrl : fitted ds nmeas total ctrl -> forall ops a, lost a -> length a = total ->
  Forall (frame_of_length nmeas) ops -> exists b, frecon_run ds nmeas total ctrl (Some a) ops = Ok (Some b) /\ lost b /\ length b = total.
Proof.
  intros HF. induction ops as [|o ops IH]; intros a HL LA HO; [exists a; auto|].
  pose proof (Forall_inv HO) as Ho. pose proof (Forall_inv_tail HO) as HO'. destruct o as [m|]; [|destruct Ho]. cbn [frame_of_length] in Ho.
  cbn [frecon_run]. destruct (frame_lost ds nmeas total ctrl (Some a) m HF Ho LA ltac:(right; eauto)) as (b & E & HB & LB).
  rewrite E. cbn [bind]. apply IH; assumption.
Qed.
Lemma poisoned ds nmeas total ctrl s m ops : fitted ds nmeas total ctrl ->
  match s with Some a => length a = total | None => True end -> length m = nmeas -> In NaN m ->
  Forall (frame_of_length nmeas) ops ->
  exists b, frecon_run ds nmeas total ctrl s (FFrame m :: ops) = Ok (Some b) /\ lost b /\ length b = total.
Proof.
  intros HF HS HM HN HO. cbn [frecon_run]. destruct (frame_lost ds nmeas total ctrl s m HF HM HS (or_introl HN)) as (a & E & HL & LA).
  rewrite E. cbn [bind]. apply stays_lost; assumption.
Qed.
(** reset_loop brings the commands back. *)
Lemma cleared ds nmeas total ctrl a m : 
  frecon_run ds nmeas total ctrl (Some a) [FReset; FFrame (map Num m)]
  = rmap Some (rmap (map Num) (reconstruct ds nmeas total ctrl (Some (vzero (length a))) m)).
Proof.
  cbn [frecon_run freset option_map]. pose proof (recon_nums ds nmeas total ctrl (Some (vzero (length a))) m) as E.
  cbn [option_map] in E. unfold vzero in E. rewrite map_repeat' in E. rewrite E.
  unfold vzero. destruct (reconstruct _ _ _ _ _ _); reflexivity.
Qed.
(** On numbers the slopes are those of Model/Sh.v. *)
Lemma any_nums st : any_true (map Num st) = any_nonzero st.
Proof. unfold any_true, any_nonzero. induction st as [|x st IH]; cbn; [reflexivity|]. now rewrite IH. Qed.
Lemma fsum_nums v : fsum (map Num v) = Num (lsum v).
Proof. induction v as [|x v IH]; [reflexivity|]. cbn [map]. change (fadd (Num x) (fsum (map Num v)) = Num (x + lsum v)). now rewrite IH. Qed.
Lemma sub_mean_nums v : fsub_mean (map Num v) = map Num (sub_mean v).
Proof.
  destruct v as [|a v]; [reflexivity|]. set (w := a :: v).
  assert (M : fmean (map Num w) = Num (lsum w / qz (Z.of_nat (length w)))%Qc).
  { unfold fmean. rewrite fsum_nums, map_length. cbn [fdiv]. destruct (qc_eqb _ 0) eqn:B; [|reflexivity].
    apply qc_eqb_true in B. apply (qz_inj _ 0) in B. cbn in B. lia. }
  unfold fsub_mean. rewrite M. unfold sub_mean. rewrite !map_map. reflexivity.
Qed.
Lemma slopes_nums p st n tt c : slopes_from p (option_map (map Num) st) n tt (map Num c) = map Num (calc_slopes p st n tt c).
Proof.
  unfold slopes_from, calc_slopes.
  assert (H1 : map (fun v => fsub v (Num (qz p / qz 2)%Qc)) (map Num c) = map Num (map (fun v => v - qz p / qz 2)%Qc c)) by (rewrite !map_map; reflexivity).
  rewrite H1. set (s := map (fun v => v - qz p / qz 2)%Qc c). clearbody s. clear H1.
  assert (T : forall v, (if tt then fsub_mean (firstn n (map Num v)) ++ fsub_mean (skipn n (map Num v)) else map Num v) = map Num (if tt then remove_tt n v else v)).
  { intros v. destruct tt; [|reflexivity]. unfold remove_tt. now rewrite firstn_map, skipn_map, !sub_mean_nums, map_app. }
  destruct st as [z|]; cbn [option_map]; [|apply T]. rewrite any_nums. destruct (any_nonzero z); [|apply T].
  change (fzip fsub (map Num s) (map Num z)) with (fzip (fl2 Qcminus) (map Num s) (map Num z)). rewrite zip_nums. apply T.
Qed.
Lemma measure_nums p st n tt c : sh_measure p (option_map (map Num) st) n tt (map Num c) = map Num (calc_slopes p st n tt c) /\
  legacy_measure p (option_map (map Num) st) n tt (map Num c) = map Num (calc_slopes p st n tt c).
Proof.
  unfold sh_measure, legacy_measure. rewrite !check_id.
  replace (map nan_to_num (map Num c)) with (map Num c) by (rewrite map_map; reflexivity). split; apply slopes_nums.
Qed.

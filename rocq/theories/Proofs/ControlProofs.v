(** Lemmas for the other reconstructors. *)
From Verif.Base Require Import Vec PyFacts.
From Verif.Model Require Import Recon Control.
From Verif.Spec Require Import ReconSpec ControlSpec.
From Verif.Proofs Require Import ReconProofs.

Lemma skipn_repeat' {A} (x : A) : forall k o, skipn o (repeat x k) = repeat x (k - o).
Proof. induction k as [|k IH]; intros [|o]; simpl; auto. Qed.
Lemma firstn_repeat' {A} (x : A) : forall n k, (n <= k)%nat -> firstn n (repeat x k) = repeat x n.
Proof. induction n as [|n IH]; intros [|k] H; simpl; auto; try lia. f_equal. apply IH. lia. Qed.

(** ** Storing blocks *)
Definition embed (o tot : nat) (p : vec) : vec := vzero o ++ p ++ vzero (tot - o - length p).

Lemma store_row_zero o nw tot p : length p = nw -> (o + nw <= tot)%nat ->
  store_row o nw (vzero tot) p = Ok (embed o tot p).
Proof.
  intros Hp Hle. unfold store_row, vzero. rewrite skipn_repeat', firstn_length, repeat_length.
  unfold bcast. replace (length p =? Nat.min nw (tot - o))%nat with true by (symmetry; apply Nat.eqb_eq; lia).
  cbn [bind]. unfold splice, embed, vzero. rewrite skipn_repeat', firstn_repeat' by lia. do 4 f_equal. lia.
Qed.

Lemma mapM_combine_rep {A B C} (f : A * B -> result C) (g : B -> C) (x : A) l :
  (forall b, In b l -> f (x, b) = Ok (g b)) -> mapM f (combine (repeat x (length l)) l) = Ok (map g l).
Proof.
  induction l as [|b l IH]; intros H; [reflexivity|]. cbn [length repeat combine mapM map].
  rewrite H by (left; auto). cbn [bind]. rewrite IH by (intros; apply H; right; auto). reflexivity.
Qed.

Lemma store2_zero done n rest tot o nw P : shaped n nw P -> (o + nw <= tot)%nat ->
  store2 (done ++ zeros2 (n + rest) tot) (length done) n o nw P
  = Ok ((done ++ map (embed o tot) P) ++ zeros2 rest tot).
Proof.
  intros [HL HF] Hle. unfold store2.
  rewrite skipn_app, skipn_all, Nat.sub_diag. cbn [app skipn].
  assert (E1 : firstn n (zeros2 (n + rest) tot) = repeat (vzero tot) n).
  { unfold zeros2. apply firstn_repeat'. lia. }
  rewrite E1, repeat_length. unfold bcast_rows. unfold mat in *. rewrite HL, Nat.eqb_refl. cbn [bind].
  rewrite <- HL at 1.
  rewrite (mapM_combine_rep _ (embed o tot)).
  - cbn [bind]. f_equal. unfold splice. rewrite firstn_app, firstn_all, Nat.sub_diag. cbn [firstn]. rewrite app_nil_r.
    rewrite <- app_assoc. f_equal. f_equal. rewrite map_length, HL. rewrite skipn_app, skipn_all2 by lia.
    replace (length done + n - length done)%nat with n by lia. unfold zeros2. rewrite skipn_repeat'. cbn [app]. f_equal. lia.
  - intros b Hb. cbn [fst snd]. apply store_row_zero; auto. rewrite Forall_forall in HF. auto.
Qed.

Lemma embed_full p : embed 0 (length p) p = p.
Proof. unfold embed. rewrite Nat.sub_0_r, Nat.sub_diag. cbn. apply app_nil_r. Qed.

Lemma store2_full n nw sub : shaped n nw sub -> store2 (zeros2 n nw) 0 n 0 nw sub = Ok sub.
Proof.
  intros H. pose proof (store2_zero [] n 0 nw 0 nw sub H ltac:(lia)) as E.
  rewrite Nat.add_0_r in E. cbn [app length] in E. rewrite E. f_equal. cbn. rewrite app_nil_r.
  destruct H as [_ H]. rewrite <- (map_id sub) at 2. apply map_ext_in. intros p Hp.
  rewrite Forall_forall in H. rewrite <- (H p Hp). apply embed_full.
Qed.

Lemma dot_app a b c d : length a = length c -> dot (a ++ b) (c ++ d) = (dot a c + dot b d)%Qc.
Proof.
  revert c; induction a as [|x a IH]; intros [|y c] E; simpl in E; try discriminate.
  - cbn [app]. replace (dot [] []) with 0%Qc by reflexivity. ring.
  - cbn [app]. rewrite !dot_cons, IH by lia. ring.
Qed.
Lemma dot_zero_l a n : dot (vzero n) a = 0%Qc.
Proof. rewrite dot_comm. apply dot_zero_r. Qed.

Lemma dot_embed o tot p v : length v = tot -> (o + length p <= tot)%nat ->
  dot (embed o tot p) v = dot p (segment o (length p) v).
Proof.
  intros Hv Hle. unfold embed.
  rewrite <- (firstn_skipn o v) at 1. rewrite dot_app by (rewrite vzero_length, firstn_length; lia).
  rewrite dot_zero_l. rewrite <- (firstn_skipn (length p) (skipn o v)) at 1.
  rewrite dot_app by (rewrite firstn_length, skipn_length; lia).
  rewrite dot_zero_l. unfold segment. ring.
Qed.

(** ** MVM_SeparateDMs *)
Lemma total_data_start ws w s o : nth_error ws w = Some s -> nth_error (data_starts ws) w = Some o ->
  (o + s_meas s <= total_data ws)%nat.
Proof.
  intros H1 H2. unfold data_starts in H2.
  assert (Hn : nth_error (map s_meas ws) w = Some (s_meas s)) by (rewrite nth_error_map, H1; reflexivity).
  rewrite (dm_offsets_nth _ 0 w _ Hn) in H2. injection H2 as <-. cbn. apply (fold_prefix_le _ _ _ Hn).
Qed.
Lemma get_wfs_ok ws w s : nth_error ws w = Some s -> exists o,
  nth_error (data_starts ws) w = Some o /\ get_wfs ws w = Ok (o, s).
Proof.
  intros H. assert (Hn : nth_error (map s_meas ws) w = Some (s_meas s)) by (rewrite nth_error_map, H; reflexivity).
  exists (fold_left Nat.add (firstn w (map s_meas ws)) 0%nat). unfold get_wfs, data_starts.
  rewrite (dm_offsets_nth _ 0 w _ Hn), H. auto.
Qed.
Lemma get_wfs_inv ws w o s : get_wfs ws w = Ok (o, s) ->
  nth_error ws w = Some s /\ nth_error (data_starts ws) w = Some o.
Proof.
  unfold get_wfs. destruct (nth_error ws w); [|discriminate]. destruct (nth_error _ w); [|discriminate].
  intros E. injection E as -> ->. auto.
Qed.

Section Separate.
  Variable pinvT : Qc -> mat -> result mat.
  Hypothesis HP : inverts pinvT.
  Variable ws : list sensor.
  Variable ms : list mirror.
  Variable imat : mat.
  Hypothesis HI : shaped (total_n_acts ms) (total_data ws) imat.

  Lemma shaped_sub r c o n p q M : shaped r c M -> (o + n <= r)%nat -> (p + q <= c)%nat ->
    shaped n q (submatrix o n p q M).
  Proof.
    intros [HL HF] H1 H2. unfold submatrix, segment. unfold mat in *. split.
    - rewrite map_length, firstn_length, skipn_length. lia.
    - apply Forall_forall. intros x Hx. apply in_map_iff in Hx as (y & <- & Hy).
      rewrite Forall_forall in HF. rewrite firstn_length, skipn_length, HF; [lia|].
      assert (In y (skipn o M)). { rewrite <- (firstn_skipn n (skipn o M)). apply in_or_app. auto. }
      rewrite <- (firstn_skipn o M). apply in_or_app. auto.
  Qed.

  Lemma sub_ok k m a o nw : nth_error ms k = Some m ->
    a = fold_left Nat.add (firstn k (map (fun m => n_acts (m_dm m)) ms)) 0%nat ->
    (o + nw <= total_data ws)%nat ->
    get_dm_imat (map m_dm ms) imat k o nw = Ok (submatrix a (n_acts (m_dm m)) o nw imat)
    /\ (a + n_acts (m_dm m) <= total_n_acts ms)%nat.
  Proof.
    intros Hk -> Ho. unfold get_dm_imat, first_acts.
    assert (Hn : nth_error (map n_acts (map m_dm ms)) k = Some (n_acts (m_dm m))) by (rewrite !nth_error_map, Hk; reflexivity).
    rewrite (dm_offsets_nth _ 0 k _ Hn), Nat.add_0_l. rewrite nth_error_map, Hk. cbn [option_map].
    rewrite map_map in *. pose proof (fold_prefix_le _ _ _ Hn) as Hle.
    change (fold_left Nat.add (map (fun m => n_acts (m_dm m)) ms) 0%nat) with (total_n_acts ms) in Hle.
    split; auto. destruct HI as [HL HF]. unfold mat in *.
    rewrite pyslice_in by lia. rewrite !Nat2Z.id. unfold submatrix, segment. f_equal.
    apply map_ext_in. intros r Hr.
    assert (length r = total_data ws).
    { rewrite Forall_forall in HF. apply HF.
      rewrite <- (firstn_skipn (fold_left Nat.add (firstn k (map (fun x => n_acts (m_dm x)) ms)) 0%nat) imat).
      apply in_or_app. right.
      rewrite <- (firstn_skipn (n_acts (m_dm m)) (skipn _ imat)). apply in_or_app. auto. }
    rewrite pyslice_in by lia. rewrite !Nat2Z.id. reflexivity.
  Qed.

  (** The transposed control rows of one mirror. *)
  Definition rows_of (m : mirror) (k : nat) (R : mat) : Prop :=
    exists w s o P, m_wfs m = Some w /\ nth_error ws w = Some s /\ nth_error (data_starts ws) w = Some o /\
      pinvT (m_cond m) (submatrix (fold_left Nat.add (firstn k (map (fun m => n_acts (m_dm m)) ms)) 0%nat)
                          (n_acts (m_dm m)) o (s_meas s) imat) = Ok P /\
      shaped (n_acts (m_dm m)) (s_meas s) P /\ R = map (embed o (total_data ws)) P.

  Lemma sep_calc_ok l : forall k done, ms = firstn k ms ++ l -> length (firstn k ms) = k -> Forall (attached ws) l ->
    length done = fold_left Nat.add (firstn k (map (fun m => n_acts (m_dm m)) ms)) 0%nat ->
    exists Rs, sep_calc pinvT ws ms imat k (length done) l (done ++ zeros2 (total_n_acts l) (total_data ws))
               = Ok (done ++ concat Rs) /\ length Rs = length l /\
      (forall i m, nth_error l i = Some m -> exists R, nth_error Rs i = Some R /\ rows_of m (k + i) R).
  Proof.
    induction l as [|m l IH]; intros k done Hms Hk HA Hd.
    - exists []. cbn. split; [reflexivity|]. split; auto. intros [|]; discriminate.
    - inversion HA as [|? ? (w & s & Hw & Hs) HA']; subst.
      assert (Hnth : nth_error ms k = Some m).
      { rewrite Hms, nth_error_app2 by lia. rewrite Hk, Nat.sub_diag. reflexivity. }
      destruct (get_wfs_ok ws w s Hs) as (o & Ho & Eo).
      pose proof (total_data_start _ _ _ _ Hs Ho) as Hle.
      destruct (sub_ok k m _ o (s_meas s) Hnth eq_refl Hle) as [Esub Ha].
      set (a := fold_left Nat.add (firstn k (map (fun m => n_acts (m_dm m)) ms)) 0%nat) in *.
      pose proof (shaped_sub _ _ a (n_acts (m_dm m)) o (s_meas s) imat HI Ha Hle) as Hsh.
      destruct (HP (m_cond m) _ _ _ Hsh) as (P & EP & HsP).
      cbn [sep_calc]. unfold sep_block. rewrite Hw, Eo. cbn [bind fst snd]. rewrite Esub. cbn [bind].
      rewrite store2_full by exact Hsh. cbn [bind]. rewrite EP. cbn [bind fst snd].
      unfold total_n_acts at 1. cbn [map]. rewrite total_acts_cons. fold (total_n_acts l).
      rewrite (store2_zero done (n_acts (m_dm m)) (total_n_acts l) (total_data ws) o (s_meas s) P HsP Hle). cbn [bind].
      assert (HR : length (map (embed o (total_data ws)) P) = n_acts (m_dm m)) by (rewrite map_length; apply HsP).
      destruct (IH (S k) (done ++ map (embed o (total_data ws)) P)) as (Rs & E & HL & HR').
      + rewrite <- (firstn_skipn (S k) ms) at 1. f_equal. rewrite Hms.
        replace (S k) with (length (firstn k ms ++ [m])) by (rewrite app_length, Hk; cbn; lia).
        replace (firstn k ms ++ m :: l) with ((firstn k ms ++ [m]) ++ l) by (rewrite <- app_assoc; reflexivity).
        rewrite skipn_app, skipn_all, Nat.sub_diag. reflexivity.
      + rewrite firstn_length. assert (k < length ms)%nat by (apply nth_error_Some; congruence). lia.
      + exact HA'.
      + rewrite app_length, HR, Hd. unfold a.
        rewrite (fold_firstn_S _ k (n_acts (m_dm m))) by (rewrite nth_error_map, Hnth; reflexivity). lia.
      + exists (map (embed o (total_data ws)) P :: Rs). rewrite app_length, HR in E. rewrite E.
        split; [cbn [concat]; rewrite app_assoc; reflexivity|]. split; [cbn; lia|].
        intros [|i] m' Hi; cbn [nth_error] in Hi |- *.
        * injection Hi as <-. exists (map (embed o (total_data ws)) P). split; auto. rewrite Nat.add_0_r.
          exists w, s, o, P. repeat (split; auto).
        * destruct (HR' i m' Hi) as (R & ER & HRi). exists R. split; auto.
          replace (k + S i)%nat with (S k + i)%nat by lia. exact HRi.
  Qed.

  Lemma separate_rows : Forall (attached ws) ms ->
    exists Rs, separate pinvT ws ms imat = Ok (concat Rs) /\ length Rs = length ms /\
      (forall i m, nth_error ms i = Some m -> exists R, nth_error Rs i = Some R /\ rows_of m i R).
  Proof.
    intros HA. destruct (sep_calc_ok ms 0 []) as (Rs & E & H1 & H2); auto. exists Rs. auto.
  Qed.
End Separate.

Lemma mvm_concat (Rs : list mat) v : mvm (concat Rs) v = concat (map (fun R => mvm R v) Rs).
Proof. unfold mvm. apply concat_map. Qed.

Lemma segment_concat {A} (Rs : list (list A)) : forall k R, nth_error Rs k = Some R ->
  segment (fold_left Nat.add (firstn k (map (@length A) Rs)) 0%nat) (length R) (concat Rs) = R.
Proof.
  induction Rs as [|R0 Rs IH]; intros [|k] R H; cbn [nth_error] in H; try discriminate.
  - injection H as ->. cbn. unfold segment. cbn [skipn]. rewrite firstn_app, firstn_all, Nat.sub_diag. cbn. apply app_nil_r.
  - cbn [map firstn fold_left concat]. rewrite Nat.add_0_l, fold_add_shift. unfold segment.
    rewrite skipn_app, skipn_all2 by lia. cbn [app].
    replace (length R0 + _ - length R0)%nat with (fold_left Nat.add (firstn k (map (@length A) Rs)) 0%nat) by lia.
    apply (IH k R H).
Qed.

Lemma rows_of_length pinvT ws ms imat m k R : rows_of pinvT ws ms imat m k R -> length R = n_acts (m_dm m).
Proof. intros (w & s & o & P & _ & _ & _ & _ & [HL _] & ->). rewrite map_length. exact HL. Qed.

Lemma separate_law pinvT ws ms imat : inverts pinvT -> shaped (total_n_acts ms) (total_data ws) imat ->
  Forall (attached ws) ms ->
  exists ctrl, separate pinvT ws ms imat = Ok ctrl /\ length ctrl = total_n_acts ms /\
    forall k m w s o a v, nth_error ms k = Some m -> m_wfs m = Some w -> nth_error ws w = Some s ->
      nth_error (data_starts ws) w = Some o ->
      nth_error (dm_offsets 0 (map (fun m => n_acts (m_dm m)) ms)) k = Some a -> length v = total_data ws ->
      exists P, pinvT (m_cond m) (submatrix a (n_acts (m_dm m)) o (s_meas s) imat) = Ok P /\
        segment a (n_acts (m_dm m)) (mvm ctrl v) = mvm P (segment o (s_meas s) v).
Proof.
  intros HP HI HA. destruct (separate_rows pinvT HP ws ms imat HI HA) as (Rs & E & HL & HR).
  assert (ELen : map (@length vec) Rs = map (fun m => n_acts (m_dm m)) ms).
  { apply nth_error_ext. intros i. rewrite !nth_error_map. destruct (nth_error ms i) as [m|] eqn:Em.
    - destruct (HR i m Em) as (R & ER & HRi). unfold mat in *. rewrite ER. cbn. f_equal. eapply rows_of_length; eauto.
    - unfold mat in *. assert (nth_error Rs i = None) as ->; [|reflexivity]. apply nth_error_None. apply nth_error_None in Em. lia. }
  exists (concat Rs). split; [exact E|]. split.
  - assert (CL : forall (X : list mat), length (concat X) = fold_left Nat.add (map (@length vec) X) 0%nat).
    { induction X as [|x0 X IHX]; [reflexivity|]. cbn [concat map fold_left]. rewrite app_length, IHX. symmetry. apply fold_add_shift. }
    rewrite CL, ELen. reflexivity.
  - intros k m w s o a v Hk Hw Hs Ho Ha Hv.
    destruct (HR k m Hk) as (R & ER & (w' & s' & o' & P & Hw' & Hs' & Ho' & EP & [HPL HPF] & ->)).
    rewrite Hw in Hw'. injection Hw' as <-. rewrite Hs in Hs'. injection Hs' as <-. rewrite Ho in Ho'. injection Ho' as <-.
    assert (Hn : nth_error (map (fun m => n_acts (m_dm m)) ms) k = Some (n_acts (m_dm m))) by (rewrite nth_error_map, Hk; reflexivity).
    rewrite (dm_offsets_nth _ 0 k _ Hn), Nat.add_0_l in Ha. injection Ha as <-.
    exists P. split; [exact EP|].
    rewrite mvm_concat.
    pose proof (segment_concat (map (fun R => mvm R v) Rs) k (mvm (map (embed o (total_data ws)) P) v)) as SC.
    unfold mat in *. rewrite nth_error_map, ER in SC. specialize (SC eq_refl).
    rewrite mvm_length, map_length, HPL in SC. rewrite map_map in SC.
    rewrite (map_ext (fun x : list vec => length (mvm x v)) (@length vec)) in SC by (intros; apply mvm_length).
    rewrite ELen in SC. rewrite SC. unfold mvm. rewrite map_map. apply map_ext_in. intros p Hp.
    rewrite Forall_forall in HPF. specialize (HPF p Hp). pose proof (total_data_start _ _ _ _ Hs Ho).
    rewrite dot_embed; auto; [|lia]. rewrite HPF. reflexivity.
Qed.

(** ** Frames and histories *)
Lemma frames_run ms net ws acts c : forall l s outs,
  frames_of ws ms net MVM_SeparateDMs acts c s l = Ok outs ->
  forall i a, nth_error outs i = Some a ->
    recon_run (map m_dm ms) (k_cols c) acts (k_ctrl c) s (map RFrame (firstn (S i) l)) = Ok (Some a).
Proof.
  induction l as [|m l IH]; intros s outs E i a Hi.
  - cbn in E. injection E as <-. destruct i; discriminate.
  - cbn [frames_of frame_of] in E.
    destruct (reconstruct (map m_dm ms) (k_cols c) acts (k_ctrl c) s m) as [b|e] eqn:Er; cbn [bind fst snd] in E; [|discriminate].
    destruct (frames_of ws ms net MVM_SeparateDMs acts c (Some b) l) as [y|e] eqn:Ey; cbn [bind] in E; [|discriminate].
    injection E as <-. cbn [firstn map recon_run]. rewrite Er. cbn [bind]. destruct i as [|i]; cbn [nth_error] in Hi.
    + injection Hi as <-. reflexivity.
    + eapply IH; eauto.
Qed.

Lemma since_reset_frames l : forall acc, since_reset acc (map RFrame l) = acc ++ l.
Proof.
  induction l as [|m l IH]; intros acc; cbn; [rewrite app_nil_r; reflexivity|]. rewrite IH, <- app_assoc. reflexivity.
Qed.

Lemma frames_ok ms net ws cl c : (cl = MVM \/ cl = MVM_SeparateDMs \/ cl = WooferTweeter) ->
  Forall has_valid (map m_dm ms) -> length (k_ctrl c) = total_valid ms ->
  forall l s, match s with Some a => length a = total_valid ms | None => True end ->
  Forall (fun m => length m = k_cols c) l -> exists outs, frames_of ws ms net cl (total_valid ms) c s l = Ok outs /\ length outs = length l.
Proof.
  intros Hcl HV HC. induction l as [|m l IH]; intros s Hs HF.
  - exists []. auto.
  - apply Forall_cons_iff in HF as [Hm HF'].
    assert (Er : exists a, reconstruct (map m_dm ms) (k_cols c) (total_valid ms) (k_ctrl c) s m = Ok a /\ length a = total_valid ms).
    { unfold reconstruct. rewrite Hm, Nat.eqb_refl.
      set (a0 := match s with None => vzero (total_valid ms) | Some a => a end).
      assert (La : length a0 = total_valid ms). { unfold a0. destruct s; [congruence | apply vzero_length]. }
      rewrite apply_gain_eq; auto.
      - eexists. split; [reflexivity|]. rewrite gains_length; [exact La|]. rewrite mvm_length. etransitivity; [exact La|]. symmetry; exact HC.
      - rewrite mvm_length. etransitivity; [exact La|]. symmetry; exact HC. }
    destruct Er as (a & Ea & La). destruct (IH (Some a) La HF') as (outs & Eo & Lo).
    exists (a :: outs). split; [|cbn; lia].
    cbn [frames_of]. destruct Hcl as [-> | [-> | ->]]; cbn [frame_of]; rewrite Ea; cbn [bind fst snd]; rewrite Eo; reflexivity.
Qed.

Lemma kept_nvalids ms : Forall all_kept ms -> nvalids (map m_dm ms) = map (fun m => n_acts (m_dm m)) ms.
Proof.
  intros H. unfold nvalids. rewrite map_map. apply map_ext_in. intros m Hm. rewrite Forall_forall in H.
  rewrite (H m Hm). reflexivity.
Qed.
Lemma kept_has_valid ms : Forall all_kept ms -> Forall has_valid (map m_dm ms).
Proof.
  intros H. apply Forall_map. eapply Forall_impl; [|exact H]. intros m Hm. unfold has_valid. rewrite Hm. discriminate.
Qed.

Lemma separate_isolated pinvT ws ms imat net learn1 learn2 : inverts pinvT ->
  shaped (total_n_acts ms) (total_data ws) imat -> Forall (attached ws) ms -> Forall all_kept ms ->
  forall rc (l l' : list vec), length l = length l' ->
  Forall (fun v : vec => length v = total_data ws) l -> Forall (fun v : vec => length v = total_data ws) l' ->
  exists outs outs',
    use pinvT rc ws ms net MVM_SeparateDMs imat learn1 learn2 l = Ok outs /\
    use pinvT rc ws ms net MVM_SeparateDMs imat learn1 learn2 l' = Ok outs' /\
    length outs = length l /\ length outs' = length l /\
    forall k m w s o a, nth_error ms k = Some m -> m_wfs m = Some w -> nth_error ws w = Some s ->
      nth_error (data_starts ws) w = Some o ->
      nth_error (dm_offsets 0 (map (fun m => n_acts (m_dm m)) ms)) k = Some a ->
      (forall i v v', nth_error l i = Some v -> nth_error l' i = Some v' ->
         segment o (s_meas s) v = segment o (s_meas s) v') ->
      forall i c c', nth_error outs i = Some c -> nth_error outs' i = Some c' ->
        segment a (n_acts (m_dm m)) c = segment a (n_acts (m_dm m)) c'.
Proof.
  intros HP HI HA HK rc l l' HL HF HF'.
  destruct (separate_law pinvT ws ms imat HP HI HA) as (ctrl & Ec & Lc & HLaw).
  unfold use. cbn [calibrate]. rewrite Ec. cbn [bind].
  set (c := mkCalib (total_w ws) ctrl []).
  assert (HT : total_valid ms = total_n_acts ms) by (unfold total_valid; rewrite kept_nvalids by auto; reflexivity).
  assert (HV := kept_has_valid ms HK).
  destruct (frames_ok ms net ws MVM_SeparateDMs c ltac:(auto) HV (eq_trans Lc (eq_sym HT)) l None I HF) as (outs & Eo & Lo).
  destruct (frames_ok ms net ws MVM_SeparateDMs c ltac:(auto) HV (eq_trans Lc (eq_sym HT)) l' None I HF') as (outs' & Eo' & Lo').
  exists outs, outs'. split; [exact Eo|]. split; [exact Eo'|]. split; [exact Lo|]. split; [etransitivity; [exact Lo' | symmetry; exact HL]|].
  intros k m w s o a Hk Hw Hs Ho Ha Hsame i x x' Hx Hx'.
  pose proof (frames_run _ _ _ _ _ _ _ _ Eo i x Hx) as R. pose proof (frames_run _ _ _ _ _ _ _ _ Eo' i x' Hx') as R'.
  assert (HS : forall q, Forall (fun v : vec => length v = total_data ws) q -> slopes_ok (k_cols c) (map RFrame (firstn (S i) q))).
  { intros q Hq. unfold slopes_ok. apply Forall_map. apply Forall_forall. intros v Hv. rewrite Forall_forall in Hq. apply Hq.
    rewrite <- (firstn_skipn (S i) q). apply in_or_app. auto. }
  assert (HCt : length (k_ctrl c) = total_valid ms) by exact (eq_trans Lc (eq_sym HT)).
  destruct (gain_law (map m_dm ms) (k_cols c) (total_valid ms) (k_ctrl c) HV HCt eq_refl _ _ (HS l HF) R) as [Lx G].
  destruct (gain_law (map m_dm ms) (k_cols c) (total_valid ms) (k_ctrl c) HV HCt eq_refl _ _ (HS l' HF') R') as [Lx' G'].
  assert (Hd : nth_error (map m_dm ms) k = Some (m_dm m)) by (rewrite nth_error_map, Hk; reflexivity).
  assert (Ha' : nth_error (dm_offsets 0 (nvalids (map m_dm ms))) k = Some a) by (rewrite kept_nvalids by auto; exact Ha).
  specialize (G k (m_dm m) a Hd Ha'). specialize (G' k (m_dm m) a Hd Ha'). cbv zeta in G, G'.
  rewrite !since_reset_frames in G, G'. cbn [app] in G, G'.
  assert (Hm : all_kept m) by (rewrite Forall_forall in HK; apply HK; eapply nth_error_In; eauto).
  assert (Env : nv (m_dm m) = n_acts (m_dm m)) by (unfold nv; rewrite Hm; reflexivity).
  rewrite Env in G, G'.
  assert (Hle : (a + n_acts (m_dm m) <= total_valid ms)%nat).
  { assert (Hn : nth_error (map (fun m => n_acts (m_dm m)) ms) k = Some (n_acts (m_dm m))) by (rewrite nth_error_map, Hk; reflexivity).
    rewrite (dm_offsets_nth _ 0 k _ Hn), Nat.add_0_l in Ha. injection Ha as <-. rewrite HT. apply (fold_prefix_le _ _ _ Hn). }
  rewrite seg_pyslice in G by lia. rewrite seg_pyslice in G' by lia.
  change (segment a (n_acts (m_dm m)) x) with (seg a (n_acts (m_dm m)) x).
  change (segment a (n_acts (m_dm m)) x') with (seg a (n_acts (m_dm m)) x').
  rewrite G, G'.
  assert (EM : map (fun v => pyslice (mvm (k_ctrl c) v) (Z.of_nat a) (Z.of_nat a + Z.of_nat (n_acts (m_dm m)))) (firstn (S i) l)
             = map (fun v => pyslice (mvm (k_ctrl c) v) (Z.of_nat a) (Z.of_nat a + Z.of_nat (n_acts (m_dm m)))) (firstn (S i) l')).
  { apply nth_error_ext. intros j. rewrite !nth_error_map. destruct (Nat.lt_ge_cases j (S i)) as [Hj|Hj].
    - rewrite !nth_error_firstn_lt by auto. destruct (nth_error l j) as [v|] eqn:Ev.
      + destruct (nth_error l' j) as [v'|] eqn:Ev'.
        2:{ apply nth_error_None in Ev'. assert (j < length l)%nat by (apply nth_error_Some; congruence). lia. }
        cbn [option_map]. apply f_equal.
        assert (Lv : length v = total_data ws) by (rewrite Forall_forall in HF; apply HF; eapply nth_error_In; eauto).
        assert (Lv' : length v' = total_data ws) by (rewrite Forall_forall in HF'; apply HF'; eapply nth_error_In; eauto).
        destruct (HLaw k m w s o a v Hk Hw Hs Ho Ha Lv) as (P & EP & Ev1).
        destruct (HLaw k m w s o a v' Hk Hw Hs Ho Ha Lv') as (P' & EP' & Ev1').
        assert (EPP : P = P') by congruence. rewrite EPP in Ev1.
        assert (LL : (a + n_acts (m_dm m) <= length (k_ctrl c))%nat) by (rewrite HCt; exact Hle).
        rewrite (seg_pyslice a (n_acts (m_dm m)) (mvm (k_ctrl c) v)) by (rewrite mvm_length; exact LL).
        rewrite (seg_pyslice a (n_acts (m_dm m)) (mvm (k_ctrl c) v')) by (rewrite mvm_length; exact LL).
        etransitivity; [exact Ev1|]. rewrite (Hsame j v v' Ev Ev'). symmetry. exact Ev1'.
      + assert (nth_error l' j = None) as ->; [|reflexivity]. apply nth_error_None. apply nth_error_None in Ev. lia.
    - assert (E0 : forall q : list vec, nth_error (firstn (S i) q) j = None).
      { intros q. apply nth_error_None. rewrite firstn_length. lia. }
      rewrite !E0. reflexivity. }
  rewrite EM. reflexivity.
Qed.

(** ** Failures of MVM_SeparateDMs *)
Lemma sep_calc_unattached pinvT ws ms imat l : forall k acts ctrl, Exists (fun m => m_wfs m = None) l ->
  exists e, sep_calc pinvT ws ms imat k acts l ctrl = Err e.
Proof.
  induction l as [|m l IH]; intros k acts ctrl H; inversion H; subst; cbn [sep_calc].
  - unfold sep_block. rewrite H1. destruct ws; cbn; eauto.
  - destruct (sep_block pinvT ws ms imat k m) as [x|e]; cbn [bind]; eauto.
    destruct (store2 _ _ _ _ _ _) as [y|e]; cbn [bind]; eauto.
Qed.

Lemma store2_rows n nw sub : (length sub <> n)%nat -> (length sub <> 1)%nat -> (0 < n)%nat ->
  store2 (zeros2 n nw) 0 n 0 nw sub = Err ValueError.
Proof.
  intros H1 H2 H3. unfold store2. cbn [skipn].
  assert (E1 : firstn n (zeros2 n nw) = repeat (vzero nw) n) by (apply firstn_repeat'; lia).
  rewrite E1, repeat_length. unfold bcast_rows. unfold mat in *.
  replace (length sub =? n)%nat with false by (symmetry; apply Nat.eqb_neq; auto).
  destruct sub as [|x [|y r]]; cbn in H2; try lia; reflexivity.
Qed.

Lemma pyslice_rows {A} (l : list A) a n : length (pyslice l (Z.of_nat a) (Z.of_nat a + Z.of_nat n)) = Nat.min n (length l - a).
Proof.
  unfold pyslice, norm_ix.
  replace (Z.of_nat a <? 0) with false by (symmetry; apply Z.ltb_ge; lia).
  replace (Z.of_nat a + Z.of_nat n <? 0) with false by (symmetry; apply Z.ltb_ge; lia).
  rewrite firstn_length, skipn_length. lia.
Qed.

Lemma sep_block_short pinvT ws ms imat k m a : nth_error ms k = Some m ->
  nth_error (dm_offsets 0 (map (fun m => n_acts (m_dm m)) ms)) k = Some a ->
  (0 < n_acts (m_dm m))%nat -> (length imat < a + n_acts (m_dm m))%nat -> (length imat <> a + 1)%nat ->
  exists e, sep_block pinvT ws ms imat k m = Err e.
Proof.
  intros Hk Ha H0 H1 H2. unfold sep_block. destruct (m_wfs m) as [w|]; [|destruct ws; eauto].
  destruct (get_wfs ws w) as [x|e]; cbn [bind]; [|eauto].
  unfold get_dm_imat, first_acts. rewrite map_map, Ha, nth_error_map, Hk. cbn [option_map bind].
  rewrite store2_rows; [cbn; eauto| | |lia]; rewrite map_length, pyslice_rows; lia.
Qed.

Lemma sep_calc_short pinvT ws ms imat l : forall k acts ctrl,
  (exists i m a, nth_error l i = Some m /\ nth_error ms (k + i) = Some m /\
     nth_error (dm_offsets 0 (map (fun m => n_acts (m_dm m)) ms)) (k + i) = Some a /\
     (0 < n_acts (m_dm m))%nat /\ (length imat < a + n_acts (m_dm m))%nat /\ (length imat <> a + 1)%nat) ->
  exists e, sep_calc pinvT ws ms imat k acts l ctrl = Err e.
Proof.
  induction l as [|m0 l IH]; intros k acts ctrl (i & m & a & Hi & Hk & Ha & H0 & H1 & H2).
  - destruct i; discriminate.
  - cbn [sep_calc]. destruct i as [|i]; cbn [nth_error] in Hi.
    + injection Hi as ->. rewrite Nat.add_0_r in *.
      destruct (sep_block_short pinvT ws ms imat k m a Hk Ha H0 H1 H2) as [e ->]. cbn. eauto.
    + destruct (sep_block pinvT ws ms imat k m0) as [x|e]; cbn [bind]; eauto.
      destruct (store2 _ _ _ _ _ _) as [y|e]; cbn [bind]; eauto.
      apply IH. exists i, m, a. replace (S k + i)%nat with (k + S i)%nat by lia. auto 10.
Qed.

(** ** LearnAndApply *)
Lemma on_axis_sh ws n : first_sh ws n -> on_axis ws = Ok n.
Proof. intros (s & r & h & -> & Hh & -> & _). unfold on_axis. cbn. rewrite Hh. reflexivity. Qed.

Lemma la_frames ws ms net n acts P T d0 r : first_sh ws n -> ms = d0 :: r -> m_tt d0 = false ->
  forall l s, Forall (fun m : vec => length m = total_data ws) l ->
    frames_of ws ms net LearnAndApply acts (mkCalib n P T) s l
    = frames_of ws ms net MVM acts (mkCalib n P []) s (map (fun m => mvm T (skipn n m)) l).
Proof.
  intros Hn -> Htt. induction l as [|m l IH]; intros s HF; [reflexivity|].
  apply Forall_cons_iff in HF as [Hm HF]. cbn [frames_of frame_of map k_cols k_ctrl k_tomo].
  unfold la_reconstruct. rewrite (on_axis_sh ws n Hn). cbn [bind]. unfold dot_chk.
  rewrite skipn_length, Hm. unfold total_w. rewrite Nat.eqb_refl. cbn [bind]. rewrite Htt.
  set (R := reconstruct _ _ _ _ _ _). destruct R as [a|e]; cbn [bind fst snd]; [|reflexivity].
  rewrite IH by auto. reflexivity.
Qed.

Lemma la_frame_tt ws ms ms' acts acts' T P s s' m d0 r d0' r' :
  ms = d0 :: r -> m_tt d0 = true -> ms' = d0' :: r' -> m_tt d0' = true ->
  match la_reconstruct ws ms acts T P s m with
  | Ok x => la_reconstruct ws ms' acts' T P s' m = Ok (fst x, s') /\ snd x = s
  | Err e => la_reconstruct ws ms' acts' T P s' m = Err e
  end.
Proof.
  intros -> H1 -> H2. unfold la_reconstruct. destruct (on_axis ws) as [n|e]; cbn [bind]; [|reflexivity].
  destruct (dot_chk _ _ _) as [on|e]; cbn [bind]; [|reflexivity]. rewrite H1, H2.
  destruct (length on =? n)%nat; cbn [fst snd]; auto.
Qed.

Lemma la_frames_tt ws net net' c ms ms' acts acts' d0 r d0' r' :
  ms = d0 :: r -> m_tt d0 = true -> ms' = d0' :: r' -> m_tt d0' = true ->
  forall l s s', frames_of ws ms net LearnAndApply acts c s l = frames_of ws ms' net' LearnAndApply acts' c s' l.
Proof.
  intros E1 H1 E2 H2. induction l as [|m l IH]; intros s s'; [reflexivity|].
  cbn [frames_of frame_of].
  pose proof (la_frame_tt ws ms ms' acts acts' (k_tomo c) (k_ctrl c) s s' m d0 r d0' r' E1 H1 E2 H2) as G.
  destruct (la_reconstruct ws ms acts (k_tomo c) (k_ctrl c) s m) as [x|e].
  - destruct G as [-> _]. cbn [bind fst snd]. rewrite (IH (snd x) s'). reflexivity.
  - rewrite G. reflexivity.
Qed.

Lemma la_frames_tt_memoryless ws net c ms acts d0 r : ms = d0 :: r -> m_tt d0 = true ->
  forall l s outs, frames_of ws ms net LearnAndApply acts c s l = Ok outs ->
  forall i j m a b, nth_error l i = Some m -> nth_error l j = Some m ->
    nth_error outs i = Some a -> nth_error outs j = Some b -> a = b.
Proof.
  intros E1 H1 l s outs E.
  assert (G : forall i m a, nth_error l i = Some m -> nth_error outs i = Some a ->
              la_reconstruct ws ms acts (k_tomo c) (k_ctrl c) None m = Ok (a, None)).
  { revert s outs E. induction l as [|m0 l IH]; intros s outs E i m a Hm Ha; [destruct i; discriminate|].
    cbn [frames_of frame_of] in E.
    pose proof (la_frame_tt ws ms ms acts acts (k_tomo c) (k_ctrl c) s None m0 d0 r d0 r E1 H1 E1 H1) as G.
    destruct (la_reconstruct ws ms acts (k_tomo c) (k_ctrl c) s m0) as [x|e]; cbn [bind] in E; [|discriminate].
    destruct G as [G _].
    destruct (frames_of ws ms net LearnAndApply acts c (snd x) l) as [y|e] eqn:Ey; cbn [bind] in E; [|discriminate].
    injection E as <-. destruct i as [|i]; cbn [nth_error] in Hm, Ha.
    - injection Hm as <-. injection Ha as <-. exact G.
    - eapply IH; eauto. }
  intros i j m a b Hi Hj Ha Hb. pose proof (G i m a Hi Ha). pose proof (G j m b Hj Hb). congruence.
Qed.

(** ** Learning *)
Lemma bcast_same n v : length v = n -> bcast n v = Ok v.
Proof. intros <-. unfold bcast. rewrite Nat.eqb_refl. reflexivity. Qed.

Lemma learn_row_equal n : forall ws fr j done rest, Forall (fun s => s_meas s = n) ws -> length fr = length ws ->
  Forall (fun f : vec => length f = n) fr -> length done = (j * n)%nat -> length rest = (length ws * n)%nat ->
  learn_row j ws fr (done ++ rest) = Ok (done ++ concat fr).
Proof.
  induction ws as [|s ws IH]; intros [|f fr] j done rest HW HL HF Hd Hr; cbn [length] in HL; try discriminate.
  - cbn in Hr. destruct rest; [|discriminate]. reflexivity.
  - apply Forall_cons_iff in HW as [Hs HW]. apply Forall_cons_iff in HF as [Hf HF].
    cbn [learn_row]. rewrite Hs. cbn [length] in Hr.
    assert (ESk : skipn (j * n) (done ++ rest) = rest).
    { rewrite <- Hd, skipn_app, skipn_all, Nat.sub_diag. reflexivity. }
    rewrite ESk. rewrite bcast_same by (rewrite firstn_length; lia). cbn [bind].
    assert (ESp : splice (done ++ rest) (j * n) f = (done ++ f) ++ skipn n rest).
    { unfold splice. rewrite <- Hd, firstn_app, firstn_all, Nat.sub_diag. cbn [firstn]. rewrite app_nil_r, <- app_assoc.
      f_equal. f_equal. rewrite skipn_app, skipn_all2 by lia. cbn [app]. f_equal. lia. }
    rewrite ESp. cbn [concat]. rewrite app_assoc. apply IH; auto.
    + rewrite app_length. lia.
    + rewrite skipn_length. lia.
Qed.

Lemma learn_equal n ws frs : Forall (fun s => s_meas s = n) ws ->
  Forall (fun fr : list vec => length fr = length ws /\ Forall (fun f : vec => length f = n) fr) frs ->
  learn ws frs = Ok (map (@concat Qc) frs).
Proof.
  intros HW HF. unfold learn. apply mapM_ok. intros fr Hfr. rewrite Forall_forall in HF. destruct (HF fr Hfr) as [H1 H2].
  assert (Ht : total_data ws = (length ws * n)%nat).
  { unfold total_data. clear HF Hfr H1 H2. induction HW as [|s ws Hs HW IH]; [reflexivity|].
    cbn [map length]. rewrite total_acts_cons, IH, Hs. lia. }
  pose proof (learn_row_equal n ws fr 0 [] (vzero (total_data ws)) HW H1 H2 eq_refl) as E.
  cbn [app] in E. apply E. rewrite vzero_length. exact Ht.
Qed.

Lemma learn_two_larger s0 s1 frs : (0 < s_meas s0)%nat -> (s_meas s0 < s_meas s1)%nat -> frs <> [] ->
  Forall (fun fr => exists f0 f1 : vec, fr = [f0; f1] /\ length f0 = s_meas s0 /\ length f1 = s_meas s1) frs ->
  learn [s0; s1] frs = Err ValueError.
Proof.
  intros H0 H1 HN HF. destruct frs as [|fr frs]; [congruence|].
  apply Forall_cons_iff in HF as [(f0 & f1 & -> & L0 & L1) _].
  unfold learn. cbn [mapM learn_row]. unfold total_data. cbn [map]. rewrite !total_acts_cons.
  change (total_acts []) with 0%nat. rewrite Nat.add_0_r. rewrite Nat.mul_0_l. cbn [skipn].
  assert (E0 : length (firstn (s_meas s0) (vzero (s_meas s0 + s_meas s1))) = s_meas s0).
  { rewrite firstn_length, vzero_length. lia. }
  rewrite E0, bcast_same by auto. cbn [bind]. rewrite Nat.mul_1_l.
  set (row := splice _ _ _).
  assert (Lr : length row = (s_meas s0 + s_meas s1)%nat).
  { unfold row, splice. rewrite !app_length, firstn_length, skipn_length, vzero_length. lia. }
  rewrite firstn_length, skipn_length, Lr.
  unfold bcast. replace (length f1 =? Nat.min (s_meas s1) (s_meas s0 + s_meas s1 - s_meas s1))%nat with false
    by (symmetry; apply Nat.eqb_neq; lia).
  destruct f1 as [|x [|y f1]]; cbn in L1; try lia; reflexivity.
Qed.

Lemma learn_two_smaller s0 s1 f0 f1 : (0 < s_meas s1)%nat -> (s_meas s1 < s_meas s0)%nat ->
  length f0 = s_meas s0 -> length f1 = s_meas s1 ->
  learn [s0; s1] [[f0; f1]] = Ok [firstn (s_meas s1) f0 ++ f1 ++ skipn (2 * s_meas s1) (f0 ++ vzero (s_meas s1))].
Proof.
  intros H0 H1 L0 L1. unfold learn. cbn [mapM learn_row]. unfold total_data. cbn [map]. rewrite !total_acts_cons.
  change (total_acts []) with 0%nat. rewrite Nat.add_0_r. rewrite Nat.mul_0_l. cbn [skipn].
  assert (E0 : length (firstn (s_meas s0) (vzero (s_meas s0 + s_meas s1))) = s_meas s0).
  { rewrite firstn_length, vzero_length. lia. }
  rewrite E0, bcast_same by auto. cbn [bind]. rewrite Nat.mul_1_l.
  assert (ER : splice (vzero (s_meas s0 + s_meas s1)) 0 f0 = f0 ++ vzero (s_meas s1)).
  { unfold splice. cbn [firstn app]. rewrite Nat.add_0_l, L0. f_equal. unfold vzero. rewrite skipn_repeat'. f_equal. lia. }
  rewrite ER.
  rewrite bcast_same.
  2:{ rewrite firstn_length, skipn_length, app_length, vzero_length. lia. }
  cbn [bind]. do 2 f_equal. unfold splice. rewrite L1.
  rewrite firstn_app. replace (s_meas s1 - length f0)%nat with 0%nat by lia. cbn [firstn]. rewrite app_nil_r.
  do 3 f_equal. lia.
Qed.

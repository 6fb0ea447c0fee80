From Verif.Base Require Import Vec.
From Verif.Model Require Import Numerics Los.
From Verif.Spec Require Import LosSpec.
From Verif.Proofs Require Import NumericsProofs.

Lemma qc_eqb_false x y : qc_eqb x y = false <-> x <> y.
Proof. unfold qc_eqb. destruct (Qc_eq_dec x y); split; intros; auto; try discriminate; try contradiction. Qed.

(** ** Coordinates *)
Lemma coord_range g e i : 2 <= g_nscrn g -> on_grid (g_nscrn g) (coord g e i).
Proof.
  intros HN. unfold on_grid, coord, clip, qc_min, qc_max. pose proof eps_pos. pose proof eps_lt1.
  assert (1 <= qz (g_nscrn g - 1))%Qc by (rewrite <- qz_1; apply qz_le; lia).
  assert (E : qz (g_nscrn g - 1) = (qz (g_nscrn g) - 1)%Qc) by (rewrite qz_sub, qz_1; reflexivity).
  set (N1 := qz (g_nscrn g - 1)) in *. set (N := qz (g_nscrn g)) in *.
  destruct (Qclt_le_dec (raw_coord g e i) 0); (destruct (Qclt_le_dec _ (N - (1 + interp_eps)))); split; qclra.
Qed.

Lemma coord_inside g e i : (0 <= raw_coord g e i)%Qc -> (raw_coord g e i <= qz (g_nscrn g) - (1 + interp_eps))%Qc ->
  coord g e i = raw_coord g e i.
Proof.
  intros H1 H2. unfold coord, clip, qc_min, qc_max. destruct (Qclt_le_dec (raw_coord g e i) 0); [qclra|].
  destruct (Qclt_le_dec _ _); auto. apply Qcle_antisym; auto.
Qed.

Lemma point_between N a x y : nrow a = N -> ncol a = N -> on_grid N x -> on_grid N y ->
  bilinear_point false a x y = Ok (between_pixels a x y).
Proof.
  intros E1 E2 [X0 X1] [Y0 Y1]. cbn [bilinear_point]. rewrite <- E1 in X1. rewrite <- E2 in Y1.
  destruct (bilinear_cell a x y X0 X1 Y0 Y1) as (_ & _ & E). rewrite E. f_equal.
  unfold between_pixels, lerp. rewrite !qc_int_nonneg by auto. ring.
Qed.

(** ** Interpolating a stack *)
Lemma interp_into_ok g i j : 2 <= g_nscrn g ->
  forall l alts slots, screens_ok (g_nscrn g) l -> (length l <= length alts)%nat -> length slots = length alts ->
  interp_into g i j l alts slots =
  Ok (map (fun p => between_pixels (fst p) (coord g (x_edges g (snd p)) i) (coord g (y_edges g (snd p)) j)) (combine l alts)
      ++ skipn (length l) slots).
Proof.
  intros HN. induction l as [|a l IH]; intros alts slots HF HL HS; [destruct alts; reflexivity|].
  destruct alts as [|h alts]; cbn in HL; [lia|]. destruct slots as [|s slots]; cbn in HS; [lia|].
  inversion HF as [|? ? [E1 E2] HF']; subst. cbn [interp_into combine map fst snd length skipn app].
  rewrite (point_between (g_nscrn g)) by (auto; apply coord_range; auto).
  cbn [bind]. rewrite IH by (auto; lia). reflexivity.
Qed.

Lemma interp_into_len g i j l alts slots r : interp_into g i j l alts slots = Ok r -> length r = length slots.
Proof.
  revert alts slots r. induction l as [|a l IH]; intros [|h alts] [|s slots] r E; cbn in E; try congruence.
  destruct (bilinear_at _ _ _) as [v|]; cbn in E; [|congruence].
  destruct (interp_into g i j l alts slots) as [r'|] eqn:E'; cbn in E; [|congruence].
  inversion E; subst. cbn. f_equal. eapply IH; eauto.
Qed.

Definition shape (g : geom) (s : px) : Prop := length (p_scr s) = length (g_alts g) /\ length (p_corr s) = length (g_dmalts g).

Lemma correction_shape g i j c s s' : shape g s -> perform_correction g i j c s = Ok s' -> shape g s'.
Proof.
  intros [A B] E. unfold perform_correction in E. destruct (interp_into _ _ _ _ _ _) as [r|] eqn:E'; cbn in E; [|congruence].
  inversion E; subst. split; cbn; auto. apply interp_into_len in E'. congruence.
Qed.
Lemma make_phase_shape g ph i j c s s' : shape g s -> make_phase g ph i j c s = Ok s' -> shape g s'.
Proof.
  intros [A B] E. unfold make_phase in E. destruct (interp_into _ _ _ _ _ _) as [r|] eqn:E'; cbn in E; [|congruence].
  apply interp_into_len in E'. destruct ph; inversion E; subst; split; cbn; congruence.
Qed.
Lemma zero_shape g s : shape g s -> shape g (zero_data s).
Proof. intros [A B]. split; cbn; rewrite map_length; auto. Qed.

Lemma frame_shape g ph i j sc co s s' : shape g s -> los_frame g ph i j sc co s = Ok s' -> shape g s'.
Proof.
  intros H E. unfold los_frame in E. apply zero_shape in H. set (s0 := zero_data s) in *. clearbody s0.
  destruct (g_up g); destruct co as [c|]; cbn [bind] in E.
  - destruct (perform_correction g i j c s0) as [s1|] eqn:E1; cbn [bind] in E; [|congruence].
    apply correction_shape in E1; auto. destruct (make_phase _ _ _ _ _ _) as [s2|] eqn:E2; cbn [bind] in E; [|congruence].
    apply make_phase_shape in E2; auto. inversion E; subst. exact E2.
  - destruct (make_phase _ _ _ _ _ _) as [s2|] eqn:E2; cbn [bind] in E; [|congruence].
    apply make_phase_shape in E2; auto. inversion E; subst. exact E2.
  - destruct (make_phase _ _ _ _ _ _) as [s2|] eqn:E2; cbn [bind] in E; [|congruence].
    apply make_phase_shape in E2; auto. apply correction_shape in E; auto.
  - destruct (make_phase _ _ _ _ _ _) as [s2|] eqn:E2; cbn [bind] in E; [|congruence].
    apply make_phase_shape in E2; auto. inversion E; subst. exact E2.
Qed.

Lemma reachable_shape g i j s : reachable g i j s -> shape g s.
Proof.
  induction 1; [split; cbn; apply map_length|]. eapply frame_shape; eauto.
Qed.

Lemma lsum_zeros {A} (l : list A) : lsum (map (fun _ => 0%Qc) l) = 0%Qc.
Proof. induction l as [|x l IH]; [reflexivity|]. unfold lsum in *. cbn [map fold_right]. rewrite IH. ring. Qed.
Lemma skipn_zeros {A} n (l : list A) : lsum (skipn n (map (fun _ => 0%Qc) l)) = 0%Qc.
Proof. rewrite skipn_map. apply lsum_zeros. Qed.

Lemma stack_interp g i j l alts slots : 2 <= g_nscrn g -> screens_ok (g_nscrn g) l -> (length l <= length alts)%nat ->
  length slots = length alts ->
  exists r, interp_into g i j l alts (map (fun _ : Qc => 0%Qc) slots) = Ok r /\ lsum r = stack_sum g i j l alts.
Proof.
  intros HN HF HL HS. eexists. split; [apply interp_into_ok; auto; rewrite map_length; auto|].
  rewrite lsum_app, skipn_zeros. unfold stack_sum. ring.
Qed.

Lemma stack_nil g i j alts : stack_sum g i j [] alts = 0%Qc.
Proof. reflexivity. Qed.

(** ** Frames *)
Definition scr_of (g : geom) (sc : option (list (arr Qc))) : list (arr Qc) :=
  match sc with Some l => l | None => repeat (zeros (g_nscrn g)) (length (g_alts g)) end.
Definition corr_of (co : option (list (arr Qc))) : list (arr Qc) := match co with Some l => l | None => [] end.

Lemma frame_general g i j sc co s : 2 <= g_nscrn g -> g_rad g <> 0%Qc -> reachable g i j s ->
  screens_ok (g_nscrn g) (scr_of g sc) -> (length (scr_of g sc) <= length (g_alts g))%nat ->
  screens_ok (g_nscrn g) (corr_of co) -> (length (corr_of co) <= length (g_dmalts g))%nat ->
  exists s', los_frame g false i j sc co s = Ok s' /\
    let d := (stack_sum g i j (scr_of g sc) (g_alts g) - stack_sum g i j (corr_of co) (g_dmalts g))%Qc in
    p_phase s' = (g_rad g * d)%Qc /\ p_field s' = Some (g_rad g * d)%Qc /\
    p_resid s' = match g_up g, co with false, Some _ => d | _, _ => (g_rad g * d)%Qc end.
Proof.
  intros HN Hr HR HS HL CS CL. apply reachable_shape in HR. destruct HR as [R1 R2].
  unfold los_frame. fold (scr_of g sc).
  destruct (stack_interp g i j (scr_of g sc) (g_alts g) (p_scr s) HN HS HL R1) as (rs & ES & SS).
  destruct (stack_interp g i j (corr_of co) (g_dmalts g) (p_corr s) HN CS CL R2) as (rc & EC & SC).
  destruct (g_up g) eqn:Eup; destruct co as [c|]; cbn [corr_of] in *; unfold perform_correction, make_phase;
    cbn [bind zero_data p_scr p_corr p_phase p_field p_pcorr p_resid field_add]; rewrite ?EC, ?ES;
    cbn [bind zero_data p_scr p_corr p_phase p_field p_pcorr p_resid field_add];
    rewrite ?ES, ?EC; cbn [bind p_scr p_corr p_phase p_field p_pcorr p_resid field_add];
    eexists; (split; [reflexivity|]); cbn [p_phase p_field p_resid]; rewrite SS, ?SC; cbn zeta;
    rewrite ?stack_nil;
    repeat split; try (f_equal; field; auto; fail); try (field; auto).
Qed.

(** ** Linearity, history *)
Lemma stack_linear g i j a b l l' alts : length l = length l' ->
  stack_sum g i j (comb_stack a b l l') alts = (a * stack_sum g i j l alts + b * stack_sum g i j l' alts)%Qc.
Proof.
  unfold stack_sum, comb_stack. revert l' alts. induction l as [|x l IH]; intros [|x' l'] alts HL; try discriminate.
  - cbn. ring.
  - destruct alts as [|h alts]; [cbn; ring|]. cbn [combine map lsum fold_right fst snd].
    cbn [length] in HL. unfold lsum in *. cbn [fold_right]. rewrite IH by lia. unfold between_pixels, comb. cbn [at2]. ring.
Qed.
Lemma comb_ok N a b l l' : screens_ok N l -> length l = length l' -> screens_ok N (comb_stack a b l l') /\ length (comb_stack a b l l') = length l.
Proof.
  intros H E. unfold comb_stack. split; [|rewrite map_length, combine_length; lia].
  revert l' E. induction H as [|x l Hx H IH]; intros [|x' l'] E; try discriminate; constructor.
  - cbn. exact Hx.
  - apply IH. cbn in E. lia.
Qed.

Lemma frame_plain g i j l s : 2 <= g_nscrn g -> g_rad g <> 0%Qc -> reachable g i j s -> screens_ok (g_nscrn g) l ->
  (length l <= length (g_alts g))%nat ->
  exists s', los_frame g false i j (Some l) None s = Ok s' /\
    p_phase s' = (g_rad g * stack_sum g i j l (g_alts g))%Qc /\ p_field s' = Some (p_phase s') /\ p_resid s' = p_phase s'.
Proof.
  intros HN Hr HR HS HL.
  destruct (frame_general g i j (Some l) None s HN Hr HR HS HL ltac:(constructor) ltac:(cbn; lia)) as (s' & E & A & B & C).
  cbn [scr_of corr_of] in *. rewrite stack_nil in *. exists s'. split; auto.
  assert (K : p_phase s' = (g_rad g * stack_sum g i j l (g_alts g))%Qc) by (rewrite A; ring).
  split; auto. rewrite B, C, A. destruct (g_up g); auto.
Qed.

Lemma frame_linear g i j a b l l' s1 s2 s3 : 2 <= g_nscrn g -> g_rad g <> 0%Qc ->
  reachable g i j s1 -> reachable g i j s2 -> reachable g i j s3 ->
  screens_ok (g_nscrn g) l -> screens_ok (g_nscrn g) l' -> length l = length l' -> (length l <= length (g_alts g))%nat ->
  exists r1 r2 r3, los_frame g false i j (Some l) None s1 = Ok r1 /\ los_frame g false i j (Some l') None s2 = Ok r2 /\
    los_frame g false i j (Some (comb_stack a b l l')) None s3 = Ok r3 /\
    p_phase r3 = (a * p_phase r1 + b * p_phase r2)%Qc.
Proof.
  intros HN Hr R1 R2 R3 S1 S2 E HL. destruct (comb_ok _ a b l l' S1 E) as [SC LC].
  destruct (frame_plain g i j l s1 HN Hr R1 S1 HL) as (r1 & E1 & P1 & _).
  destruct (frame_plain g i j l' s2 HN Hr R2 S2 ltac:(lia)) as (r2 & E2 & P2 & _).
  destruct (frame_plain g i j _ s3 HN Hr R3 SC ltac:(lia)) as (r3 & E3 & P3 & _).
  exists r1, r2, r3. repeat split; auto. rewrite P1, P2, P3, stack_linear by auto. ring.
Qed.


Lemma seen_inj s t : seen s = seen t -> p_phase s = p_phase t /\ p_field s = p_field t /\ p_scr s = p_scr t /\ p_corr s = p_corr t.
Proof. unfold seen. intros E. inversion E. auto. Qed.

Lemma correction_seen g i j c s t : seen s = seen t -> seen_r (perform_correction g i j c s) = seen_r (perform_correction g i j c t).
Proof.
  intros E. apply seen_inj in E. destruct E as (E1 & E2 & E3 & E4). unfold perform_correction. rewrite E1, E2, E3, E4.
  destruct (interp_into _ _ _ _ _ _); reflexivity.
Qed.
Lemma make_phase_seen g ph i j c s t : seen s = seen t ->
  match make_phase g ph i j c s, make_phase g ph i j c t with Ok a, Ok b => seen a = seen b | Err a, Err b => a = b | _, _ => False end.
Proof.
  intros E. apply seen_inj in E. destruct E as (E1 & E2 & E3 & E4). unfold make_phase. rewrite E1, E2, E3, E4.
  destruct (interp_into _ _ _ _ _ _); cbn; auto. destruct ph; reflexivity.
Qed.

Lemma frame_history g ph i j sc co s t : reachable g i j s -> reachable g i j t ->
  seen_r (los_frame g ph i j sc co s) = seen_r (los_frame g ph i j sc co t).
Proof.
  intros Rs Rt. apply reachable_shape in Rs, Rt. destruct Rs as [A1 A2], Rt as [B1 B2].
  assert (Z : seen (zero_data s) = seen (zero_data t)).
  { unfold seen, zero_data. cbn. f_equal; [f_equal|].
    - apply nth_error_ext. intros n. rewrite !nth_error_map. destruct (nth_error (p_scr s) n) eqn:U, (nth_error (p_scr t) n) eqn:V; auto;
      [apply nth_error_None in V | apply nth_error_None in U]; [assert (n < length (p_scr s))%nat by (apply nth_error_Some; congruence) | assert (n < length (p_scr t))%nat by (apply nth_error_Some; congruence)]; lia.
    - apply nth_error_ext. intros n. rewrite !nth_error_map. destruct (nth_error (p_corr s) n) eqn:U, (nth_error (p_corr t) n) eqn:V; auto;
      [apply nth_error_None in V | apply nth_error_None in U]; [assert (n < length (p_corr s))%nat by (apply nth_error_Some; congruence) | assert (n < length (p_corr t))%nat by (apply nth_error_Some; congruence)]; lia. }
  unfold los_frame. set (scl := match sc with Some l => l | None => _ end). clearbody scl.
  set (s0 := zero_data s) in *. set (t0 := zero_data t) in *. clearbody s0 t0.
  destruct (g_up g); destruct co as [c|]; cbn [bind].
  - pose proof (correction_seen g i j c s0 t0 Z) as K.
    destruct (perform_correction g i j c s0) as [s1|], (perform_correction g i j c t0) as [t1|]; cbn in *; try congruence.
    assert (K2 : seen s1 = seen t1) by congruence. pose proof (make_phase_seen g ph i j scl s1 t1 K2) as M.
    destruct (make_phase g ph i j scl s1) as [s2|], (make_phase g ph i j scl t1) as [t2|]; cbn in *; try contradiction; try congruence.
    apply seen_inj in M. destruct M as (M1 & M2 & M3 & M4). unfold seen; cbn. rewrite M1, M2, M3, M4. reflexivity.
  - pose proof (make_phase_seen g ph i j scl s0 t0 Z) as M.
    destruct (make_phase g ph i j scl s0) as [s2|], (make_phase g ph i j scl t0) as [t2|]; cbn in *; try contradiction; try congruence.
    apply seen_inj in M. destruct M as (M1 & M2 & M3 & M4). unfold seen; cbn. rewrite M1, M2, M3, M4. reflexivity.
  - pose proof (make_phase_seen g ph i j scl s0 t0 Z) as M.
    destruct (make_phase g ph i j scl s0) as [s2|], (make_phase g ph i j scl t0) as [t2|]; cbn in M |- *; try contradiction; try congruence.
    apply correction_seen. apply seen_inj in M. destruct M as (M1 & M2 & M3 & M4). unfold seen; cbn. congruence.
  - pose proof (make_phase_seen g ph i j scl s0 t0 Z) as M.
    destruct (make_phase g ph i j scl s0) as [s2|], (make_phase g ph i j scl t0) as [t2|]; cbn in *; try contradiction; try congruence.
    apply seen_inj in M. destruct M as (M1 & M2 & M3 & M4). unfold seen; cbn. rewrite M1, M2, M3, M4. reflexivity.
Qed.

(** ** Geometry *)
Lemma two_neq : qz 2 <> 0%Qc.
Proof. apply qz_neq0. lia. Qed.

Lemma q2 : qz 2 = (1 + 1)%Qc.
Proof. reflexivity. Qed.
Lemma two_neq' : (1 + 1)%Qc <> 0%Qc.
Proof. rewrite <- q2. apply two_neq. Qed.

Lemma raw_infinite g pos h i : g_up g = false -> g_src g = 0%Qc -> g_outscale g = g_inscale g -> g_inscale g <> 0%Qc ->
  1 <= g_nout g -> 0 <= i < g_nout g ->
  raw_coord g (edges g (pos * h)%Qc h) i = ((qz (g_nscrn g) - qz (g_nout g)) / qz 2 + pos * h / g_inscale g + qz i)%Qc.
Proof.
  intros Hu Hs He Hne Hn Hi. pose proof two_neq. pose proof two_neq'. unfold raw_coord, edges, meta_pupil_size, linspace. rewrite Hs, He. cbn [fst snd].
  rewrite (proj2 (qc_eqb_true 0 0) eq_refl). destruct (Z.eqb_spec (g_nout g) 1) as [E|E].
  - assert (i = 0) by lia. subst i. rewrite E, qz_0, qz_1. field. auto.
  - assert (qz (g_nout g - 1) <> 0%Qc) by (apply qz_neq0; lia).
    rewrite qz_sub, qz_1, ?q2 in *. field. auto.
Qed.

Lemma floor_between a i j : between_pixels a (qz i) (qz j) = at2 a i j.
Proof. unfold between_pixels. rewrite !qc_floor_qz. ring. Qed.

Lemma whole_coord g pos d m alts h i : g_up g = false -> g_src g = 0%Qc -> g_outscale g = g_inscale g -> g_inscale g <> 0%Qc ->
  whole_shift pos (g_inscale g) (g_nout g) (g_nscrn g) m d alts -> In h alts -> 0 <= i < g_nout g ->
  coord g (edges g (pos * h)%Qc h) i = qz (m + d h + i).
Proof.
  intros Hu Hs He Hne [EN W] Hh Hi. destruct (W h Hh) as (W1 & W2 & W3). pose proof two_neq. pose proof two_neq'.
  assert (E : raw_coord g (edges g (pos * h)%Qc h) i = qz (m + d h + i)).
  { rewrite raw_infinite by (auto; lia). rewrite W1, EN, !qz_add, qz_mul. field. auto. }
  rewrite coord_inside; auto; rewrite E.
  - rewrite <- qz_0. apply qz_le. lia.
  - pose proof eps_lt1. assert (qz (m + d h + i) <= qz (g_nscrn g - 2))%Qc by (apply qz_le; lia).
    rewrite (qz_sub (g_nscrn g)) in *. replace (qz 2) with (1 + 1)%Qc in * by reflexivity. qclra.
Qed.

Lemma frame_whole g i j l s m dx dy : g_rad g <> 0%Qc -> reachable g i j s -> screens_ok (g_nscrn g) l ->
  (length l <= length (g_alts g))%nat -> g_up g = false -> g_src g = 0%Qc -> g_outscale g = g_inscale g -> g_inscale g <> 0%Qc ->
  2 <= g_nscrn g ->
  whole_shift (g_posx g) (g_inscale g) (g_nout g) (g_nscrn g) m dx (g_alts g) ->
  whole_shift (g_posy g) (g_inscale g) (g_nout g) (g_nscrn g) m dy (g_alts g) ->
  0 <= i < g_nout g -> 0 <= j < g_nout g ->
  exists s', los_frame g false i j (Some l) None s = Ok s' /\
    p_phase s' = (g_rad g * lsum (map (fun p => at2 (fst p) (m + dx (snd p) + i)%Z (m + dy (snd p) + j)%Z) (combine l (g_alts g))))%Qc.
Proof.
  intros Hr HR HS HL Hu Hs He Hne HN Wx Wy Hi Hj.
  destruct (frame_plain g i j l s HN Hr HR HS HL) as (s' & E & P & _). exists s'. split; auto. rewrite P. unfold stack_sum. do 2 f_equal.
  apply map_ext_in. intros [a h] Hin. cbn [fst snd]. apply in_combine_r in Hin.
  unfold x_edges, y_edges, centre. rewrite Hu.
  rewrite (whole_coord g (g_posx g) dx m (g_alts g)), (whole_coord g (g_posy g) dy m (g_alts g)) by auto. apply floor_between.
Qed.

(** ** Cone effect *)
Lemma edges_size g c h : g_inscale g <> 0%Qc ->
  (snd (edges g c h) - fst (edges g c h) = meta_pupil_size g h / g_inscale g)%Qc /\
  ((fst (edges g c h) + snd (edges g c h)) / qz 2 = c / g_inscale g + qz (g_nscrn g) / qz 2)%Qc.
Proof. intros H. pose proof two_neq. pose proof two_neq'. unfold edges. cbn [fst snd]. rewrite q2. split; field; auto. Qed.

Lemma cone g pos launch h : g_inscale g <> 0%Qc -> g_src g <> 0%Qc ->
  let '(e1, e2) := edges g (centre (g_up g) (g_src g) pos launch h) h in
  (e2 - e1 = (1 - h / g_src g) * (qz (g_nout g) * g_outscale g / g_inscale g))%Qc /\
  ((e1 + e2) / qz 2 - qz (g_nscrn g) / qz 2 =
   on_line (if g_up g then launch else 0) (pos * g_src g) (g_src g) h / g_inscale g)%Qc.
Proof.
  intros H1 H2. pose proof (edges_size g (centre (g_up g) (g_src g) pos launch h) h H1) as [A B].
  destruct (edges _ _ _) as [e1 e2]. cbn [fst snd] in *. pose proof two_neq. pose proof two_neq'.
  split.
  - rewrite A. unfold meta_pupil_size. rewrite (proj2 (qc_eqb_false _ _) H2). field. auto.
  - rewrite B. unfold centre, on_line. rewrite (proj2 (qc_eqb_false _ _) H2). destruct (g_up g); field; auto.
Qed.

Lemma beam g pos launch h : g_inscale g <> 0%Qc -> g_src g = 0%Qc ->
  let '(e1, e2) := edges g (centre (g_up g) (g_src g) pos launch h) h in
  (e2 - e1 = qz (g_nout g) * g_outscale g / g_inscale g)%Qc /\
  ((e1 + e2) / qz 2 - qz (g_nscrn g) / qz 2 = ((if g_up g then launch else 0) + pos * h) / g_inscale g)%Qc.
Proof.
  intros H1 H2. pose proof (edges_size g (centre (g_up g) (g_src g) pos launch h) h H1) as [A B].
  destruct (edges _ _ _) as [e1 e2]. cbn [fst snd] in *. pose proof two_neq. pose proof two_neq'.
  split.
  - rewrite A. unfold meta_pupil_size. rewrite (proj2 (qc_eqb_true _ _) H2). field. auto.
  - rewrite B. unfold centre. rewrite (proj2 (qc_eqb_true _ _) H2). destruct (g_up g); field; auto.
Qed.

(** samples run backwards as soon as the footprint is narrower than one pixel *)
Lemma raw_step g e i : 2 <= g_nout g -> (raw_coord g e (i + 1) - raw_coord g e i = (snd e - fst e - 1) / qz (g_nout g - 1))%Qc.
Proof.
  intros H. unfold raw_coord, linspace. destruct (Z.eqb_spec (g_nout g) 1); [lia|].
  assert (qz (g_nout g - 1) <> 0%Qc) by (apply qz_neq0; lia). rewrite qz_add, qz_1. field. auto.
Qed.

(** ** Physical propagation *)
Lemma increasing_last a l : increasing_from a l -> (a <= last l a)%Qc.
Proof.
  revert a. induction l as [|b l IH]; intros a H; [cbn; qclra|]. destruct H as [H1 H2]. specialize (IH b H2).
  replace (last (b :: l) a) with (last l b); [qclra|]. clear. revert b a. induction l as [|c l IH]; intros; auto.
  change (last (c :: l) b = last (c :: l) a). rewrite <- !IH. reflexivity.
Qed.
Lemma last_default {A} (l : list A) (a b d : A) : last (b :: l) a = last (b :: l) d.
Proof. revert b. induction l as [|c l IH]; intros; auto. exact (IH c). Qed.

Lemma abs_of_nonneg x : (0 <= x)%Qc -> qc_abs x = x.
Proof. intros. apply qc_abs_pos; auto. Qed.

Lemma loop_up src : (0 <= src)%Qc -> forall l a order, length order = S (length l) -> (0 <= a)%Qc -> increasing_from a l ->
  exists ops, prop_loop true 0 src (S (length l)) (a :: l) order a = Ok ops /\
    journey 1 a ops = (combine order (a :: l), if qc_eqb src 0 then last (a :: l) 0%Qc else src) /\
    ((src = 0 \/ last (a :: l) 0 <= src)%Qc -> never_backwards ops).
Proof.
  intros Hs. induction l as [|b l IH]; intros a order HO Ha HI; destruct order as [|k order]; cbn in HO; try discriminate.
  - destruct order; cbn in HO; [|discriminate]. cbn [prop_loop length].
    destruct (qc_eqb src 0) eqn:E; cbn [andb].
    + eexists. split; [reflexivity|]. split; [reflexivity|]. intros _ z [|[]]; discriminate.
    + eexists. split; [reflexivity|]. split.
      * cbn. f_equal. rewrite abs_of_nonneg by (replace (src - 0)%Qc with src by ring; auto). ring.
      * apply qc_eqb_false in E. cbn [last]. intros [|H]; [contradiction|].
        intros z [|[Hz|[]]]; [discriminate|]. inversion Hz; subst z. rewrite abs_of_nonneg; replace (src - 0)%Qc with src by ring; auto. qclra.
  - destruct HI as [H1 H2]. assert (Hb : (0 <= b)%Qc) by qclra.
    destruct (IH b order ltac:(cbn in *; lia) Hb H2) as (ops & E & J & B).
    assert (Az : qc_abs (b - a) = (b - a)%Qc) by (apply abs_of_nonneg; qclra).
    exists (Screen k :: Travel (qc_abs (b - a)) :: ops). repeat split.
    + cbn [length] in E |- *. change (prop_loop true 0 src (S (S (length l))) (a :: b :: l) (k :: order) a) with
        (let* r := prop_loop true 0 src (S (length l)) (b :: l) order (a + qc_abs (b - a))%Qc in Ok (Screen k :: Travel (qc_abs (b - a)) :: r)).
      rewrite Az. replace (a + (b - a))%Qc with b by ring. rewrite E. reflexivity.
    + cbn [journey combine]. rewrite Az. replace (a + 1 * (b - a))%Qc with b by ring. rewrite J. reflexivity.
    + intros HH z Hz. destruct Hz as [Hz|[Hz|Hz]]; [discriminate|inversion Hz; subst; rewrite Az; qclra|].
      apply (B HH); auto.
Qed.

Fixpoint decr (a : Qc) (l : list Qc) : Prop := match l with [] => (0 <= a)%Qc | b :: r => (b < a)%Qc /\ decr b r end.
Definition decr_list (l : list Qc) : Prop := match l with [] => True | a :: r => decr a r end.
Lemma decr_nonneg a l : decr a l -> (0 <= a)%Qc.
Proof. revert a. induction l as [|b l IH]; cbn; auto. intros a [H1 H2]. specialize (IH b H2). qclra. Qed.
Lemma decr_rev l a acc : increasing_from a l -> decr a acc -> decr_list (rev l ++ a :: acc).
Proof.
  revert a acc. induction l as [|b l IH]; intros a acc HI HD; [exact HD|].
  destruct HI as [H1 H2]. cbn [rev]. rewrite <- app_assoc. cbn [app]. apply IH; auto. cbn. auto.
Qed.

Lemma loop_down ht : forall l a order, length order = S (length l) -> decr a l -> (a <= ht)%Qc ->
  exists ops, prop_loop false ht 0 (S (length l)) (a :: l) order (ht - a)%Qc = Ok ops /\
    journey (-(1)) a ops = (combine order (a :: l), 0%Qc) /\ never_backwards ops.
Proof.
  induction l as [|b l IH]; intros a order HO HD Hht; destruct order as [|k order]; cbn in HO; try discriminate.
  - destruct order; cbn in HO; [|discriminate]. cbn [prop_loop length]. rewrite Bool.andb_false_r. cbn in HD.
    assert (A : qc_abs (0 - ht) = ht). { replace (0 - ht)%Qc with (- ht)%Qc by ring. rewrite qc_abs_opp. apply abs_of_nonneg. qclra. }
    eexists. split; [reflexivity|]. split.
    + cbn. rewrite A. f_equal. ring.
    + intros z [|[Hz|[]]]; [discriminate|]. inversion Hz; subst z. rewrite A. qclra.
  - destruct HD as [H1 H2].
    assert (Az : qc_abs (b - a) = (a - b)%Qc).
    { replace (b - a)%Qc with (- (a - b))%Qc by ring. rewrite qc_abs_opp. apply abs_of_nonneg. qclra. }
    destruct (IH b order ltac:(cbn in *; lia) H2 ltac:(qclra)) as (ops & E & J & B).
    exists (Screen k :: Travel (qc_abs (b - a)) :: ops). repeat split.
    + cbn [length] in E |- *. change (prop_loop false ht 0 (S (S (length l))) (a :: b :: l) (k :: order) (ht - a)%Qc) with
        (let* r := prop_loop false ht 0 (S (length l)) (b :: l) order (ht - a + qc_abs (b - a))%Qc in Ok (Screen k :: Travel (qc_abs (b - a)) :: r)).
      rewrite Az. replace (ht - a + (a - b))%Qc with (ht - b)%Qc by ring. rewrite E. reflexivity.
    + cbn [journey combine]. rewrite Az. replace (a + - (1) * (a - b))%Qc with b by ring. rewrite J. reflexivity.
    + intros z Hz. destruct Hz as [Hz|[Hz|Hz]]; [discriminate|inversion Hz; subst; rewrite Az; qclra|]. apply B; auto.
Qed.

Lemma combine_rev {A B} (l : list A) : forall m : list B, length l = length m -> combine (rev l) (rev m) = rev (combine l m).
Proof.
  induction l as [|a l IH]; intros [|b m] E; try discriminate; auto. cbn [rev combine]. rewrite <- IH by (cbn in E; lia).
  assert (G : forall (x : list A) (y : list B) u v, length x = length y -> combine (x ++ [u]) (y ++ [v]) = combine x y ++ [(u, v)]).
  { clear. induction x as [|p x IH]; intros [|q y] u v E; try discriminate; auto. cbn. f_equal. apply IH. cbn in E. lia. }
  apply G. rewrite !rev_length. cbn in E. lia.
Qed.

Lemma propagate_up alts src : altitudes alts -> (0 <= src)%Qc ->
  exists ops, propagate true (length alts) alts src = Ok ops /\
    journey 1 0 ops = (stations alts, if qc_eqb src 0 then top alts else src) /\
    ((src = 0 \/ top alts <= src)%Qc -> never_backwards ops).
Proof.
  destruct alts as [|a l]; [contradiction|]. intros [Ha HI] Hs. unfold propagate. cbn [bind].
  destruct (loop_up src Hs l a (map Z.of_nat (seq 0 (length (a :: l)))) ltac:(rewrite map_length, seq_length; reflexivity) Ha HI) as (ops & E & J & B).
  cbn [length] in *. assert (Az : qc_abs (a - 0) = a). { replace (a - 0)%Qc with a by ring. apply abs_of_nonneg; auto. }
  destruct (qc_eqb 0 a) eqn:E0.
  - apply qc_eqb_true in E0. subst a. exists ops. rewrite E. split; auto.
  - rewrite Az, E. cbn [bind]. exists (Travel a :: ops). split; auto. split.
    + cbn [journey]. replace (0 + 1 * a)%Qc with a by ring. exact J.
    + intros H z [Hz|Hz]; [inversion Hz; subst; auto | apply (B H); auto].
Qed.

Lemma rev_top (a : Qc) l : exists r, rev (a :: l) = top (a :: l) :: r /\ length r = length l.
Proof.
  unfold top. destruct (rev (a :: l)) as [|t r] eqn:E.
  - apply (f_equal (@length Qc)) in E. rewrite rev_length in E. discriminate.
  - exists r. split.
    + f_equal. assert (K : a :: l = rev r ++ [t]) by (rewrite <- (rev_involutive (a :: l)), E; reflexivity).
      rewrite K, last_last. reflexivity.
    + apply (f_equal (@length Qc)) in E. rewrite rev_length in E. cbn in E. lia.
Qed.

Lemma pyget_last (a : Qc) l : pyget (a :: l) (Z.of_nat (length (a :: l)) - 1) = Ok (top (a :: l)).
Proof.
  unfold pyget. set (n := Z.of_nat (length (a :: l))). assert (1 <= n) by (unfold n; cbn [length]; lia).
  destruct (Z.ltb_spec (n - 1) 0); [lia|]. destruct (Z.leb_spec 0 (n - 1)); [|lia]. destruct (Z.ltb_spec (n - 1) n); [|lia]. cbn [andb].
  assert (E : nth_error (a :: l) (Z.to_nat (n - 1)) = Some (top (a :: l))).
  { destruct (rev_top a l) as (r & R & L). assert (K : a :: l = rev r ++ [top (a :: l)]) by (rewrite <- (rev_involutive (a :: l)), R at 1; reflexivity).
    rewrite K at 1. rewrite nth_error_app2; rewrite rev_length, L.
    - replace (Z.to_nat (n - 1) - length l)%nat with 0%nat by (unfold n; cbn [length]; lia). reflexivity.
    - unfold n. cbn [length]. lia. }
  rewrite E. reflexivity.
Qed.

Lemma propagate_down alts src : altitudes alts ->
  exists ops, propagate false (length alts) alts src = Ok ops /\
    journey (-(1)) (top alts) ops = (rev (stations alts), 0%Qc) /\ never_backwards ops.
Proof.
  destruct alts as [|a l]; [contradiction|]. intros [Ha HI]. unfold propagate. rewrite pyget_last. cbn [bind].
  destruct (rev_top a l) as (r & R & L). rewrite R.
  pose proof (decr_rev l a [] HI Ha) as D. change (rev l ++ [a]) with (rev (a :: l)) in D. rewrite R in D. cbn [decr_list] in D.
  rewrite (proj2 (qc_eqb_true _ _) eq_refl).
  destruct (loop_down (top (a :: l)) r (top (a :: l)) (rev (map Z.of_nat (seq 0 (length (a :: l))))) ltac:(rewrite rev_length, map_length, seq_length; cbn [length]; lia) D ltac:(qclra)) as (ops & E & J & B).
  replace (top (a :: l) - top (a :: l))%Qc with 0%Qc in E by ring. rewrite L in E. cbn [length] in *. rewrite E.
  exists ops. split; auto. split; auto. rewrite J. f_equal. rewrite <- R. unfold stations.
  apply combine_rev. rewrite map_length, seq_length. reflexivity.
Qed.

Lemma propagate_down_src n alts s1 s2 : propagate false n alts s1 = propagate false n alts s2.
Proof. reflexivity. Qed.

Lemma journey_sum dir l : forall p v e, journey dir p l = (v, e) ->
  (e - p = dir * lsum (map (fun o => match o with Travel z => z | Screen _ => 0 end) l))%Qc.
Proof.
  induction l as [|o l IH]; intros p v e E; unfold lsum in *; cbn [map fold_right].
  - inversion E. ring.
  - destruct o as [z|k]; cbn [journey] in E.
    + apply IH in E. replace (e - p)%Qc with (e - (p + dir * z) + dir * z)%Qc by ring. rewrite E. ring.
    + destruct (journey dir p l) as [v' e'] eqn:E'. inversion E; subst. apply IH in E'. rewrite E'. ring.
Qed.

(** A source below the top layer: some leg is negative. *)
Lemma never_backwards_up l : forall p v e, never_backwards l -> journey 1 p l = (v, e) -> forall k h, In (k, h) v -> (h <= e)%Qc.
Proof.
  induction l as [|o l IH]; intros p v e B E k h Hin; [inversion E; subst; contradiction|].
  assert (B' : never_backwards l) by (intros z Hz; apply B; right; auto).
  destruct o as [z|k']; cbn [journey] in E.
  - eapply IH; eauto.
  - destruct (journey 1 p l) as [v' e'] eqn:E'. inversion E; subst. destruct Hin as [Hk|Hk].
    + inversion Hk; subst. apply journey_sum in E'.
      assert (S : (0 <= lsum (map (fun o => match o with Travel z => z | Screen _ => 0 end) l))%Qc).
      { clear -B'. induction l as [|o l IH]; unfold lsum in *; cbn [map fold_right]; [qclra|].
        assert (0 <= fold_right Qcplus 0 (map (fun o => match o with Travel z => z | Screen _ => 0 end) l))%Qc by (apply IH; intros z Hz; apply B'; right; auto).
        destruct o as [z|]; [|qclra]. assert (0 <= z)%Qc by (apply B'; left; auto). qclra. }
      qclra.
    + eapply IH; eauto.
Qed.

Lemma nth_error_combine {A B} n : forall (x : list A) (y : list B) u v, nth_error x n = Some u -> nth_error y n = Some v ->
  nth_error (combine x y) n = Some (u, v).
Proof. induction n as [|n IH]; intros [|a x] [|b y] u v E1 E2; cbn in *; try discriminate; [congruence|auto]. Qed.

Lemma source_below alts src : altitudes alts -> (0 < src)%Qc -> (src < top alts)%Qc ->
  exists ops, propagate true (length alts) alts src = Ok ops /\ fst (journey 1 0 ops) = stations alts /\ ~ never_backwards ops.
Proof.
  intros HA H0 H1. destruct (propagate_up alts src HA ltac:(qclra)) as (ops & E & J & _).
  exists ops. rewrite J. repeat split; auto. intros B.
  assert (NZ : qc_eqb src 0 = false) by (apply qc_eqb_false; intros C; subst; qclra). rewrite NZ in J.
  assert (T : exists k, In (k, top alts) (stations alts)).
  { destruct alts as [|a l]; [contradiction|]. exists (Z.of_nat (length l)).
    apply nth_error_In with (n := length l). unfold stations.
    destruct (rev_top a l) as (r & R & L). assert (K : a :: l = rev r ++ [top (a :: l)]) by (rewrite <- (rev_involutive (a :: l)), R at 1; reflexivity).
    assert (N1 : nth_error (a :: l) (length l) = Some (top (a :: l))).
    { rewrite K at 1. rewrite nth_error_app2; rewrite rev_length, L; [|lia]. rewrite Nat.sub_diag. reflexivity. }
    assert (N2 : nth_error (map Z.of_nat (seq 0 (length (a :: l)))) (length l) = Some (Z.of_nat (length l))).
    { rewrite nth_error_map. rewrite (nth_error_nth' _ 0%nat) by (rewrite seq_length; cbn; lia). rewrite seq_nth by (cbn; lia). reflexivity. }
    apply nth_error_combine; auto. }
  destruct T as [k T]. pose proof (never_backwards_up ops 0%Qc (stations alts) src B J k (top alts) T). qclra.
Qed.

(** ** Units of the returned residual *)
Lemma zeros_ok N n : screens_ok N (repeat (zeros N) n).
Proof. induction n; constructor; auto. Qed.
Lemma stack_zeros g i j N n alts : stack_sum g i j (repeat (zeros N) n) alts = 0%Qc.
Proof.
  unfold stack_sum. revert alts. induction n as [|n IH]; intros [|h alts]; try reflexivity.
  unfold lsum in *. cbn [repeat combine map fold_right fst snd]. rewrite IH. unfold between_pixels, zeros. cbn [at2]. ring.
Qed.

Lemma units g i j l s : 2 <= g_nscrn g -> g_rad g <> 0%Qc -> reachable g i j s -> screens_ok (g_nscrn g) l ->
  (length l <= length (g_alts g))%nat ->
  exists s1 s2, los_frame g false i j (Some l) None s = Ok s1 /\
    los_frame g false i j (Some l) (Some (zero_stack g (g_dmalts g))) s = Ok s2 /\
    p_resid s1 = (g_rad g * stack_sum g i j l (g_alts g))%Qc /\
    p_resid s2 = (if g_up g then g_rad g * stack_sum g i j l (g_alts g) else stack_sum g i j l (g_alts g))%Qc.
Proof.
  intros HN Hr HR HS HL.
  destruct (frame_plain g i j l s HN Hr HR HS HL) as (s1 & E1 & P1 & _ & P2).
  destruct (frame_general g i j (Some l) (Some (zero_stack g (g_dmalts g))) s HN Hr HR HS HL (zeros_ok _ _)
              ltac:(cbn [corr_of]; unfold zero_stack; rewrite repeat_length; lia)) as (s2 & E2 & _ & _ & C).
  cbn [scr_of corr_of] in C. unfold zero_stack in C. rewrite stack_zeros in C. exists s1, s2.
  repeat split; auto; [congruence|]. rewrite C. destruct (g_up g); ring.
Qed.

Lemma residual_down g i j l c s : 2 <= g_nscrn g -> g_rad g <> 0%Qc -> reachable g i j s ->
  screens_ok (g_nscrn g) l -> (length l <= length (g_alts g))%nat ->
  screens_ok (g_nscrn g) c -> (length c <= length (g_dmalts g))%nat -> g_up g = false ->
  exists s', los_frame g false i j (Some l) (Some c) s = Ok s' /\
    p_resid s' = (stack_sum g i j l (g_alts g) - stack_sum g i j c (g_dmalts g))%Qc /\
    p_field s' = Some (g_rad g * p_resid s')%Qc /\ p_phase s' = (g_rad g * p_resid s')%Qc.
Proof.
  intros HN Hr HR HS HL CS CL Hu.
  destruct (frame_general g i j (Some l) (Some c) s HN Hr HR HS HL CS CL) as (s' & E & A & B & C).
  cbn [scr_of corr_of] in *. rewrite Hu in C. exists s'. rewrite C. auto.
Qed.

Lemma units_differ g i j l s : 2 <= g_nscrn g -> g_rad g <> 0%Qc -> g_rad g <> 1%Qc -> reachable g i j s -> screens_ok (g_nscrn g) l ->
  (length l <= length (g_alts g))%nat -> g_up g = false -> stack_sum g i j l (g_alts g) <> 0%Qc ->
  exists s1 s2, los_frame g false i j (Some l) None s = Ok s1 /\
    los_frame g false i j (Some l) (Some (zero_stack g (g_dmalts g))) s = Ok s2 /\ p_resid s1 <> p_resid s2 /\
    p_resid s1 = (g_rad g * p_resid s2)%Qc.
Proof.
  intros HN Hr Hr1 HR HS HL Hu Hd. destruct (units g i j l s HN Hr HR HS HL) as (s1 & s2 & E1 & E2 & P1 & P2).
  rewrite Hu in P2. exists s1, s2. repeat split; auto; [|congruence]. rewrite P1, P2. intros E.
  set (D := stack_sum g i j l (g_alts g)) in *.
  assert (K : ((g_rad g - 1) * D = 0)%Qc) by (replace ((g_rad g - 1) * D)%Qc with (g_rad g * D - D)%Qc by ring; rewrite E; ring).
  apply Qcmult_integral in K. destruct K as [K|K]; [|contradiction].
  apply Hr1. replace (g_rad g) with (g_rad g - 1 + 1)%Qc by ring. rewrite K. ring.
Qed.

Lemma phys_residual g i j l s : 2 <= g_nscrn g -> reachable g i j s -> screens_ok (g_nscrn g) l -> (length l <= length (g_alts g))%nat ->
  exists s', los_frame g true i j (Some l) None s = Ok s' /\ p_resid s' = 0%Qc /\ p_phase s' = 0%Qc.
Proof.
  intros HN HR HS HL. apply reachable_shape in HR. destruct HR as [R1 R2].
  destruct (stack_interp g i j l (g_alts g) (p_scr s) HN HS HL R1) as (rs & ES & SS).
  unfold los_frame, make_phase. destruct (g_up g); cbn [bind zero_data p_scr]; rewrite ES; cbn [bind]; eexists; split; [reflexivity|auto|reflexivity|auto].
Qed.

(** ** A DM that reproduces the turbulence of its conjugate altitude cancels it *)
Lemma conjugate g i j l s : 2 <= g_nscrn g -> g_rad g <> 0%Qc -> reachable g i j s -> screens_ok (g_nscrn g) l ->
  (length l <= length (g_alts g))%nat -> g_dmalts g = g_alts g ->
  exists s', los_frame g false i j (Some l) (Some l) s = Ok s' /\ p_resid s' = 0%Qc /\ p_phase s' = 0%Qc /\ p_field s' = Some 0%Qc.
Proof.
  intros HN Hr HR HS HL ED.
  destruct (frame_general g i j (Some l) (Some l) s HN Hr HR HS HL HS ltac:(cbn [corr_of]; rewrite ED; auto)) as (s' & E & A & B & C).
  cbn [scr_of corr_of] in *. rewrite ED in *. exists s'. split; auto.
  replace (stack_sum g i j l (g_alts g) - stack_sum g i j l (g_alts g))%Qc with 0%Qc in * by ring.
  rewrite A, B, C. destruct (g_up g); repeat split; try (f_equal; ring); ring.
Qed.

Lemma above_source g c h i : 2 <= g_nout g -> (0 < g_outscale g)%Qc -> (0 < g_inscale g)%Qc ->
  (0 < g_src g)%Qc -> (g_src g < h)%Qc ->
  (snd (edges g c h) < fst (edges g c h))%Qc /\ (raw_coord g (edges g c h) (i + 1) < raw_coord g (edges g c h) i)%Qc.
Proof.
  intros Hn Ho Hi Hs Hh.
  assert (Ni : g_inscale g <> 0%Qc) by (intros C; rewrite C in Hi; qclra).
  assert (Ns : g_src g <> 0%Qc) by (intros C; rewrite C in Hs; qclra).
  destruct (edges_size g c h Ni) as [A _].
  assert (Neg : (snd (edges g c h) - fst (edges g c h) < 0)%Qc).
  { rewrite A. unfold meta_pupil_size. rewrite (proj2 (qc_eqb_false _ _) Ns).
    assert (N1 : (0 < qz (g_nout g))%Qc) by (rewrite <- qz_0; apply qz_lt; lia).
    assert (P : (0 < qz (g_nout g) * g_outscale g)%Qc) by qcnra.
    assert (R : (1 - h / g_src g < 0)%Qc).
    { assert (1 < h / g_src g)%Qc; [|qclra]. apply Qcnot_le_lt. intros K. apply (Qcmult_le_compat_r _ _ (g_src g)) in K; [|qclra].
      replace (h / g_src g * g_src g)%Qc with h in K by (field; auto). qclra. }
    apply Qcdiv_lt; auto. qcnra. }
  split; [qclra|]. pose proof (raw_step g (edges g c h) i Hn) as S.
  assert (N2 : (0 < qz (g_nout g - 1))%Qc) by (rewrite <- qz_0; apply qz_lt; lia).
  assert (((snd (edges g c h) - fst (edges g c h) - 1) / qz (g_nout g - 1)) < 0)%Qc by (apply Qcdiv_lt; auto; qclra).
  qclra.
Qed.

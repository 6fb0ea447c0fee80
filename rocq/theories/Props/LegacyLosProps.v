(** Properties of the legacy line of sight: C182-C185. *)
From Verif.Base Require Import Vec.
From Verif.Model Require Import Recon Numerics Los LegacyLos.
From Verif.Spec Require Import LosSpec LegacyLosSpec.
From Verif.Proofs Require Import NumericsProofs LosProofs LegacyLosProofs.

Local Open Scope Qc_scope.

(** ** C182: screens are read only where they have data *)
Theorem C182_layer : forall l N a h i j, consistent l -> below_source l h -> nrow a = N -> ncol a = N -> (2 <= N)%Z -> wide l h ->
  (0 <= i < ll_nout l)%Z -> (0 <= j < ll_nout l)%Z ->
  let r := meta_pupil_phase l a h (Some (meta_radius l h / ll_pix l)) None i j in
  (fits l N h -> r = Ok (legacy_see l N a h i j) /\
     0 <= spot l N (snd (ll_tan l)) h i <= qz (N - 1) /\ 0 <= spot l N (fst (ll_tan l)) h j <= qz (N - 1)) /\
  (~ fits l N h -> r = Err ValueError).
Proof.
  intros l N a h i j C B E1 E2 HN W Hi Hj r. split; intros F.
  - split; [apply layer_seen; auto; right; reflexivity|apply spots_inside; auto].
  - apply (layer_refused l N); auto. right. reflexivity.
Qed.
Print Assumptions C182_layer.

Theorem C182_frame_refuses : forall l N i j scrns corr, consistent l -> (2 <= N)%Z -> ll_meta l = None -> ll_scrns l = length (ll_heights l) ->
  (0 <= i < ll_nout l)%Z -> (0 <= j < ll_nout l)%Z -> screens_ok N scrns -> length scrns = length (ll_heights l) ->
  Forall (fun h => below_source l h /\ wide l h) (ll_heights l) -> (exists h, In h (ll_heights l) /\ ~ fits l N h) ->
  legacy_frame l i j (Some scrns) corr = Err ValueError.
Proof. exact frame_refused. Qed.
Print Assumptions C182_frame_refuses.

(** Four pixels a side over a 16-pixel screen, a source at 8 m off axis, layers on the ground and at 4 m *)
Definition legacy_example (up : bool) (rad : Qc) : llos := mkLlos (1, 0) up (qz 8) 4 4 1 1 (qz 4) 4 2 [0; qz 4] None rad.
Definition wavy : arr Qc := mkArr 16 16 (fun i j => qz (i * i + 3 * j)).
Example C182_instance : let l := legacy_example false 1 in consistent l /\ below_source l (qz 4) /\ wide l (qz 4) /\ fits l 16 (qz 4) /\ ~ fits l 8 (qz 4) /\
  meta_pupil_phase l wavy (qz 4) (Some (meta_radius l (qz 4) / ll_pix l)) None 1 2 = Ok (legacy_see l 16 wavy (qz 4) 1 2) /\
  legacy_see l 16 wavy (qz 4) 1 2 = qz 89 /\ meta_pupil_phase l (mkArr 8 8 (at2 wavy)) (qz 4) (Some (meta_radius l (qz 4) / ll_pix l)) None 1 2 = Err ValueError.
Proof.
  cbv zeta. assert (C : consistent (legacy_example false 1)) by (repeat split; try (vm_compute; first [reflexivity|discriminate]); try (apply Qc_is_canon; reflexivity); cbn; try lia).
  split; [exact C|]. split; [right; vm_compute; reflexivity|]. split; [vm_compute; discriminate|]. split; [repeat split; vm_compute; discriminate|].
  split; [intros [[F1 F2] _]; revert F2; vm_compute; intros F2; apply F2; reflexivity|].
  split; [|split]; [apply (C182_layer (legacy_example false 1) 16 wavy (qz 4) 1 2); auto; try lia| |].
  all: try (cbn; lia); try (vm_compute; discriminate); try (right; vm_compute; reflexivity); try (repeat split; vm_compute; discriminate); try (vm_compute; reflexivity).
  apply Qc_is_canon; vm_compute; reflexivity.
Qed.

(** ** C183: the phase seen *)
Theorem C183_frame_partial : forall l N i j scrns cs dmh, consistent l -> (2 <= N)%Z -> ll_rad l <> 0 -> ll_meta l = None -> ll_scrns l = length (ll_heights l) ->
  (0 <= i < ll_nout l)%Z -> (0 <= j < ll_nout l)%Z -> all_seen l N scrns (ll_heights l) -> all_seen l N cs dmh ->
  let d := sgn l * legacy_stack l N scrns (ll_heights l) i j in let c := legacy_stack l N cs dmh i j in
  legacy_frame l i j (Some scrns) None = Ok (mkLpx (ll_rad l * d) (ll_rad l * d) (ll_rad l * d)) /\
  (cs <> [] -> legacy_frame l i j (Some scrns) (Some (at_heights cs dmh)) = Ok (mkLpx (ll_rad l * (d - c)) (ll_rad l * (d - c)) (d - c))).
Proof. exact frame_ok. Qed.
Print Assumptions C183_frame_partial.

(** The same turbulence, not corrected or corrected by flat mirrors: the values returned differ. *)
Theorem C183_units_refuted : forall l N i j scrns cs dmh, consistent l -> (2 <= N)%Z -> ll_rad l <> 0 -> ll_meta l = None -> ll_scrns l = length (ll_heights l) ->
  (0 <= i < ll_nout l)%Z -> (0 <= j < ll_nout l)%Z -> all_seen l N scrns (ll_heights l) -> all_seen l N cs dmh -> cs <> [] ->
  legacy_stack l N cs dmh i j = 0 -> legacy_stack l N scrns (ll_heights l) i j <> 0 -> ll_rad l <> 1 ->
  exists q q', legacy_frame l i j (Some scrns) None = Ok q /\ legacy_frame l i j (Some scrns) (Some (at_heights cs dmh)) = Ok q' /\
    q_phase q = q_phase q' /\ q_field q = q_field q' /\ q_resid q = ll_rad l * q_resid q' /\ q_resid q <> q_resid q'.
Proof.
  intros l N i j scrns cs dmh C HN Hr HM HS Hi Hj A B NE Z NZ R1. destruct (frame_ok l N i j scrns cs dmh C HN Hr HM HS Hi Hj A B) as [E1 E2]. specialize (E2 NE).
  cbv zeta in *. rewrite Z in E2. set (d := sgn l * legacy_stack l N scrns (ll_heights l) i j) in *. eexists; eexists. split; [exact E1|]. split; [exact E2|]. cbn [q_phase q_field q_resid].
  repeat split; try ring. intros K. assert (D : d * (ll_rad l - 1) = 0) by (transitivity (ll_rad l * d - (d - 0)); [ring|rewrite K; ring]).
  apply Qcmult_integral in D. destruct D as [D|D].
  - apply NZ. unfold d, sgn in D. destruct (ll_up l); [|rewrite <- D; ring]. transitivity (- (- (1) * legacy_stack l N scrns (ll_heights l) i j)); [ring|rewrite D; ring].
  - apply R1. transitivity (ll_rad l - 1 + 1); [ring|rewrite D; ring].
Qed.
Print Assumptions C183_units_refuted.

(** Corrected by the very turbulence it goes through, light sent up gets twice the turbulence. *)
Theorem C183_up_refuted : forall l N i j scrns, consistent l -> (2 <= N)%Z -> ll_rad l <> 0 -> ll_meta l = None -> ll_scrns l = length (ll_heights l) ->
  (0 <= i < ll_nout l)%Z -> (0 <= j < ll_nout l)%Z -> all_seen l N scrns (ll_heights l) -> scrns <> [] ->
  exists q, legacy_frame l i j (Some scrns) (Some (at_heights scrns (ll_heights l))) = Ok q /\
    q_resid q = if ll_up l then - (qz 2 * legacy_stack l N scrns (ll_heights l) i j) else 0.
Proof.
  intros l N i j scrns C HN Hr HM HS Hi Hj A NE. destruct (frame_ok l N i j scrns scrns (ll_heights l) C HN Hr HM HS Hi Hj A A) as [_ E2]. eexists. split; [exact (E2 NE)|].
  cbn [q_resid]. unfold sgn. destruct (ll_up l); [rewrite qz2|]; ring.
Qed.
Print Assumptions C183_up_refuted.

(** A layer at the source or above it adds nothing, if the output has sim_size elements a side; else there is no frame. *)
Theorem C183_above_refuted : forall l a h i j, 0 < ll_height l -> ll_height l <= h -> ll_scrns l = 1%nat -> ll_heights l = [h] -> ll_meta l = None ->
  (ll_sim l = ll_nout l -> legacy_frame l i j (Some [a]) None = Ok (mkLpx 0 0 0)) /\
  (ll_sim l <> ll_nout l -> (1 < ll_sim l)%Z -> legacy_frame l i j (Some [a]) None = Err ValueError).
Proof.
  intros l a h i j HP HL HS HH HM. rewrite (above_source_layer l a h i j HP HL HS HH HM). split.
  - intros E. rewrite (proj2 (Z.eqb_eq _ _) E). reflexivity.
  - intros NE L. destruct (Z.eqb_spec (ll_sim l) (ll_nout l)); [contradiction|]. destruct (Z.eqb_spec (ll_sim l) 1); [lia|]. reflexivity.
Qed.
Print Assumptions C183_above_refuted.

Lemma example_ok up rad : consistent (legacy_example up rad) /\ all_seen (legacy_example up rad) 16 [wavy; wavy] [0; qz 4].
Proof.
  split; [repeat split; try (vm_compute; first [reflexivity|discriminate]); try (apply Qc_is_canon; reflexivity); cbn; try lia|].
  split; [repeat constructor|]. split; [reflexivity|].
  constructor; [|constructor; [|constructor]]; (split; [right; vm_compute; reflexivity|]); (split; [repeat split; vm_compute; discriminate|vm_compute; discriminate]).
Qed.
Example C183_instance : let l := legacy_example true (qz 3) in consistent l /\ all_seen l 16 [wavy; wavy] (ll_heights l) /\ legacy_stack l 16 [wavy; wavy] (ll_heights l) 1 2 = qz 162 /\
  exists q, legacy_frame l 1 2 (Some [wavy; wavy]) None = Ok q /\ q_resid q = qz (-486) /\
    exists q', legacy_frame l 1 2 (Some [wavy; wavy]) (Some (at_heights [wavy; wavy] [0; qz 4])) = Ok q' /\ q_resid q' = qz (-324).
Proof.
  cbv zeta. destruct (example_ok true (qz 3)) as [C A]. split; [exact C|]. split; [exact A|]. split; [apply Qc_is_canon; vm_compute; reflexivity|].
  destruct (C183_frame_partial (legacy_example true (qz 3)) 16 1 2 [wavy; wavy] [wavy; wavy] [0; qz 4] C ltac:(lia) ltac:(vm_compute; discriminate) eq_refl eq_refl ltac:(cbn; lia) ltac:(cbn; lia) A A) as [E1 E2].
  eexists. split; [exact E1|]. split; [apply Qc_is_canon; vm_compute; reflexivity|]. eexists. split; [apply E2; discriminate|]. apply Qc_is_canon; vm_compute; reflexivity.
Qed.
Example C183_flat_instance : let l := legacy_example false (qz 3) in all_seen l 16 [zeros 16] [0] /\ legacy_stack l 16 [zeros 16] [0] 1 2 = 0 /\ legacy_stack l 16 [wavy; wavy] (ll_heights l) 1 2 <> 0 /\ ll_rad l <> 1.
Proof.
  cbv zeta. split; [|split; [apply Qc_is_canon; vm_compute; reflexivity|split; vm_compute; discriminate]].
  split; [repeat constructor|]. split; [reflexivity|]. constructor; [|constructor]. split; [right; vm_compute; reflexivity|]. split; [repeat split; vm_compute; discriminate|vm_compute; discriminate].
Qed.
Example C183_above_instance : let l := mkLlos (0, 0) false (qz 8) 4 6 1 1 (qz 4) 4 1 [qz 9] None 1 in 0 < ll_height l /\ ll_height l <= qz 9 /\ ll_sim l <> ll_nout l /\ (1 < ll_sim l)%Z /\
  legacy_frame l 1 2 (Some [wavy]) None = Err ValueError.
Proof. cbv zeta. repeat split; try (vm_compute; first [reflexivity|discriminate]). Qed.

(** ** C184: the legacy and the current line of sight *)
Theorem C184_swapped_partial : forall l N i j scrns cs dmh s0, consistent l -> (2 <= N)%Z -> ll_rad l <> 0 -> ll_meta l = None -> ll_scrns l = length (ll_heights l) -> ll_up l = false ->
  (0 <= i < ll_nout l)%Z -> (0 <= j < ll_nout l)%Z -> all_seen l N scrns (ll_heights l) -> all_seen l N cs dmh -> cs <> [] ->
  even_width l -> Forall (clear_of_end l N) (ll_heights l) -> Forall (clear_of_end l N) dmh ->
  let g := same_line l N dmh (swap (ll_tan l)) in reachable g i j s0 ->
  (exists s q, los_frame g false i j (Some scrns) None s0 = Ok s /\ legacy_frame l i j (Some scrns) None = Ok q /\
     p_phase s = q_phase q /\ p_field s = Some (q_field q) /\ p_resid s = q_resid q) /\
  (exists s q, los_frame g false i j (Some scrns) (Some cs) s0 = Ok s /\ legacy_frame l i j (Some scrns) (Some (at_heights cs dmh)) = Ok q /\
     p_phase s = q_phase q /\ p_field s = Some (q_field q) /\ p_resid s = q_resid q).
Proof.
  intros l N i j scrns cs dmh s0 C HN Hr HM HS HU Hi Hj A B NE EV CL CB g R.
  destruct (frame_ok l N i j scrns cs dmh C HN Hr HM HS Hi Hj A B) as [E1 E2]. specialize (E2 NE). cbv zeta in *. unfold sgn in *. rewrite HU in E1, E2.
  pose proof (stack_same l N dmh scrns (ll_heights l) i j C EV HN Hi Hj A CL) as SA. pose proof (stack_same l N dmh cs dmh i j C EV HN Hi Hj B CB) as SB.
  destruct (seen_lists _ _ _ _ A) as [A1 A2]. destruct (seen_lists _ _ _ _ B) as [B1 B2].
  destruct (frame_general g i j (Some scrns) None s0 HN Hr R A1 A2 ltac:(constructor) ltac:(cbn; lia)) as (s1 & F1 & P1 & P2 & P3).
  destruct (frame_general g i j (Some scrns) (Some cs) s0 HN Hr R A1 A2 B1 B2) as (s2 & F2 & Q1 & Q2 & Q3).
  cbv zeta in *. cbn [scr_of corr_of] in *. rewrite stack_nil in P1, P2, P3. change (g_alts g) with (ll_heights l) in *. change (g_dmalts g) with dmh in *. change (g_rad g) with (ll_rad l) in *. change (g_up g) with false in *.
  fold g in SA, SB. rewrite SA in P1, P2, P3, Q1, Q2, Q3. rewrite SB in Q1, Q2, Q3. split.
  - exists s1. eexists. split; [exact F1|]. split; [exact E1|]. cbn [q_phase q_field q_resid]. rewrite P1, P2, P3. repeat split; try (f_equal; ring); ring.
  - exists s2. eexists. split; [exact F2|]. split; [exact E2|]. cbn [q_phase q_field q_resid]. rewrite Q1, Q2, Q3. repeat split; try (f_equal; ring); ring.
Qed.
Print Assumptions C184_swapped_partial.

(** With the same position, the two see each other's picture of the transposed screens. *)
Theorem C184_transposed_partial : forall l N i j scrns s0, consistent l -> (2 <= N)%Z -> ll_rad l <> 0 -> ll_meta l = None -> ll_scrns l = length (ll_heights l) -> ll_up l = false ->
  (0 <= i < ll_nout l)%Z -> (0 <= j < ll_nout l)%Z -> all_seen l N scrns (ll_heights l) -> even_width l -> Forall (clear_of_end l N) (ll_heights l) ->
  let g := same_line l N [] (ll_tan l) in reachable g j i s0 ->
  exists s q, los_frame g false j i (Some (map transposed scrns)) None s0 = Ok s /\ legacy_frame l i j (Some scrns) None = Ok q /\ p_phase s = q_phase q /\ p_field s = Some (q_field q).
Proof.
  intros l N i j scrns s0 C HN Hr HM HS HU Hi Hj A EV CL g R.
  assert (B : all_seen l N [] []) by (repeat split; constructor).
  destruct (frame_ok l N i j scrns [] [] C HN Hr HM HS Hi Hj A B) as [E1 _]. cbv zeta in *. unfold sgn in *. rewrite HU in E1.
  pose proof (stack_transposed l N [] scrns (ll_heights l) i j C EV HN Hi Hj A CL) as SA. destruct (seen_lists _ _ _ _ A) as [A1 A2].
  assert (L : (length (map transposed scrns) <= length (ll_heights l))%nat) by (rewrite map_length; exact A2).
  destruct (frame_general g j i (Some (map transposed scrns)) None s0 HN Hr R (transposed_ok _ _ A1) L ltac:(constructor) ltac:(cbn; lia)) as (s1 & F1 & P1 & P2 & P3).
  cbv zeta in *. cbn [scr_of corr_of] in *. rewrite stack_nil in P1, P2, P3. change (g_alts g) with (ll_heights l) in *. change (g_rad g) with (ll_rad l) in *. fold g in SA. rewrite SA in P1, P2, P3.
  exists s1. eexists. split; [exact F1|]. split; [exact E1|]. cbn [q_phase q_field]. rewrite P1, P2. split; [|f_equal]; ring.
Qed.
Print Assumptions C184_transposed_partial.

(** With the same position and the same screens they differ. *)
Theorem C184_same_position_refuted : exists l N scrns i j, consistent l /\ ll_up l = false /\ all_seen l N scrns (ll_heights l) /\ even_width l /\ Forall (clear_of_end l N) (ll_heights l) /\
  let g := same_line l N [] (ll_tan l) in
  exists s q, los_frame g false i j (Some scrns) None (px_init g) = Ok s /\ legacy_frame l i j (Some scrns) None = Ok q /\ p_phase s <> q_phase q.
Proof.
  destruct (example_ok false (qz 3)) as [C A]. exists (legacy_example false (qz 3)), 16%Z, [wavy; wavy], 1%Z, 2%Z. split; [exact C|]. split; [reflexivity|]. split; [exact A|].
  split; [apply Qc_is_canon; vm_compute; reflexivity|]. split; [constructor; [|constructor; [|constructor]]; split; vm_compute; discriminate|]. cbv zeta.
  assert (B : all_seen (legacy_example false (qz 3)) 16 [] []) by (repeat split; constructor).
  destruct (frame_ok (legacy_example false (qz 3)) 16 1 2 [wavy; wavy] [] [] C ltac:(lia) ltac:(vm_compute; discriminate) eq_refl eq_refl ltac:(cbn; lia) ltac:(cbn; lia) A B) as [E1 _].
  destruct (frame_general (same_line (legacy_example false (qz 3)) 16 [] (ll_tan (legacy_example false (qz 3)))) 1 2 (Some [wavy; wavy]) None _ ltac:(cbn; lia) ltac:(vm_compute; discriminate) (reach_init _ _ _) ltac:(repeat constructor) ltac:(cbn; lia) ltac:(constructor) ltac:(cbn; lia)) as (s1 & F1 & P1 & _).
  exists s1. eexists. split; [exact F1|]. split; [exact E1|]. rewrite P1. vm_compute. discriminate.
Qed.
Print Assumptions C184_same_position_refuted.
Example C184_instance : let l := legacy_example false (qz 3) in consistent l /\ all_seen l 16 [wavy; wavy] (ll_heights l) /\ all_seen l 16 [wavy] [0] /\ even_width l /\ Forall (clear_of_end l 16) (ll_heights l) /\ Forall (clear_of_end l 16) [0] /\
  exists s, los_frame (same_line l 16 [0] (swap (ll_tan l))) false 1 2 (Some [wavy; wavy]) (Some [wavy]) (px_init (same_line l 16 [0] (swap (ll_tan l)))) = Ok s /\ p_resid s = qz 89.
Proof.
  cbv zeta. destruct (example_ok false (qz 3)) as [C A]. assert (B : all_seen (legacy_example false (qz 3)) 16 [wavy] [0]).
  { split; [repeat constructor|]. split; [reflexivity|]. constructor; [|constructor]. split; [right; vm_compute; reflexivity|]. split; [repeat split; vm_compute; discriminate|vm_compute; discriminate]. }
  assert (EV : even_width (legacy_example false (qz 3))) by (apply Qc_is_canon; vm_compute; reflexivity).
  assert (C1 : Forall (clear_of_end (legacy_example false (qz 3)) 16) (ll_heights (legacy_example false (qz 3)))) by (constructor; [|constructor; [|constructor]]; split; vm_compute; discriminate).
  assert (C2 : Forall (clear_of_end (legacy_example false (qz 3)) 16) [0]) by (constructor; [|constructor]; split; vm_compute; discriminate).
  do 6 (split; [assumption|]).
  destruct (C184_swapped_partial (legacy_example false (qz 3)) 16 1 2 [wavy; wavy] [wavy] [0] _ C ltac:(lia) ltac:(vm_compute; discriminate) eq_refl eq_refl eq_refl ltac:(cbn; lia) ltac:(cbn; lia) A B ltac:(discriminate) EV C1 C2 (reach_init _ _ _)) as [_ (s & q & E1 & E2 & _ & _ & E)].
  exists s. split; [exact E1|]. rewrite E.
  destruct (frame_ok (legacy_example false (qz 3)) 16 1 2 [wavy; wavy] [wavy] [0] C ltac:(lia) ltac:(vm_compute; discriminate) eq_refl eq_refl ltac:(cbn; lia) ltac:(cbn; lia) A B) as [_ E3].
  rewrite E3 in E2 by discriminate. injection E2 as <-. apply Qc_is_canon. vm_compute. reflexivity.
Qed.

(** ** C185: the physical propagation *)
(** Upwards the layers are met at their altitudes, and the end is off by the altitude of the lowest layer. *)
Theorem C185_up_partial : forall alts src, altitudes alts -> 0 < src ->
  exists ops, legacy_propagate true (length alts) alts src = Ok ops /\ journey 1 0 ops = (stations alts, src + nth 0 alts 0) /\
    (top alts - nth 0 alts 0 <= src -> never_backwards ops).
Proof. exact legacy_up. Qed.
Print Assumptions C185_up_partial.

Theorem C185_up_refuted : forall alts src, altitudes alts -> 0 < src -> 0 < nth 0 alts 0 ->
  exists ops, legacy_propagate true (length alts) alts src = Ok ops /\ src < snd (journey 1 0 ops).
Proof.
  intros alts src A S P. destruct (legacy_up alts src A S) as (ops & E & J & _). exists ops. split; [exact E|]. rewrite J. cbn [snd]. qclra.
Qed.
Print Assumptions C185_up_refuted.

(** Downwards, after the highest layer light goes to the ground at once: every other layer is met at the ground or below it, and the end is below it. *)
Theorem C185_down_refuted : forall alts src, altitudes alts -> (2 <= length alts)%nat ->
  exists ops v, legacy_propagate false (length alts) alts src = Ok ops /\ never_backwards ops /\
    journey (-(1)) (top alts) ops = ((Z.of_nat (length alts) - 1, top alts)%Z :: v, nth 0 alts 0 - top alts) /\
    map fst v = rev (map Z.of_nat (seq 0 (length alts - 1))) /\ Forall (fun s => snd s <= 0) v /\ nth 0 alts 0 - top alts < 0.
Proof.
  intros alts src A L. destruct (legacy_down alts src A) as (ops & v & E & NB & J & M & F). exists ops, v. do 5 (split; [assumption|]).
  destruct alts as [|a [|b l]]; cbn [length] in L; try lia. destruct A as [A0 [A1 A2]]. cbn [nth].
  assert (T : top (a :: b :: l) = last l b) by (unfold top; destruct l as [|? l']; [reflexivity|exact (last_default l' _ _ _)]). rewrite T. pose proof (increasing_last b l A2). qclra.
Qed.
Print Assumptions C185_down_refuted.

(** With a single layer the way down is right. *)
Theorem C185_down_partial : forall h src, 0 <= h -> exists ops, legacy_propagate false 1 [h] src = Ok ops /\ never_backwards ops /\ journey (-(1)) h ops = ([(0%Z, h)], 0).
Proof.
  intros h src H. destruct (legacy_down [h] src (conj H I)) as (ops & v & E & NB & J & M & F). exists ops. split; [exact E|]. split; [exact NB|].
  destruct v; [|discriminate]. cbn in J. unfold top in J. cbn in J. rewrite J. f_equal. ring.
Qed.
Print Assumptions C185_down_partial.
Example C185_instance : altitudes [qz 1; qz 4; qz 9] /\ 0 < nth 0 [qz 1; qz 4; qz 9] 0 /\
  legacy_propagate false 3 [qz 1; qz 4; qz 9] 0 = Ok [Screen 2; Travel (qz 9); Screen 1; Travel (qz 3); Screen 0; Travel (qz 5)].
Proof.
  split; [repeat split; vm_compute; first [reflexivity|discriminate]|]. split; [vm_compute; reflexivity|]. vm_compute. repeat (f_equal; try (apply Qc_is_canon; reflexivity)).
Qed.

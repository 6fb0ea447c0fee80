From Coq Require Import Reals Lra Lia.
From Coquelicot Require Import Complex.
From Verif.Base Require Import Vec CSum CSumFacts PyFacts.
From Verif.Model Require Import Sh Science.
From Verif.Spec Require Import ScienceSpec.
From Verif.Proofs Require Import ShProofs.
Open Scope Z_scope.

(** * Sizes *)
Lemma half_lt : (Q2Qc (1 # 2) < 1)%Qc.
Proof. reflexivity. Qed.
Lemma round_nonneg x : (0 < x)%Qc -> 0 <= qc_round x.
Proof.
  intros Hr. destruct (qc_round_near x) as (_ & Q). destruct (Z_lt_le_dec (qc_round x) 0) as [L|]; [|auto]. exfalso.
  assert (A : (qz (qc_round x) <= qz (-1))%Qc) by (apply (proj2 (qz_le _ _)); lia).
  assert (E1 : qz (-1) = (- (1))%Qc) by (apply Qc_is_canon; reflexivity). rewrite E1 in A. pose proof half_lt. qclra.
Qed.
Lemma round_ge x k : (qz k <= x)%Qc -> k <= qc_round x.
Proof.
  intros H. destruct (qc_round_near x) as (_ & Q). destruct (Z_lt_le_dec (qc_round x) k) as [L|]; [|auto]. exfalso.
  assert (A : (qz (qc_round x) <= qz (k - 1))%Qc) by (apply (proj2 (qz_le _ _)); lia).
  rewrite qz_sub, qz_1 in A. pose proof half_lt. qclra.
Qed.
Lemma pad_fov_ge F pupil pad : 0 < pupil < F -> 0 < pad -> F + 2 <= qc_round (qz F * qz (pupil + 2 * pad) / qz pupil)%Qc.
Proof.
  intros Hp Hpad. apply round_ge.
  assert (P0 : (0 < qz pupil)%Qc) by (rewrite <- qz_0; apply (proj2 (qz_lt _ _)); lia).
  apply (Qcmult_lt_0_le_reg_r _ _ (qz pupil)); [exact P0|].
  replace (qz F * qz (pupil + 2 * pad) / qz pupil * qz pupil)%Qc with (qz F * qz (pupil + 2 * pad))%Qc by (field; intros E; rewrite E in P0; discriminate P0).
  rewrite <- !qz_mul. apply (proj2 (qz_le _ _)). nia.
Qed.
Lemma geometry_ok pupil pad nx os ratio fuel g :
  0 < pupil -> 0 < pad -> 0 < nx -> (0 < ratio)%Qc -> sci_geometry pupil (pupil + 2 * pad) nx os ratio fuel = Some (Ok g) ->
  1 <= qc_round ratio /\ g_factor g = 1 + pupil / qc_round ratio /\ g_fov g = qc_round ratio * g_factor g /\ 1 <= g_factor g /\ pupil < g_fov g /\
  g_padfov g - 2 * g_simpad g = g_fov g /\ 0 < g_simpad g /\
  os <= g_os g /\ g_fov g <= nx * g_os g /\ (os < g_os g -> nx * (g_os g - 1) < g_fov g) /\
  g_focus g = nx * g_os g /\ g_fft g = g_focus g * g_factor g /\ g_crop g = (g_fft g - g_focus g) / 2.
Proof.
  intros Hp Hpad Hn Hr H. unfold sci_geometry in H. cbv zeta in H.
  pose proof (round_nonneg ratio Hr) as R0. destruct (Z.eqb_spec (qc_round ratio) 0) as [E|E]; [discriminate|].
  remember (qc_round ratio) as F0 eqn:EF in *. clear EF.
  assert (Q0 : 0 <= pupil / F0) by (apply Z.div_pos; lia). pose proof (Z.div_mod pupil F0 ltac:(lia)) as DM. pose proof (Z.mod_pos_bound pupil F0 ltac:(lia)) as MB.
  remember (1 + pupil / F0) as f eqn:Ef in *.
  assert (HF : pupil < F0 * f) by (subst f; nia).
  remember (F0 * f) as F eqn:EF in *.
  pose proof (pad_fov_ge F pupil pad ltac:(lia) Hpad) as PF.
  remember (qc_round (qz F * qz (pupil + 2 * pad) / qz pupil)%Qc) as p eqn:Ep in *. clear Ep.
  remember (if p mod 2 =? F mod 2 then p else p + 1) as pF eqn:EpF in *.
  assert (PAR : (pF - F) mod 2 = 0 /\ F + 2 <= pF).
  { subst pF. destruct (Z.eqb_spec (p mod 2) (F mod 2)); split; try lia; [|]; rewrite Zminus_mod.
    - rewrite e, Z.sub_diag. reflexivity.
    - rewrite Zplus_mod. pose proof (Z.mod_pos_bound p 2). pose proof (Z.mod_pos_bound F 2). 
      assert (p mod 2 = 0 /\ F mod 2 = 1 \/ p mod 2 = 1 /\ F mod 2 = 0) as [(-> & ->) | (-> & ->)] by lia; reflexivity. }
  destruct (pad_loop nx F fuel os) as [[os' P0]|] eqn:EL; [|discriminate].
  apply pad_loop_spec in EL as (-> & L1 & L2 & L3). apply (f_equal (fun o => match o with Some (Ok x) => x | _ => g end)) in H. cbv beta iota in H. subst g. cbn [g_factor g_fov g_padfov g_simpad g_os g_fft g_crop g_focus].
  destruct PAR as (PAR & PG). pose proof (Z.div_mod (pF - F) 2 ltac:(lia)). 
  assert (1 <= f) by (subst f; lia).
  assert (FQ : nx * os' * f / f = nx * os') by (apply Z.div_mul; lia). rewrite FQ.
  repeat split; try lia.
Qed.
Lemma geometry_err pupil sim nx os ratio fuel e : sci_geometry pupil sim nx os ratio fuel = Some (Err e) -> qc_round ratio = 0 /\ e = ZeroDivisionError.
Proof.
  unfold sci_geometry. cbv zeta. destruct (Z.eqb_spec (qc_round ratio) 0); [intros H; injection H as <-; auto|]. destruct (pad_loop _ _ _ _) as [[? ?]|]; discriminate.
Qed.
Lemma geometry_term pupil sim nx os ratio : 0 < nx -> exists fuel r, sci_geometry pupil sim nx os ratio fuel = Some r.
Proof.
  intros H. destruct (pad_loop_term nx (qc_round ratio * (1 + pupil / qc_round ratio)) H os) as (fuel & [os' P0] & E). exists fuel.
  unfold sci_geometry. cbv zeta. destruct (qc_round ratio =? 0); [eauto|]. rewrite E. eauto.
Qed.
Lemma slot_len P F : slot_end P F - slot_start P F = F.
Proof. unfold slot_end, slot_start. replace (P + F) with (P - F + F * 2) by lia. rewrite Z.div_add by lia. lia. Qed.
Lemma slot_margin P F : F <= P -> 0 <= slot_start P F /\ slot_end P F <= P /\ 0 <= (P - slot_end P F) - slot_start P F <= 1.
Proof.
  intros H. pose proof (slot_len P F). unfold slot_start, slot_end in *. pose proof (Z.div_mod (P - F) 2 ltac:(lia)). pose proof (Z.mod_pos_bound (P - F) 2 ltac:(lia)).
  repeat split; try lia. 
Qed.
Lemma focal_ok g p : g_fft g = g_focus g * g_factor g -> 1 <= g_factor g -> 1 <= g_focus g -> g_crop g = (g_fft g - g_focus g) / 2 -> p = g_focus g ->
  (Z.odd p && Z.even (g_factor g) = false -> focal_check g = Ok p /\ 2 * g_crop g = g_fft g - p) /\
  (Z.odd p && Z.even (g_factor g) = true -> focal_check g = Err ValueError).
Proof.
  intros E1 E2 E3 E4 ->. remember (g_focus g) as p. remember (g_factor g) as f.
  pose proof (Z.div_mod (g_fft g - p) 2 ltac:(lia)) as DM. rewrite <- E4 in DM.
  assert (PAR : (g_fft g - p) mod 2 = if Z.odd p && Z.even f then 1 else 0).
  { rewrite E1. replace (p * f - p) with (p * (f - 1)) by lia. rewrite Zmod_odd, Z.odd_mul, Z.odd_sub, <- (Z.negb_odd f). destruct (Z.odd p), (Z.odd f); reflexivity. }
  unfold focal_check, focal_size, cut_len. rewrite <- Heqp.
  split; intros B; rewrite B in PAR; rewrite PAR in DM.
  - split; [|lia]. destruct (Z.eqb_spec (g_crop g) 0).
    + replace (g_fft g =? p) with true by (symmetry; apply Z.eqb_eq; lia). f_equal; lia.
    + rewrite Z.max_r by nia. replace (g_fft g - 2 * g_crop g =? p) with true by (symmetry; apply Z.eqb_eq; lia). f_equal; lia.
  - assert (p <> g_fft g) by lia. destruct (Z.eqb_spec (g_crop g) 0).
    + replace (g_fft g =? p) with false by (symmetry; apply Z.eqb_neq; lia). reflexivity.
    + rewrite Z.max_r by nia. replace (g_fft g - 2 * g_crop g =? p) with false by (symmetry; apply Z.eqb_neq; lia). reflexivity.
Qed.
Lemma qc_min_cases a b : qc_min a b = a /\ (a <= b)%Qc \/ qc_min a b = b /\ (b <= a)%Qc.
Proof. unfold qc_min. destruct (Qclt_le_dec a b); [left | right]; split; auto; qclra. Qed.

Lemma coord_in pupil pad sim F k : 0 < pupil -> 0 < pad -> sim = pupil + 2 * pad ->
  let x := phase_coord pupil pad sim F k in (0 <= x)%Qc /\ 0 <= qc_int x /\ qc_int x + 1 < sim.
Proof.
  intros Hp Hpad -> x.
  assert (S : (qz 3 <= qz (pupil + 2 * pad))%Qc) by (apply (proj2 (qz_le _ _)); lia).
  assert (C1 : (0 <= qz 3 - qfrac 100001 100000)%Qc) by (vm_compute; discriminate).
  assert (C2 : (1 < qfrac 100001 100000)%Qc) by reflexivity.
  assert (N : (0 <= x)%Qc /\ (x < qz (pupil + 2 * pad) - 1)%Qc).
  { unfold x, phase_coord. set (c := qfrac 100001 100000) in *. clearbody c. set (y := qc_max _ _). assert (0 <= y)%Qc by apply qc_max_r.
    destruct (qc_min_cases y (qz (pupil + 2 * pad) - c)%Qc) as [(-> & A)|(-> & A)]; split; qclra. }
  destruct N as (N1 & N2). split; [exact N1|]. rewrite qc_int_nonneg by exact N1. destruct (qc_floor_spec x) as (F1 & F2). split.
  - assert (-1 < qc_floor x); [|lia]. apply qz_lt. change (qz (-1)) with (- (1))%Qc. qclra.
  - apply qz_lt. rewrite qz_add, qz_1. qclra.
Qed.
Lemma coord_differ pupil pad F k : 0 < pupil -> 1 < pad -> 1 < F -> 0 <= k < F ->
  (phase_coord pupil pad (pupil + 2 * pad) F k - mask_coord pupil pad F k = qz k / qz (F - 1))%Qc.
Proof.
  intros Hp Hpad HF Hk. unfold phase_coord, mask_coord. destruct (Z.eqb_spec F 1); [lia|].
  assert (D0 : (0 < qz (F - 1))%Qc) by (rewrite <- qz_0; apply (proj2 (qz_lt _ _)); lia).
  assert (D : qz (F - 1) <> 0%Qc) by (intros E; rewrite E in D0; discriminate D0).
  assert (A : (0 <= qz k * qz pupil / qz (F - 1) /\ qz k * qz pupil / qz (F - 1) <= qz pupil)%Qc).
  { split; apply (Qcmult_lt_0_le_reg_r _ _ (qz (F - 1)) D0);
      (replace (qz k * qz pupil / qz (F - 1) * qz (F - 1))%Qc with (qz (k * pupil)) by (rewrite qz_mul; field; auto)); rewrite <- ?qz_0, <- ?qz_mul; apply (proj2 (qz_le _ _)); nia. }
  assert (P2 : (qz 2 <= qz pad)%Qc) by (apply (proj2 (qz_le _ _)); lia).
  assert (C2 : (qfrac 100001 100000 <= qz 2)%Qc) by (vm_compute; discriminate). assert (Z2 : (0 <= qz 2)%Qc) by (vm_compute; discriminate).
  set (c := qfrac 100001 100000) in *. clearbody c. 
  assert (E : qz (pupil + 2 * pad) = (qz pupil + qz pad + qz pad)%Qc) by (rewrite <- !qz_add; f_equal; lia).
  set (t := (qz k * qz pupil / qz (F - 1))%Qc) in *.
  assert (M : qc_max (qz pad + t) 0 = (qz pad + t)%Qc).
  { unfold qc_max. destruct (Qclt_le_dec (qz pad + t) 0) as [L|]; auto. exfalso. qclra. }
  rewrite M. destruct (qc_min_cases (qz pad + t)%Qc (qz (pupil + 2 * pad) - c)%Qc) as [(-> & _)|(-> & B)].
  - unfold t. rewrite qz_sub, qz_1 at 1. rewrite qz_sub, qz_1 in D. rewrite !qz_sub, !qz_1. field. auto.
  - assert (B' : (qz pad + t = qz (pupil + 2 * pad) - c)%Qc) by (apply Qcle_antisym; rewrite E in *; qclra).
    rewrite <- B'. unfold t. rewrite !qz_sub, !qz_1. rewrite qz_sub, qz_1 in D. field. auto.
Qed.

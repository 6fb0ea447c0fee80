(** The way of a laser: proofs. *)
From Coq Require Import ZArith List.
From Flocq Require Import Core BinarySingleNaN Relative.
From Verif.Base Require Import Float64.
From Verif.Model Require Import Rounding64 FloatInterp.
From Verif.Spec Require Import FloatLoopSpec FloatInterpSpec.
From Verif.Proofs Require Import FloatLoopProofs RoundingProofs FloatInterpProofs FloatInterpCoords.
From Verif.Model Require Import FloatLos.
From Verif.Spec Require Import FloatLosSpec.
From Verif.Proofs Require Import FloatLosFrame.
From Verif.Model Require Import FloatFootprint.
From Verif.Spec Require Import FloatFootprintSpec.
From Verif.Proofs Require Import FloatFootprintProofs FloatFootprintFrame.
From Coq Require Import Reals Bool Lia Lra.
From Verif.Model Require Import FloatLaunch.
From Verif.Spec Require Import FloatLaunchSpec.
Import ListNotations.
Local Open Scope R_scope.

(** a launch position in metres *)
Lemma launch_ok g theta h G at_ diam : sensible g theta h G -> launched g theta h G at_ diam -> acc 4 (G * B2R (g_pix g)) (launch64 at_ diam) (B2R at_ * B2R diam / 2).
Proof.
  intros HS (Fa & Fd & B1 & B2). pose proof (mGs g theta h G HS) as MG. pose proof (bpow_gt_0 radix2 (-100)) as P100. set (V := G * B2R (g_pix g)) in *.
  assert (MV : medium V) by exact (med _ _ _ MG ltac:(lia) ltac:(lia)).
  destruct (rounded 0 V (B2R at_ * B2R diam) (B2R at_ * B2R diam) MV) as [BV EV]; [lra|exact B2|rewrite Rminus_diag_eq, Rabs_R0 by reflexivity; lra|].
  destruct (mul_correct _ _ Fa Fd BV) as [F E]. rewrite <- E in EV.
  assert (A : acc 2 V (mul64 at_ diam) (B2R at_ * B2R diam)). { split; [exact F|]. split; [exact B2|]. replace 2 with (0 + 2) by ring. exact EV. }
  destruct (ofZ_correct 2) as [F2 E2]; [lia|]. unfold launch64. apply (acc_scale 4 V (2 + 2) (V / 2)); try lra.
  apply acc_div_by; auto; try lra. apply (med (-100 - 1) (200 - 1)); [|lia|lia]. apply mquot; [exact MG|cbn; lra].
Qed.

Section Axis.
  Context (g : geometry64) (theta h G : R) (pos alt launch : b64) (L : R) (HS : sensible g theta h G) (HW : within g theta h pos alt).
  Context (HL : acc 4 (G * B2R (g_pix g)) launch L) (HB : theta * h + Rabs L <= G * B2R (g_pix g)).
  Local Notation s := (B2R (g_pix g)).
  Local Notation n := (g_nout g).
  Local Notation width := (beam g (B2R alt) / B2R (g_pix g)).
  Local Notation axis := (laser_axis g (B2R pos) L (B2R alt)).
  Local Notation middle := (laser_axis g (B2R pos) L (B2R alt) / B2R (g_pix g)).

  Lemma axis_ok : acc 20 (G * s) (up_centre64 g pos launch alt) axis.
  Proof.
    pose proof (mGs g theta h G HS) as MG. destruct HS as (FA & FS & FP & FO & HN & HSc & T & H & P & O & C1 & C2 & C3 & C4). destruct HW as (Fp & Fa & B1 & B2 & B3).
    pose proof (bpow_gt_0 radix2 (-100)) as P100. assert (PG : 0 < G * s) by lra. assert (MV : medium (G * s)) by exact (med _ _ _ MG ltac:(lia) ltac:(lia)).
    assert (AP : acc 3 theta (mul64 (g_asec g) pos) (B2R (g_asec g) * B2R pos)).
    { destruct (rounded 0 theta (B2R (g_asec g) * B2R pos) (B2R (g_asec g) * B2R pos)) as [BV EV]; [exact (med _ _ _ T ltac:(lia) ltac:(lia))|lra|exact B1|rewrite Rminus_diag_eq, Rabs_R0 by reflexivity; lra|].
      destruct (mul_correct _ _ FA Fp BV) as [F E]. split; [exact F|]. split; [exact B1|]. rewrite E. eapply Rle_trans; [exact EV|]. pose proof u_pos. apply Rmult_le_compat_r; [apply Rmult_le_pos; lra|lra]. }
    assert (C0 : acc 6 (theta * h) (mul64 (mul64 (g_asec g) pos) alt) (B2R (g_asec g) * B2R pos * B2R alt)).
    { replace 6 with (3 + 0 + 3) by ring. apply acc_mul; try lra; [exact (med _ _ _ (mprod _ _ _ _ _ _ T H) ltac:(lia) ltac:(lia))|exact AP|]. apply acc_exact; auto. rewrite Rabs_pos_eq; lra. }
    pose proof C0 as (_ & BC & _). assert (C1' : acc 6 (G * s) (mul64 (mul64 (g_asec g) pos) alt) (B2R (g_asec g) * B2R pos * B2R alt)) by (apply (acc_scale 6 (G * s) _ _ _ _ C0); [exact C1|lra]).
    unfold up_centre64, laser_axis. rewrite (nonzero_spec _ FS). destruct (Req_EM_T (B2R (g_src g)) 0) as [Z|N]; cbn [negb].
    - replace (L + B2R alt * (B2R (g_asec g) * B2R pos)) with (B2R (g_asec g) * B2R pos * B2R alt + L) by ring.
      apply (acc_scale 20 (G * s) (6 + 4 + 2) (G * s)); try lra. apply acc_add; auto; try lra. eapply Rle_trans; [apply Rabs_triang|]. lra.
    - assert (Le : B2R alt <= B2R (g_src g)) by (destruct B3 as [B3|B3]; [contradiction|exact B3]). assert (PS : 0 < B2R (g_src g)) by lra.
      assert (Q : 0 <= B2R alt / B2R (g_src g) <= 1).
      { split; [apply Rmult_le_pos; [lra|apply Rlt_le, Rinv_0_lt_compat; lra]|]. apply Rmult_le_reg_r with (B2R (g_src g)); [lra|]. unfold Rdiv. rewrite Rmult_assoc, Rinv_l; lra. }
      assert (M1 : medium 1) by (apply (med 0 0); [cbn; lra|lia|lia]).
      assert (A1 : acc 2 1 (div64 alt (g_src g)) (B2R alt / B2R (g_src g))).
      { replace 1 with (B2R (g_src g) / B2R (g_src g)) by (field; lra). replace 2 with (0 + 2) by ring. apply acc_div; [|exact PS|lra|].
        - replace (B2R (g_src g) / B2R (g_src g)) with 1 by (field; lra). exact M1.
        - apply acc_exact; auto. rewrite Rabs_pos_eq; lra. }
      destruct (ofZ_correct 1) as [F1 E1]; [lia|].
      assert (A2 : acc 4 1 (sub64 (ofZ64 1) (div64 alt (g_src g))) (1 - B2R alt / B2R (g_src g))).
      { replace 4 with (0 + 2 + 2) by ring. apply acc_sub; auto; try lra; [apply acc_exact; auto; rewrite Rabs_pos_eq; lra|]. rewrite Rabs_pos_eq; lra. }
      assert (A3 : acc 11 (G * s) (mul64 launch (sub64 (ofZ64 1) (div64 alt (g_src g)))) (L * (1 - B2R alt / B2R (g_src g)))).
      { replace (G * s) with (G * s * 1) by ring. replace 11 with (4 + 4 + 3) by ring. apply acc_mul; auto; try lra. rewrite Rmult_1_r. exact MV. }
      cbv zeta. replace (L + B2R alt / B2R (g_src g) * (B2R (g_src g) * (B2R (g_asec g) * B2R pos) - L)) with (B2R (g_asec g) * B2R pos * B2R alt + L * (1 - B2R alt / B2R (g_src g))) by (field; lra).
      apply (acc_scale 20 (G * s) (6 + 11 + 2) (G * s)); try lra. apply acc_add; auto; try lra.
      eapply Rle_trans; [apply Rabs_triang|]. rewrite (Rabs_mult L). rewrite (Rabs_pos_eq (1 - _)) by lra.
      assert (Rabs L * (1 - B2R alt / B2R (g_src g)) <= Rabs L * 1) by (apply Rmult_le_compat_l; [apply Rabs_pos|lra]). lra.
  Qed.
  Lemma laser_ends : acc 19 (2 * G) (up_low64 g pos launch alt) (middle + IZR (g_scrn g) / 2 - width / 2) /\ acc 19 (2 * G) (up_high64 g pos launch alt) (middle + IZR (g_scrn g) / 2 + width / 2) /\
    0 <= width <= G.
  Proof.
    destruct (size_ok g theta h G pos alt HS HW) as [SZ ZP]. pose proof (mGs g theta h G HS) as MG. destruct HS as (FA & FS & FP & FO & HN & HSc & T & H & P & O & C1 & C2 & C3 & C4). destruct HW as (Fp & Fa & B1 & B2 & B3).
    pose proof (bpow_gt_0 radix2 (-100)) as P100. assert (PG : 0 < G * s) by lra. assert (Ps : 0 < s) by lra.
    pose proof axis_ok as CE.
    destruct (ofZ_correct 2) as [F2 E2]; [lia|].
    assert (HA : acc 6 (G * s) (div64 (size64 g alt) (ofZ64 2)) (beam g (B2R alt) / 2)).
    { apply (acc_scale 6 (G * s) (10 + 2) (G * s / 2)); try lra. apply acc_div_by; auto; try lra.
      apply (med (-100 - 1) (200 - 1)); [|lia|lia]. apply mquot; [exact MG|cbn; lra]. }
    pose proof CE as (_ & BC & _). pose proof SZ as (_ & BS & _). rewrite (Rabs_pos_eq _ ZP) in BS. apply Rabs_le_inv in BC.
    pose proof (mtwice _ _ _ 2 MG ltac:(lra)) as M2. assert (MM : medium (2 * (G * s))) by exact (med _ _ _ M2 ltac:(lia) ltac:(lia)).
    assert (C' : acc 10 (2 * (G * s)) (up_centre64 g pos launch alt) (axis)) by (apply (acc_scale _ _ _ _ _ _ CE); lra).
    assert (H' : acc 3 (2 * (G * s)) (div64 (size64 g alt) (ofZ64 2)) (beam g (B2R alt) / 2)) by (apply (acc_scale _ _ _ _ _ _ HA); lra).
    assert (MG2 : medium (2 * G)). { apply (med 0 102); [|lia|lia]. apply (mtwice 0 100 G 2); [cbn in *; lra|lra]. }
    assert (Q : 2 * (G * s) / s = 2 * G) by (field; lra).
    assert (HN2 : acc 0 (2 * G) (div64 (ofZ64 (g_scrn g)) (ofZ64 2)) (IZR (g_scrn g) / 2)).
    { destruct (ofZ_correct (g_scrn g)) as [FN EN]; [lia|]. assert (P0 : 0 <= IZR (g_scrn g)) by (apply IZR_le; lia). assert (PL : IZR (g_scrn g) <= bpow radix2 20) by (change (bpow radix2 20) with (IZR (2 ^ 20)); apply IZR_le; lia).
      assert (B20 : bpow radix2 20 <= bpow radix2 1000) by (apply bpow_le; lia).
      destruct (div_correct (ofZ64 (g_scrn g)) (ofZ64 2) FN) as [F E]; [rewrite E2; lra|rewrite EN, E2, Rabs_pos_eq; lra|].
      apply acc_exact; [exact F| |rewrite Rabs_pos_eq; lra]. rewrite E, EN, E2. apply rnd_rep. apply rep_half. lia. }
    assert (K : forall z X, acc 15 (2 * (G * s)) z X -> Rabs (X / s) <= 3 / 2 * G -> acc 19 (2 * G) (add64 (div64 z (g_pix g)) (div64 (ofZ64 (g_scrn g)) (ofZ64 2))) (X / s + IZR (g_scrn g) / 2)).
    { intros z X A B. replace 19 with (17 + 0 + 2) by ring. apply acc_add; auto; try lra.
      - rewrite <- Q. replace 17 with (15 + 2) by ring. apply acc_div; auto; [rewrite Q; exact MG2|lra].
      - assert (P0 : 0 <= IZR (g_scrn g)) by (apply IZR_le; lia). apply Rabs_le_inv in B. apply Rabs_le. lra. }
    assert (BM : - G <= middle <= G).
    { split; apply Rmult_le_reg_r with s; auto; unfold Rdiv; rewrite Rmult_assoc, Rinv_l by lra; lra. }
    assert (BW : 0 <= width <= G).
    { split; apply Rmult_le_reg_r with s; auto; unfold Rdiv; rewrite Rmult_assoc, Rinv_l by lra; lra. }
    split; [|split; [|exact BW]].
    - replace (middle + IZR (g_scrn g) / 2 - width / 2) with ((axis - beam g (B2R alt) / 2) / s + IZR (g_scrn g) / 2) by (field; lra). apply K.
      + replace 15 with (10 + 3 + 2) by ring. apply acc_sub; auto; try lra. apply Rabs_le. lra.
      + replace ((axis - beam g (B2R alt) / 2) / s) with (middle - width / 2) by (field; lra). apply Rabs_le. lra.
    - replace (middle + IZR (g_scrn g) / 2 + width / 2) with ((axis + beam g (B2R alt) / 2) / s + IZR (g_scrn g) / 2) by (field; lra). apply K.
      + replace 15 with (10 + 3 + 2) by ring. apply acc_add; auto; try lra. apply Rabs_le. lra.
      + replace ((axis + beam g (B2R alt) / 2) / s) with (middle + width / 2) by (field; lra). apply Rabs_le. lra.
  Qed.
  Lemma laser_ok k : (0 <= k < n)%Z -> is_finite (up_footprint64 g pos launch alt k) = true /\ Rabs (B2R (up_footprint64 g pos launch alt k) - laser_footprint g (B2R pos) L (B2R alt) k) <= 150 * unit_roundoff * G.
  Proof.
    intro HK. destruct laser_ends as (A & B & BW). destruct HS as (_ & _ & _ & _ & HN & _ & _ & _ & _ & _ & _ & _ & _ & C4).
    assert (MG : bpow radix2 0 <= G <= bpow radix2 100) by (cbn in *; lra).
    assert (M2 : bpow radix2 0 <= 2 * G <= bpow radix2 102) by (apply (mtwice 0 100); [exact MG|lra]).
    assert (M3 : medium (3 * G)). { apply (med 0 102); [|lia|lia]. apply (mtwice 0 100); [exact MG|lra]. }
    assert (M4 : medium (4 * G)). { apply (med 0 102); [|lia|lia]. apply (mtwice 0 100); [exact MG|lra]. }
    assert (M2' : medium (2 * G)) by (apply (med 0 102); auto; lia).
    destruct (ofZ_correct 1) as [F1 E1]; [lia|]. set (a := middle + IZR (g_scrn g) / 2 - width / 2) in *. set (b := middle + IZR (g_scrn g) / 2 + width / 2) in *.
    assert (AB : b - a = width) by (unfold a, b; lra). pose proof A as (FA & BA & _). pose proof B as (_ & BB & _). apply Rabs_le_inv in BA, BB.
    assert (ST : acc 15 (3 * G) (sub64 (up_high64 g pos launch alt) (ofZ64 1)) (b - 1)).
    { replace 15 with (13 + 0 + 2) by ring. apply acc_sub; auto; try lra; [apply (acc_scale _ _ _ _ _ _ B); lra|apply acc_exact; auto; rewrite Rabs_pos_eq; lra|apply Rabs_le; lra]. }
    assert (DE : acc 44 (2 * G) (sub64 (sub64 (up_high64 g pos launch alt) (ofZ64 1)) (up_low64 g pos launch alt)) (b - 1 - a)).
    { destruct ST as (FS & BS & ES). destruct A as (_ & BA' & EA).
      destruct (rounded 42 (2 * G) (B2R (sub64 (up_high64 g pos launch alt) (ofZ64 1)) - B2R (up_low64 g pos launch alt)) (b - 1 - a) M2') as [BV EV]; [lra|apply Rabs_le; lra| |].
      { match goal with |- Rabs (?x - ?y - _) <= _ => replace (x - y - (b - 1 - a)) with ((x - (b - 1)) - (y - a)) by ring end. unfold Rminus at 1. eapply Rle_trans; [apply Rabs_triang|]. rewrite Rabs_Ropp. pose proof u_pos. assert (0 <= unit_roundoff * G) by (apply Rmult_le_pos; lra). lra. }
      destruct (sub_correct _ _ FS FA BV) as [F E]. split; [exact F|]. split; [apply Rabs_le; lra|]. rewrite E. replace 44 with (42 + 2) by ring. exact EV. }
    assert (X : laser_footprint g (B2R pos) L (B2R alt) k = a + IZR k * ((b - 1 - a) / IZR (n - 1))).
    { unfold laser_footprint. cbv zeta. fold a. replace (b - 1 - a) with (width - 1) by lra. reflexivity. }
    rewrite X. unfold up_footprint64, linspace64. cbv zeta. pose proof u_pos as U. assert (UG : 0 < unit_roundoff * G) by (apply Rmult_lt_0_compat; lra).
    destruct (k =? n - 1)%Z eqn:K.
    - apply Z.eqb_eq in K. destruct ST as (F & _ & E). split; [exact F|]. subst k. assert (0 < IZR (n - 1)) by (apply IZR_lt; lia). replace (a + IZR (n - 1) * ((b - 1 - a) / IZR (n - 1))) with (b - 1) by (field; lra). lra.
    - apply Z.eqb_neq in K. destruct (ofZ_correct (n - 1)) as [FN EN]; [lia|]. destruct (ofZ_correct k) as [FK EK]; [lia|].
      assert (PN : 1 <= IZR (n - 1)) by (apply IZR_le; lia). pose proof (mZ (n - 1) ltac:(lia)) as MN. assert (PK : 0 <= IZR k <= IZR (n - 1)) by (split; apply IZR_le; lia).
      set (D := b - 1 - a) in *. set (delta := sub64 (sub64 (up_high64 g pos launch alt) (ofZ64 1)) (up_low64 g pos launch alt)) in *. pose proof DE as (FD & BD & _). apply Rabs_le_inv in BD.
      assert (STEP : acc 46 (2 * G / IZR (n - 1)) (div64 delta (ofZ64 (n - 1))) (D / IZR (n - 1))).
      { replace 46 with (44 + 2) by ring. apply acc_div_by; auto; try lra. exact (med _ _ _ (mquot _ _ _ _ _ _ M2 MN) ltac:(lia) ltac:(lia)). }
      assert (INC : acc 49 (2 * G) (if nonzero64 (div64 delta (ofZ64 (n - 1))) then mul64 (ofZ64 k) (div64 delta (ofZ64 (n - 1))) else mul64 (div64 (ofZ64 k) (ofZ64 (n - 1))) delta) (IZR k * (D / IZR (n - 1)))).
      { destruct (nonzero64 _).
        - replace (2 * G) with (IZR (n - 1) * (2 * G / IZR (n - 1))) by (field; lra). replace 49 with (0 + 46 + 3) by ring.
          apply acc_mul; try lra; [|apply Rmult_lt_0_compat; [lra|apply Rinv_0_lt_compat; lra]|apply acc_exact; auto; rewrite Rabs_pos_eq; lra|exact STEP].
          replace (IZR (n - 1) * (2 * G / IZR (n - 1))) with (2 * G) by (field; lra). exact M2'.
        - replace (IZR k * (D / IZR (n - 1))) with (IZR k / IZR (n - 1) * D) by (field; lra). replace (2 * G) with (1 * (2 * G)) by ring. replace 49 with (2 + 44 + 3) by ring.
          apply acc_mul; try lra; [rewrite Rmult_1_l; exact M2'| |exact DE]. assert (M1 : medium 1) by (apply (med 0 0); [cbn; lra|lia|lia]).
          replace 1 with (IZR (n - 1) / IZR (n - 1)) at 1 by (field; lra). replace 2 with (0 + 2) by ring. apply acc_div_by; auto; try lra.
          + replace (IZR (n - 1) / IZR (n - 1)) with 1 by (field; lra). exact M1.
          + apply acc_exact; auto. rewrite Rabs_pos_eq; lra. }
      pose proof INC as (FI & BI & EI). apply Rabs_le_inv in BI. destruct A as (_ & BA' & EA). 
      match goal with |- is_finite (add64 ?x ?y) = true /\ _ => destruct (rounded 34 (4 * G) (B2R x + B2R y) (a + IZR k * (D / IZR (n - 1))) M4) as [BV EV] end; [lra|apply Rabs_le; lra| |].
      { match goal with |- Rabs (?x + ?y - (a + ?z)) <= _ => replace (x + y - (a + z)) with ((x - z) + (y - a)) by ring end. eapply Rle_trans; [apply Rabs_triang|]. lra. }
      destruct (add_correct _ _ FI FA BV) as [F E]. split; [exact F|]. rewrite E. eapply Rle_trans; [exact EV|]. lra.
  Qed.
End Axis.

Lemma laser_cross_ok g theta h G posx posy ax ay diam p q l As : sensible g theta h G -> launched g theta h G ax diam -> launched g theta h G ay diam -> (0 <= p < g_nout g)%Z -> (0 <= q < g_nout g)%Z -> fine g theta h posx posy l As ->
  moderate (up_cross64 g posx posy (launch64 ax diam) (launch64 ay diam) p q l) As /\ Rabs (total_seen (up_cross64 g posx posy (launch64 ax diam) (launch64 ay diam) p q l) - laser_seen g (B2R posx) (B2R posy) (B2R ax * B2R diam / 2) (B2R ay * B2R diam / 2) p q l) <= 600 * unit_roundoff * G * total As.
Proof.
  intros S LX0 LY0 HP HQ H. pose proof (launch_ok _ _ _ _ _ _ S LX0) as AX. pose proof (launch_ok _ _ _ _ _ _ S LY0) as AY. destruct LX0 as (_ & _ & BX0 & _). destruct LY0 as (_ & _ & BY0 & _). induction H as [|[a alt] A l As (HF & HA & WX & WY) H (IM & IE)]; cbn [fst snd] in *.
  - split; [constructor|]. cbn. rewrite Rminus_diag_eq, Rabs_R0 by reflexivity. lra.
  - destruct (laser_ok g theta h G posx alt _ _ S WX AX BX0 p HP) as [FX EX]. destruct (laser_ok g theta h G posy alt _ _ S WY AY BY0 q HQ) as [FY EY]. split.
    + constructor; [|exact IM]. cbn. auto.
    + unfold laser_seen in IE |- *. unfold total_seen in IE |- *. cbn [up_cross64 map fold_right total fst snd] in IE |- *.
      fold (up_cross64 g posx posy (launch64 ax diam) (launch64 ay diam) p q l). set (r := fold_right Rplus 0 (map seen (up_cross64 g posx posy (launch64 ax diam) (launch64 ay diam) p q l))) in *. match type of IE with Rabs (r - ?e) <= _ => set (r' := e) in * end.
      unfold seen. cbn [cr_screen cr_x cr_y]. destruct HF as [F1 F2].
      destruct (nearest_lip (fa_rows a) (B2R (up_footprint64 g posx (launch64 ax diam) alt p)) (laser_footprint g (B2R posx) (B2R ax * B2R diam / 2) (B2R alt) p)) as [NX LX]; [lia|].
      destruct (nearest_lip (fa_rows a) (laser_footprint g (B2R posx) (B2R ax * B2R diam / 2) (B2R alt) p) 0) as [NX' _]; [lia|].
      destruct (nearest_lip (fa_cols a) (B2R (up_footprint64 g posy (launch64 ay diam) alt q)) (laser_footprint g (B2R posy) (B2R ay * B2R diam / 2) (B2R alt) q)) as [NY LY]; [lia|].
      destruct (nearest_lip (fa_cols a) (laser_footprint g (B2R posy) (B2R ay * B2R diam / 2) (B2R alt) q) 0) as [NY' _]; [lia|].
      pose proof (bilinear_lip (fa_rows a) (fa_cols a) (numbers a) A _ _ _ _ (fun i j Hi Hj => proj2 (HA i j Hi Hj)) NX' NX NY' NY) as L.
      assert (PA : 0 <= A). { destruct (HA 0%Z 0%Z) as [_ Q]; try lia. eapply Rle_trans; [apply Rabs_pos|exact Q]. }
      match goal with |- Rabs (?u + r - (?v + r')) <= _ => replace (u + r - (v + r')) with ((u - v) + (r - r')) by ring; set (d := u - v) in * end.
      eapply Rle_trans; [apply Rabs_triang|]. fold (total As). 
      assert (L2 : Rabs d <= 2 * A * (300 * unit_roundoff * G)). { eapply Rle_trans; [exact L|]. apply Rmult_le_compat_l; lra. }
      lra.
Qed.

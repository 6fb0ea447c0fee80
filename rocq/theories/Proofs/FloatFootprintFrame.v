(** Footprints are where they should be. *)
From Coq Require Import ZArith List.
From Flocq Require Import Core BinarySingleNaN Relative.
From Verif.Base Require Import Float64.
From Verif.Model Require Import Rounding64 FloatInterp.
From Verif.Spec Require Import FloatLoopSpec FloatInterpSpec.
From Verif.Proofs Require Import FloatLoopProofs RoundingProofs FloatInterpProofs FloatInterpCoords.
From Verif.Model Require Import FloatLos.
From Verif.Spec Require Import FloatLosSpec.
From Verif.Proofs Require Import FloatLosFrame.
From Verif.Model Require Import FloatFootprint.
From Verif.Spec Require Import FloatFootprintSpec.
From Verif.Proofs Require Import FloatFootprintProofs.
From Coq Require Import Reals Bool Lia Lra.
Import ListNotations.
Local Open Scope R_scope.

Lemma mprod a b c d X Y : bpow radix2 a <= X <= bpow radix2 b -> bpow radix2 c <= Y <= bpow radix2 d -> bpow radix2 (a + c) <= X * Y <= bpow radix2 (b + d).
Proof.
  intros [A B] [C D]. pose proof (bpow_gt_0 radix2 a). pose proof (bpow_gt_0 radix2 c). rewrite !bpow_plus. split; apply Rmult_le_compat; lra.
Qed.
Lemma mquot a b c d X Y : bpow radix2 a <= X <= bpow radix2 b -> bpow radix2 c <= Y <= bpow radix2 d -> bpow radix2 (a - d) <= X / Y <= bpow radix2 (b - c).
Proof.
  intros HX [C D]. pose proof (bpow_gt_0 radix2 c). unfold Zminus, Rdiv. apply mprod; [exact HX|]. rewrite !bpow_opp. split; apply Rinv_le; lra.
Qed.
Lemma med a b X : bpow radix2 a <= X <= bpow radix2 b -> (-500 <= a)%Z -> (b <= 500)%Z -> medium X.
Proof. intros [A B] HA HB. apply (bpow_le radix2) in HA, HB. split; lra. Qed.
Lemma mZ n : (1 <= n <= 2 ^ 20)%Z -> bpow radix2 0 <= IZR n <= bpow radix2 20.
Proof. intro H. change (bpow radix2 0) with 1. change (bpow radix2 20) with (IZR (2 ^ 20)). split; apply IZR_le; lia. Qed.
Lemma mtwice a b X k : bpow radix2 a <= X <= bpow radix2 b -> 1 <= k <= 4 -> bpow radix2 a <= k * X <= bpow radix2 (b + 2).
Proof. intros [A B] K. pose proof (bpow_gt_0 radix2 a). rewrite bpow_plus. change (bpow radix2 2) with 4. assert (1 * X <= k * X <= 4 * X) by (split; apply Rmult_le_compat_r; lra). lra. Qed.

Section Axis.
  Context (g : geometry64) (theta h G : R) (pos alt : b64) (HS : sensible g theta h G) (HW : within g theta h pos alt).
  Local Notation s := (B2R (g_pix g)).
  Local Notation n := (g_nout g).
  Local Notation width := (beam g (B2R alt) / B2R (g_pix g)).
  Local Notation middle := (B2R (g_asec g) * B2R pos * B2R alt / B2R (g_pix g)).

  Lemma size_ok : acc 10 (G * s) (size64 g alt) (beam g (B2R alt)) /\ 0 <= beam g (B2R alt).
  Proof.
    destruct HS as (FA & FS & FP & FO & HN & HSc & T & H & P & O & C1 & C2 & C3 & C4). destruct HW as (Fp & Fa & B1 & B2 & B3).
    destruct (ofZ_correct n) as [FN EN]; [lia|]. pose proof (mZ n ltac:(lia)) as MN. pose proof (mprod _ _ _ _ _ _ MN O) as MNO.
    assert (PO : 0 < B2R (g_opix g)) by (pose proof (bpow_gt_0 radix2 (-100)); lra). assert (PN : 0 < IZR n) by (apply IZR_lt; lia).
    assert (PNO : 0 < IZR n * B2R (g_opix g)) by (apply Rmult_lt_0_compat; assumption).
    assert (D : acc 3 (IZR n * B2R (g_opix g)) (mul64 (ofZ64 n) (g_opix g)) (IZR n * B2R (g_opix g))).
    { replace 3 with (0 + 0 + 3) by ring. apply acc_mul; try lra; [exact (med _ _ _ MNO ltac:(lia) ltac:(lia))| |]; apply acc_exact; auto; rewrite Rabs_pos_eq; lra. }
    unfold size64, beam. cbv zeta. rewrite (nonzero_spec _ FS). destruct (Req_EM_T (B2R (g_src g)) 0) as [Z|N]; cbn [negb].
    - split; [|lra]. rewrite Rmult_1_r. apply (acc_scale 10 (G * s) _ _ _ _ D); [exact C2|]. lra.
    - assert (L : B2R alt <= B2R (g_src g)) by (destruct B3 as [B3|B3]; [contradiction|exact B3]). assert (PS : 0 < B2R (g_src g)) by lra.
      assert (Q : 0 <= B2R alt / B2R (g_src g) <= 1).
      { split; [apply Rmult_le_pos; [lra|apply Rlt_le, Rinv_0_lt_compat; lra]|]. apply Rmult_le_reg_r with (B2R (g_src g)); [lra|]. unfold Rdiv. rewrite Rmult_assoc, Rinv_l; lra. }
      assert (M1 : medium 1) by (apply (med 0 0); [cbn; lra|lia|lia]).
      assert (A1 : acc 2 1 (div64 alt (g_src g)) (B2R alt / B2R (g_src g))).
      { replace 1 with (B2R (g_src g) / B2R (g_src g)) by (field; lra). replace 2 with (0 + 2) by ring. apply acc_div; [|exact PS|lra|].
        - replace (B2R (g_src g) / B2R (g_src g)) with 1 by (field; lra). exact M1.
        - apply acc_exact; auto. rewrite Rabs_pos_eq; lra. }
      destruct (ofZ_correct 1) as [F1 E1]; [lia|].
      assert (A2 : acc 4 1 (sub64 (ofZ64 1) (div64 alt (g_src g))) (1 - B2R alt / B2R (g_src g))).
      { replace 4 with (0 + 2 + 2) by ring. apply acc_sub; auto; try lra; [apply acc_exact; auto; rewrite Rabs_pos_eq; lra|]. rewrite Rabs_pos_eq; lra. }
      split; [|apply Rmult_le_pos; lra]. apply (acc_scale 10 (G * s) 10 (IZR n * B2R (g_opix g) * 1)); [|lra|lra].
      replace 10 with (3 + 4 + 3) at 1 by ring. apply acc_mul; auto; try lra. rewrite Rmult_1_r. exact (med _ _ _ MNO ltac:(lia) ltac:(lia)).
  Qed.
  Lemma mGs : bpow radix2 (-100) <= G * s <= bpow radix2 200.
  Proof.
    destruct HS as (_ & _ & _ & _ & _ & _ & _ & _ & P & _ & _ & _ & _ & C4). change (-100)%Z with (0 + -100)%Z. change 200%Z with (100 + 100)%Z. apply mprod; [cbn in *; lra|exact P].
  Qed.
  Lemma ends_ok : acc 12 (2 * G) (low64 g pos alt) (middle + IZR (g_scrn g) / 2 - width / 2) /\ acc 12 (2 * G) (high64 g pos alt) (middle + IZR (g_scrn g) / 2 + width / 2) /\
    0 <= width <= G.
  Proof.
    destruct size_ok as [SZ ZP]. pose proof mGs as MG. destruct HS as (FA & FS & FP & FO & HN & HSc & T & H & P & O & C1 & C2 & C3 & C4). destruct HW as (Fp & Fa & B1 & B2 & B3).
    pose proof (bpow_gt_0 radix2 (-100)) as P100. assert (PG : 0 < G * s) by lra. assert (Ps : 0 < s) by lra.
    assert (AP : acc 3 theta (mul64 (g_asec g) pos) (B2R (g_asec g) * B2R pos)).
    { destruct (rounded 0 theta (B2R (g_asec g) * B2R pos) (B2R (g_asec g) * B2R pos)) as [BV EV]; [exact (med _ _ _ T ltac:(lia) ltac:(lia))|lra|exact B1|rewrite Rminus_diag_eq, Rabs_R0 by reflexivity; lra|].
      destruct (mul_correct _ _ FA Fp BV) as [F E]. split; [exact F|]. split; [exact B1|]. rewrite E. eapply Rle_trans; [exact EV|]. pose proof u_pos. apply Rmult_le_compat_r; [apply Rmult_le_pos; lra|lra]. }
    assert (CE : acc 6 (G * s) (centre64 g pos alt) (B2R (g_asec g) * B2R pos * B2R alt)).
    { apply (acc_scale 6 (G * s) 6 (theta * h)); [|exact C1|lra]. unfold centre64. replace 6 with (3 + 0 + 3) by ring.
      apply acc_mul; try lra; [exact (med _ _ _ (mprod _ _ _ _ _ _ T H) ltac:(lia) ltac:(lia))|exact AP|]. apply acc_exact; auto. rewrite Rabs_pos_eq; lra. }
    destruct (ofZ_correct 2) as [F2 E2]; [lia|].
    assert (HA : acc 6 (G * s) (div64 (size64 g alt) (ofZ64 2)) (beam g (B2R alt) / 2)).
    { apply (acc_scale 6 (G * s) (10 + 2) (G * s / 2)); try lra. apply acc_div_by; auto; try lra.
      apply (med (-100 - 1) (200 - 1)); [|lia|lia]. apply mquot; [exact MG|cbn; lra]. }
    pose proof CE as (_ & BC & _). pose proof SZ as (_ & BS & _). rewrite (Rabs_pos_eq _ ZP) in BS. apply Rabs_le_inv in BC.
    pose proof (mtwice _ _ _ 2 MG ltac:(lra)) as M2. assert (MM : medium (2 * (G * s))) by exact (med _ _ _ M2 ltac:(lia) ltac:(lia)).
    assert (C' : acc 3 (2 * (G * s)) (centre64 g pos alt) (B2R (g_asec g) * B2R pos * B2R alt)) by (apply (acc_scale _ _ _ _ _ _ CE); lra).
    assert (H' : acc 3 (2 * (G * s)) (div64 (size64 g alt) (ofZ64 2)) (beam g (B2R alt) / 2)) by (apply (acc_scale _ _ _ _ _ _ HA); lra).
    assert (MG2 : medium (2 * G)). { apply (med 0 102); [|lia|lia]. apply (mtwice 0 100 G 2); [cbn in *; lra|lra]. }
    assert (Q : 2 * (G * s) / s = 2 * G) by (field; lra).
    assert (HN2 : acc 0 (2 * G) (div64 (ofZ64 (g_scrn g)) (ofZ64 2)) (IZR (g_scrn g) / 2)).
    { destruct (ofZ_correct (g_scrn g)) as [FN EN]; [lia|]. assert (P0 : 0 <= IZR (g_scrn g)) by (apply IZR_le; lia). assert (PL : IZR (g_scrn g) <= bpow radix2 20) by (change (bpow radix2 20) with (IZR (2 ^ 20)); apply IZR_le; lia).
      assert (B20 : bpow radix2 20 <= bpow radix2 1000) by (apply bpow_le; lia).
      destruct (div_correct (ofZ64 (g_scrn g)) (ofZ64 2) FN) as [F E]; [rewrite E2; lra|rewrite EN, E2, Rabs_pos_eq; lra|].
      apply acc_exact; [exact F| |rewrite Rabs_pos_eq; lra]. rewrite E, EN, E2. apply rnd_rep. apply rep_half. lia. }
    assert (K : forall z X, acc 8 (2 * (G * s)) z X -> Rabs (X / s) <= 3 / 2 * G -> acc 12 (2 * G) (add64 (div64 z (g_pix g)) (div64 (ofZ64 (g_scrn g)) (ofZ64 2))) (X / s + IZR (g_scrn g) / 2)).
    { intros z X A B. replace 12 with (10 + 0 + 2) by ring. apply acc_add; auto; try lra.
      - rewrite <- Q. replace 10 with (8 + 2) by ring. apply acc_div; auto; [rewrite Q; exact MG2|lra].
      - assert (P0 : 0 <= IZR (g_scrn g)) by (apply IZR_le; lia). apply Rabs_le_inv in B. apply Rabs_le. lra. }
    assert (BM : - G <= middle <= G).
    { split; apply Rmult_le_reg_r with s; auto; unfold Rdiv; rewrite Rmult_assoc, Rinv_l by lra; lra. }
    assert (BW : 0 <= width <= G).
    { split; apply Rmult_le_reg_r with s; auto; unfold Rdiv; rewrite Rmult_assoc, Rinv_l by lra; lra. }
    split; [|split; [|exact BW]].
    - replace (middle + IZR (g_scrn g) / 2 - width / 2) with ((B2R (g_asec g) * B2R pos * B2R alt - beam g (B2R alt) / 2) / s + IZR (g_scrn g) / 2) by (field; lra). apply K.
      + replace 8 with (3 + 3 + 2) by ring. apply acc_sub; auto; try lra. apply Rabs_le. lra.
      + replace ((B2R (g_asec g) * B2R pos * B2R alt - beam g (B2R alt) / 2) / s) with (middle - width / 2) by (field; lra). apply Rabs_le. lra.
    - replace (middle + IZR (g_scrn g) / 2 + width / 2) with ((B2R (g_asec g) * B2R pos * B2R alt + beam g (B2R alt) / 2) / s + IZR (g_scrn g) / 2) by (field; lra). apply K.
      + replace 8 with (3 + 3 + 2) by ring. apply acc_add; auto; try lra. apply Rabs_le. lra.
      + replace ((B2R (g_asec g) * B2R pos * B2R alt + beam g (B2R alt) / 2) / s) with (middle + width / 2) by (field; lra). apply Rabs_le. lra.
  Qed.
  Lemma footprint_ok k : (0 <= k < n)%Z -> is_finite (footprint64 g pos alt k) = true /\ Rabs (B2R (footprint64 g pos alt k) - footprint g (B2R pos) (B2R alt) k) <= 100 * unit_roundoff * G.
  Proof.
    intro HK. destruct ends_ok as (A & B & BW). destruct HS as (_ & _ & _ & _ & HN & _ & _ & _ & _ & _ & _ & _ & _ & C4).
    assert (MG : bpow radix2 0 <= G <= bpow radix2 100) by (cbn in *; lra).
    assert (M2 : bpow radix2 0 <= 2 * G <= bpow radix2 102) by (apply (mtwice 0 100); [exact MG|lra]).
    assert (M3 : medium (3 * G)). { apply (med 0 102); [|lia|lia]. apply (mtwice 0 100); [exact MG|lra]. }
    assert (M4 : medium (4 * G)). { apply (med 0 102); [|lia|lia]. apply (mtwice 0 100); [exact MG|lra]. }
    assert (M2' : medium (2 * G)) by (apply (med 0 102); auto; lia).
    destruct (ofZ_correct 1) as [F1 E1]; [lia|]. set (a := middle + IZR (g_scrn g) / 2 - width / 2) in *. set (b := middle + IZR (g_scrn g) / 2 + width / 2) in *.
    assert (AB : b - a = width) by (unfold a, b; lra). pose proof A as (FA & BA & _). pose proof B as (_ & BB & _). apply Rabs_le_inv in BA, BB.
    assert (ST : acc 10 (3 * G) (sub64 (high64 g pos alt) (ofZ64 1)) (b - 1)).
    { replace 10 with (8 + 0 + 2) by ring. apply acc_sub; auto; try lra; [apply (acc_scale _ _ _ _ _ _ B); lra|apply acc_exact; auto; rewrite Rabs_pos_eq; lra|apply Rabs_le; lra]. }
    assert (DE : acc 29 (2 * G) (sub64 (sub64 (high64 g pos alt) (ofZ64 1)) (low64 g pos alt)) (b - 1 - a)).
    { destruct ST as (FS & BS & ES). destruct A as (_ & BA' & EA).
      destruct (rounded 27 (2 * G) (B2R (sub64 (high64 g pos alt) (ofZ64 1)) - B2R (low64 g pos alt)) (b - 1 - a) M2') as [BV EV]; [lra|apply Rabs_le; lra| |].
      { match goal with |- Rabs (?x - ?y - _) <= _ => replace (x - y - (b - 1 - a)) with ((x - (b - 1)) - (y - a)) by ring end. unfold Rminus at 1. eapply Rle_trans; [apply Rabs_triang|]. rewrite Rabs_Ropp. pose proof u_pos. lra. }
      destruct (sub_correct _ _ FS FA BV) as [F E]. split; [exact F|]. split; [apply Rabs_le; lra|]. rewrite E. replace 29 with (27 + 2) by ring. exact EV. }
    assert (X : footprint g (B2R pos) (B2R alt) k = a + IZR k * ((b - 1 - a) / IZR (n - 1))).
    { unfold footprint. cbv zeta. fold a. replace (b - 1 - a) with (width - 1) by lra. reflexivity. }
    rewrite X. unfold footprint64, linspace64. cbv zeta. pose proof u_pos as U. assert (UG : 0 < unit_roundoff * G) by (apply Rmult_lt_0_compat; lra).
    destruct (k =? n - 1)%Z eqn:K.
    - apply Z.eqb_eq in K. destruct ST as (F & _ & E). split; [exact F|]. subst k. assert (0 < IZR (n - 1)) by (apply IZR_lt; lia). replace (a + IZR (n - 1) * ((b - 1 - a) / IZR (n - 1))) with (b - 1) by (field; lra). lra.
    - apply Z.eqb_neq in K. destruct (ofZ_correct (n - 1)) as [FN EN]; [lia|]. destruct (ofZ_correct k) as [FK EK]; [lia|].
      assert (PN : 1 <= IZR (n - 1)) by (apply IZR_le; lia). pose proof (mZ (n - 1) ltac:(lia)) as MN. assert (PK : 0 <= IZR k <= IZR (n - 1)) by (split; apply IZR_le; lia).
      set (D := b - 1 - a) in *. set (delta := sub64 (sub64 (high64 g pos alt) (ofZ64 1)) (low64 g pos alt)) in *. pose proof DE as (FD & BD & _). apply Rabs_le_inv in BD.
      assert (STEP : acc 31 (2 * G / IZR (n - 1)) (div64 delta (ofZ64 (n - 1))) (D / IZR (n - 1))).
      { replace 31 with (29 + 2) by ring. apply acc_div_by; auto; try lra. exact (med _ _ _ (mquot _ _ _ _ _ _ M2 MN) ltac:(lia) ltac:(lia)). }
      assert (INC : acc 34 (2 * G) (if nonzero64 (div64 delta (ofZ64 (n - 1))) then mul64 (ofZ64 k) (div64 delta (ofZ64 (n - 1))) else mul64 (div64 (ofZ64 k) (ofZ64 (n - 1))) delta) (IZR k * (D / IZR (n - 1)))).
      { destruct (nonzero64 _).
        - replace (2 * G) with (IZR (n - 1) * (2 * G / IZR (n - 1))) by (field; lra). replace 34 with (0 + 31 + 3) by ring.
          apply acc_mul; try lra; [|apply Rmult_lt_0_compat; [lra|apply Rinv_0_lt_compat; lra]|apply acc_exact; auto; rewrite Rabs_pos_eq; lra|exact STEP].
          replace (IZR (n - 1) * (2 * G / IZR (n - 1))) with (2 * G) by (field; lra). exact M2'.
        - replace (IZR k * (D / IZR (n - 1))) with (IZR k / IZR (n - 1) * D) by (field; lra). replace (2 * G) with (1 * (2 * G)) by ring. replace 34 with (2 + 29 + 3) by ring.
          apply acc_mul; try lra; [rewrite Rmult_1_l; exact M2'| |exact DE]. assert (M1 : medium 1) by (apply (med 0 0); [cbn; lra|lia|lia]).
          replace 1 with (IZR (n - 1) / IZR (n - 1)) at 1 by (field; lra). replace 2 with (0 + 2) by ring. apply acc_div_by; auto; try lra.
          + replace (IZR (n - 1) / IZR (n - 1)) with 1 by (field; lra). exact M1.
          + apply acc_exact; auto. rewrite Rabs_pos_eq; lra. }
      pose proof INC as (FI & BI & EI). apply Rabs_le_inv in BI. destruct A as (_ & BA' & EA). 
      match goal with |- is_finite (add64 ?x ?y) = true /\ _ => destruct (rounded 23 (4 * G) (B2R x + B2R y) (a + IZR k * (D / IZR (n - 1))) M4) as [BV EV] end; [lra|apply Rabs_le; lra| |].
      { match goal with |- Rabs (?x + ?y - (a + ?z)) <= _ => replace (x + y - (a + z)) with ((x - z) + (y - a)) by ring end. eapply Rle_trans; [apply Rabs_triang|]. lra. }
      destruct (add_correct _ _ FI FA BV) as [F E]. split; [exact F|]. rewrite E. eapply Rle_trans; [exact EV|]. lra.
  Qed.
End Axis.

Lemma nearest_lip m x y : (1 <= m)%Z -> 0 <= nearest_on m x <= IZR (m - 1) /\ Rabs (nearest_on m x - nearest_on m y) <= Rabs (x - y).
Proof.
  intro M. assert (0 <= IZR (m - 1)) by (apply IZR_le; lia). unfold nearest_on. split.
  - unfold Rmax, Rmin. repeat destruct (Rle_dec _ _); lra.
  - unfold Rmax, Rmin. repeat destruct (Rle_dec _ _); unfold Rabs; repeat destruct (Rcase_abs _); lra.
Qed.
Lemma cross_ok g theta h G posx posy p q l As : sensible g theta h G -> (0 <= p < g_nout g)%Z -> (0 <= q < g_nout g)%Z -> fine g theta h posx posy l As ->
  moderate (cross64 g posx posy p q l) As /\ Rabs (total_seen (cross64 g posx posy p q l) - exact_seen g posx posy p q l) <= 400 * unit_roundoff * G * total As.
Proof.
  intros S HP HQ H. induction H as [|[a alt] A l As (HF & HA & WX & WY) H (IM & IE)]; cbn [fst snd] in *.
  - split; [constructor|]. cbn. rewrite Rminus_diag_eq, Rabs_R0 by reflexivity. lra.
  - destruct (footprint_ok g theta h G posx alt S WX p HP) as [FX EX]. destruct (footprint_ok g theta h G posy alt S WY q HQ) as [FY EY]. split.
    + constructor; [|exact IM]. cbn. auto.
    + unfold exact_seen in IE |- *. unfold total_seen in IE |- *. cbn [cross64 map fold_right total fst snd] in IE |- *.
      fold (cross64 g posx posy p q l). set (r := fold_right Rplus 0 (map seen (cross64 g posx posy p q l))) in *. match type of IE with Rabs (r - ?e) <= _ => set (r' := e) in * end.
      unfold seen. cbn [cr_screen cr_x cr_y]. destruct HF as [F1 F2].
      destruct (nearest_lip (fa_rows a) (B2R (footprint64 g posx alt p)) (footprint g (B2R posx) (B2R alt) p)) as [NX LX]; [lia|].
      destruct (nearest_lip (fa_rows a) (footprint g (B2R posx) (B2R alt) p) 0) as [NX' _]; [lia|].
      destruct (nearest_lip (fa_cols a) (B2R (footprint64 g posy alt q)) (footprint g (B2R posy) (B2R alt) q)) as [NY LY]; [lia|].
      destruct (nearest_lip (fa_cols a) (footprint g (B2R posy) (B2R alt) q) 0) as [NY' _]; [lia|].
      pose proof (bilinear_lip (fa_rows a) (fa_cols a) (numbers a) A _ _ _ _ (fun i j Hi Hj => proj2 (HA i j Hi Hj)) NX' NX NY' NY) as L.
      assert (PA : 0 <= A). { destruct (HA 0%Z 0%Z) as [_ Q]; try lia. eapply Rle_trans; [apply Rabs_pos|exact Q]. }
      match goal with |- Rabs (?u + r - (?v + r')) <= _ => replace (u + r - (v + r')) with ((u - v) + (r - r')) by ring; set (d := u - v) in * end.
      eapply Rle_trans; [apply Rabs_triang|]. fold (total As). 
      assert (L2 : Rabs d <= 2 * A * (200 * unit_roundoff * G)). { eapply Rle_trans; [exact L|]. apply Rmult_le_compat_l; lra. }
      lra.
Qed.

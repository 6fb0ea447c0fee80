(** Combined forms of the atmosphere lemmas used by the property theorems. *)
From Verif.Base Require Import Vec.
From Verif.Model Require Import Numerics Atmos.
From Verif.Spec Require Import AtmosSpec.
From Verif.Proofs Require Import NumericsProofs AtmosProofs.

Lemma between_frames (spl : screen -> Qc -> Qc -> Qc) (W s : Z) (f : screen) (vx vy : Qc) (m k : nat) (i j : Z) :
  let l := sampled W s f vx vy m in
  (forall t, (t <= k)%nat -> (t <> 0)%nat ->
     strictly_inside W s (ax_off (ly_x l) + qz (Z.of_nat t) * vx)%Qc /\
     strictly_inside W s (ax_off (ly_y l) + qz (Z.of_nat t) * vy)%Qc) ->
  atmos_frame spl W s f vx vy (m + k) i j =
  spl (ly_scr l) (ax_off (ly_x l) + qz (Z.of_nat k) * vx + qz i)%Qc (ax_off (ly_y l) + qz (Z.of_nat k) * vy + qz j)%Qc.
Proof.
  intros l H. destruct (between_wraps W s f vx vy m k H) as (E1 & E2 & E3).
  unfold atmos_frame, frame_of. rewrite E1, E2, E3. reflexivity.
Qed.

Lemma inf_rows (row : nat -> irow) (v : Qc) (L : nat) (init : list irow) (n : nat) : (0 <= v)%Qc -> length init = L ->
  let t := inf_run row v L n (mkInf init 0%Qc 0) in
  i_made t = Z.to_nat (qc_floor (qz (Z.of_nat n) * v)) /\
  (0 <= i_frac t)%Qc /\ (i_frac t < 1)%Qc /\ (qz (Z.of_nat (i_made t)) + i_frac t = qz (Z.of_nat n) * v)%Qc /\
  i_scr t = firstn L (map row (rev (seq 0 (i_made t))) ++ init).
Proof. intros Hv HL t. split; [apply inf_made; auto | apply inf_run_eq; auto]. Qed.

Lemma all_rows_col row row' init init' (c : Z) k : (forall q, row' q c = row q c) ->
  map (fun r : irow => r c) init' = map (fun r : irow => r c) init -> all_rows row' init' k c = all_rows row init k c.
Proof.
  intros Hr Hi. unfold all_rows. destruct (k <? 0); auto.
  set (q := Z.to_nat (- k - 1)).
  pose proof (map_nth (fun r : irow => r c) init (fun _ => 0%Qc) q) as A.
  pose proof (map_nth (fun r : irow => r c) init' (fun _ => 0%Qc) q) as B. cbn beta in A, B. congruence.
Qed.

Lemma inf_own_column (row : nat -> irow) (v : Qc) (L : nat) (init : list irow) : (0 <= v)%Qc -> length init = L ->
  forall (nx : Z) (n : nat) (i j : Z), 0 <= i -> i + 2 < Z.of_nat L -> 0 <= j < nx - 2 ->
  forall row' init', (forall k, row' k (j + 1) = row k (j + 1)) ->
    map (fun r : irow => r (j + 1)) init' = map (fun r : irow => r (j + 1)) init ->
    at2 (inf_output nx (inf_run row' v L n (mkInf init' 0%Qc 0))) i j
    = at2 (inf_output nx (inf_run row v L n (mkInf init 0%Qc 0))) i j.
Proof.
  intros Hv HL nx n i j Hi HiL Hj row' init' Hr Hm.
  assert (HL' : length init' = L) by (rewrite <- HL, <- (map_length (fun r : irow => r (j + 1)) init), <- Hm, map_length; reflexivity).
  rewrite !inf_flow by auto. f_equal. unfold lin_rows. rewrite !(all_rows_col row row' init init' (j + 1)) by auto. reflexivity.
Qed.

Lemma directions :
  (forall (W s : Z) (f : screen) (m : Z) (spl : screen -> Qc -> Qc -> Qc) (n : nat) (i j : Z),
     1 <= s -> s <= W -> 0 <= m -> spl_exact W spl -> 0 <= i -> i + m < s -> 0 <= j < s ->
     atmos_frame spl W s f (qz m) 0 (S n) i j = atmos_frame spl W s f (qz m) 0 n (i + m) j) /\
  (forall (row : nat -> irow) (m : Z) (L : nat) (init : list irow) (nx : Z) (n : nat) (i j : Z),
     0 <= m -> length init = L -> 0 <= i -> i + m + 2 < Z.of_nat L -> 0 <= j < nx - 2 ->
     at2 (orient D0 (inf_output nx (inf_run row (qz m) L (S n) (mkInf init 0%Qc 0)))) (i + m) j
     = at2 (orient D0 (inf_output nx (inf_run row (qz m) L n (mkInf init 0%Qc 0)))) i j) /\
  (forall (n : Z) (i j : Z), 0 <= i < n -> 0 <= j < n ->
     at2 (orient D90 (mkArr n n (fun x _ => qz x))) i j = qz j) /\
  (forall (n m : Z) (c s : Qc) (i j : Z), 1 <= m -> 2 * m <= n -> (c * c + s * s = 1)%Qc -> 0 <= i < m -> 0 <= j < m - 1 ->
     exists u w, at2 (rotate (mkArr n n (fun x _ => qz x)) m c s) i j = Ok u /\
                 at2 (rotate (mkArr n n (fun x _ => qz x)) m c s) i (j + 1) = Ok w /\ (w - u = - s)%Qc).
Proof.
  split; [|split; [|split]].
  - intros W s f m spl n i j Hs HW Hm Sp Hi Him Hj. rewrite <- qz_0.
    rewrite !(int_frame W s f m 0) by (auto; lia). f_equal; f_equal; lia.
  - intros row m L init nx n i j Hm HL Hi HiL Hj. cbn [orient].
    assert (Hv : (0 <= qz m)%Qc) by (rewrite <- qz_0; apply qz_le; auto).
    rewrite !inf_flow by (auto; lia). do 2 f_equal.
    rewrite Nat2Z.inj_succ, <- Z.add_1_r, !qz_add, qz_1. ring.
  - reflexivity.
  - intros n m c s i j Hm Hn Hcs Hi Hj. apply rotate_ramp. intros k Hk.
    assert (Hk' : 0 <= k < m) by lia.
    pose proof (rot_range n m c (- s) i k Hm Hn ltac:(rewrite <- Hcs; ring) Hi Hk') as H1. cbn zeta in H1.
    pose proof (rot_range n m s c i k Hm Hn ltac:(rewrite <- Hcs; ring) Hi Hk') as H2. cbn zeta in H2.
    assert (E : rot_x n m c s i k = ((qz i - (qz m / qz 2 - qfrac 1 2)) * c + (qz k - (qz m / qz 2 - qfrac 1 2)) * - s + (qz n / qz 2 - qfrac 1 2))%Qc)
      by (unfold rot_x; ring).
    rewrite E. destruct H1, H2. repeat split; auto.
Qed.

Lemma quarters (row : nat -> irow) (m : Z) (L : nat) (init : list irow) (nx : Z) (n : nat) (i j : Z) :
  0 <= m -> length init = L -> nx <= Z.of_nat L - 1 -> 0 <= i -> i + m < nx - 2 -> 0 <= j < nx - 2 ->
  let now := inf_output nx (inf_run row (qz m) L n (mkInf init 0%Qc 0)) in
  let next := inf_output nx (inf_run row (qz m) L (S n) (mkInf init 0%Qc 0)) in
  let r := nx - 1 - i in
  at2 (orient D0 next) (i + m) j = at2 (orient D0 now) i j /\
  at2 (orient D90 next) (nx - 1 - j) (i + m) = at2 (orient D90 now) (nx - 1 - j) i /\
  at2 (orient D180 next) (r - m) j = at2 (orient D180 now) r j /\
  at2 (orient D270 next) j (r - m) = at2 (orient D270 now) j r.
Proof.
  intros Hm HL Hnx Hi Him Hj now next r.
  assert (Hv : (0 <= qz m)%Qc) by (rewrite <- qz_0; apply qz_le; auto).
  assert (K : at2 next (i + m) j = at2 now i j).
  { unfold now, next. rewrite !inf_flow by (auto; lia). do 2 f_equal.
    rewrite Nat2Z.inj_succ, <- Z.add_1_r, !qz_add, qz_1. ring. }
  assert (E1 : nrow now = nx /\ ncol now = nx /\ nrow next = nx /\ ncol next = nx) by (repeat split; reflexivity).
  destruct E1 as (E1 & E2 & E3 & E4).
  unfold orient; cbn [at2]. rewrite E1, E2, E3, E4.
  replace (nx - 1 - (nx - 1 - j)) with j by lia. unfold r.
  replace (nx - 1 - (nx - 1 - i - m)) with (i + m) by lia. replace (nx - 1 - (nx - 1 - i)) with i by lia. auto.
Qed.

(** Property theorem C203: the separations between the points of an infinite screen. *)
From Coq Require Import ZArith List.
From Flocq Require Import Core BinarySingleNaN.
From Verif.Base Require Import Float64.
From Verif.Spec Require Import FloatLoopSpec.
From Verif.Proofs Require FloatLoopProofs.
From Coq Require Import Reals Lia Lra.
From Verif.Model Require Import Separations.
From Verif.Spec Require Import SeparationsSpec.
From Verif.Proofs Require Import SeparationsProofs.
Import ListNotations.
Local Open Scope R_scope.

(** C203: of usable positions the matrix has a row and a column for every point, those of the stencil first and those of the new row after them; element
    (i, j) is a number, the distance of the points i and j up to 8 units of rounding, never negative, exactly that of (j, i), and zero exactly where the
    points coincide. *)
Theorem C203_separations : forall (stencil row : list point), grid (stencil ++ row) ->
  let m := calc_separations64 stencil row in let at_ k := nth_error (if (k <? length stencil)%nat then stencil else row) (if (k <? length stencil)%nat then k else k - length stencil) in
  length m = (length stencil + length row)%nat /\ (forall r, In r m -> length r = (length stencil + length row)%nat) /\
  forall i j a b, at_ i = Some a -> at_ j = Some b -> exists s, entry m i j = Some s /\ is_finite s = true /\
    Rabs (B2R s - distance a b) <= 8 * unit_roundoff * distance a b /\ 0 <= B2R s /\
    (B2R s = 0 <-> B2R (fst a) = B2R (fst b) /\ B2R (snd a) = B2R (snd b)) /\
    exists s', entry m j i = Some s' /\ B2R s' = B2R s.
Proof.
  intros st row [G1 G2]. cbv zeta. unfold calc_separations64. cbv zeta. set (ps := st ++ row) in *.
  assert (LP : length ps = (length st + length row)%nat) by apply app_length.
  split; [rewrite map_length; exact LP|]. split; [intros r Hr; apply in_map_iff in Hr; destruct Hr as (a & <- & _); rewrite map_length; exact LP|].
  assert (At : forall k, nth_error (if (k <? length st)%nat then st else row) (if (k <? length st)%nat then k else (k - length st)%nat) = nth_error ps k).
  { intros k. unfold ps. destruct (k <? length st)%nat eqn:E; [apply Nat.ltb_lt in E; rewrite nth_error_app1 by exact E; reflexivity|apply Nat.ltb_ge in E; rewrite nth_error_app2 by exact E; reflexivity]. }
  intros i j a b. rewrite !At. intros Hi Hj. pose proof (nth_error_In _ _ Hi) as Ia. pose proof (nth_error_In _ _ Hj) as Ib.
  destruct (G1 _ Ia) as [Ua1 Ua2]. destruct (G1 _ Ib) as [Ub1 Ub2]. destruct (G2 _ _ Ib Ia) as [A1 A2].
  destruct (sep_ok a b Ua1 Ua2 Ub1 Ub2 A1 A2) as [F E]. pose proof (FloatLoopProofs.u_pos) as U. pose proof (FloatLoopProofs.u_small) as U2.
  assert (P : 0 <= distance a b) by apply sqrt_pos. exists (separation64 a b). split; [apply entry_value; assumption|]. split; [exact F|]. split; [exact E|].
  apply Rabs_le_inv in E.
  assert (L : distance a b * / 2 <= B2R (separation64 a b)).
  { apply Rle_trans with (distance a b * (1 - 8 * unit_roundoff)); [apply Rmult_le_compat_l; lra|lra]. }
  split; [lra|]. split.
  - rewrite <- dist_zero. split; [intros Z; rewrite Z in L; lra|intros Z; rewrite Z in E; lra].
  - exists (separation64 b a). split; [apply entry_value; assumption|]. apply sep_sym; assumption.
Qed.
Print Assumptions C203_separations.

(** Two points of a stencil and one of a new row, 3 and 4 apart. *)
Example C203_instance : grid ([at_whole 1 0; at_whole 1 3] ++ [at_whole (-3) 3]) /\
  map (map B2SF) (calc_separations64 [at_whole 1 0; at_whole 1 3] [at_whole (-3) 3]) =
  map (map (fun k => B2SF (ofZ64 k))) [[0; 3; 5]; [3; 0; 4]; [5; 4; 0]]%Z.
Proof.
  split; [|vm_compute; reflexivity]. apply (grid_whole [(1, 0); (1, 3); (-3, 3)]%Z). intros p Hp. cbn [In] in Hp.
  destruct Hp as [<- |[<- |[<- |[]]]]; cbn [fst snd]; split; vm_compute; discriminate.
Qed.

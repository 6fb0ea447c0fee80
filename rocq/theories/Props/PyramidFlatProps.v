(** Property theorem C48: what a flat wavefront gives with fewer modulation points than planes. *)
From Coq Require Import ZArith Reals List Bool Lra Lia.
From Coquelicot Require Import Complex.
From Verif.Base Require Import Py CSum.
From Verif.Model Require Import Pyramid.
From Verif.Spec Require Import PyramidSpec.
From Verif.Props Require Import PyramidProps.
From Verif.Proofs Require Import PyramidFlat.
Import ListNotations.
Open Scope R_scope.

(** C48, refuted for fewer than 32 modulation points (the default is 4): for every sensor that could be built and has a
    sub-aperture, every reference it may have measured and every piston p, there are contents of the planes that are never
    written (pyfftw.empty_aligned leaves anything) for which the flat wavefront is measured with slopes that are not all zero. *)
Theorem C48_flat_refuted :
  forall (c : pyr) (m0 : memory) (flat : list R) (p : R),
    built c -> (0 < y_N c)%Z -> (0 < y_n c)%Z -> (0 < y_P c)%Z -> (1 <= y_nmod c < 32)%Z -> (0 < slope_size c)%nat -> flat_slopes c m0 = Some flat ->
    exists mem, forall destroy, exists s,
      fst (pyr_frame c flat destroy mem (fun _ _ => p)) = Some s /\ length s = slope_size c /\ Exists (fun x => x <> 0) s.
Proof. intros c m0 flat p [ns HB] HN Hn HP Hm HS HF. exact (flat_moves c ns m0 flat (fun _ _ => p) HB HN Hn HP Hm HS HF). Qed.
Print Assumptions C48_flat_refuted.
(** The sensor of C48_instance with the default number of points. *)
Example C48_flat_instance :
  built (ex_pyr 4) /\ binary_mask (ex_pyr 4) /\ y_nmod (ex_pyr 4) = 4%Z /\ slope_size (ex_pyr 4) = 8%nat /\ exists m0 flat, flat_slopes (ex_pyr 4) m0 = Some flat.
Proof.
  assert (B : pyr_build (y_N (ex_pyr 4)) (y_P (ex_pyr 4)) (y_n (ex_pyr 4)) (y_sep (ex_pyr 4)) = Ok 4%Z) by reflexivity.
  split; [exists 4%Z; exact B|]. split; [intros i j; cbn; destruct (_ && _); auto|]. split; [reflexivity|]. split; [reflexivity|].
  apply (flat_exists (ex_pyr 4) 4 B); try reflexivity; cbn; try lia. change (0 < 8)%nat. lia.
Qed.

(** What the theorems on screen files and on interpolation with missing data talk about. *)
From Coq Require Import Reals.
From Verif.Base Require Import Vec.
From Verif.Model Require Import ScreenFiles ZoomMissing.

(** Two screens with the same shape and the same values. *)
Definition same_screen (a b : wscreen) : Prop := ws_rows a = ws_rows b /\ ws_cols a = ws_cols b /\ forall i j, ws_data a i j = ws_data b i j.
(** The files scrn0.fits .. of a directory, as named in a configuration. *)
Definition listed (d : sdir) (n : nat) : list (option sfile) := map (fun k => d (Z.of_nat k)) (seq 0 n).
Definition empty_dir : sdir := fun _ => None.
(** Kolmogorov scaling of a screen generator: phase proportional to r0 to the power -5/6. *)
Definition kolmogorov (gen : nat -> R -> Z -> R -> R -> R -> Z -> Z -> R) : Prop :=
  forall k r0 N ps L0 l0 i j, (0 < r0)%R -> gen k r0 N ps L0 l0 i j = (gen k 1%R N ps L0 l0 i j * Rpower r0 (-5/6))%R.
(** The first n files exist and hold square images of one size W, of at least s and 4 elements. *)
Definition files_fit (s W : Z) (n : nat) (files : list (option sfile)) : Prop :=
  s <= W /\ 4 <= W /\ forall i, (i < n)%nat -> exists f, nth_error files i = Some (Some f) /\ sf_rows f = W /\ sf_cols f = W.

(** An interpolator that gives back the samples: always where the sample is NaN, and everywhere if there is no NaN. *)
Definition gives_back (griddata : list (Qc * Qc * fl) -> Qc -> Qc -> fl) : Prop :=
  forall l x y v, NoDup (map fst l) -> In (x, y, v) l -> v = None \/ (forall p, In p l -> snd p <> None) -> griddata l x y = v.

(** Specification vocabulary for lines of sight, independent of the model's own helpers. *)
From Verif.Base Require Import Vec.
From Verif.Model Require Import Los.

(** A stack of square screens of size N *)
Definition screens_ok (N : Z) (l : list (arr Qc)) : Prop := Forall (fun a => nrow a = N /\ ncol a = N) l.

(** The position x, y on a screen's pixel grid can be interpolated from stored pixels only. *)
Definition on_grid (N : Z) (x : Qc) : Prop := (0 <= x)%Qc /\ (x < qz (N - 1))%Qc.

(** Pixelwise combination of two stacks *)
Definition comb (a b : Qc) (x y : arr Qc) : arr Qc := mkArr (nrow x) (ncol x) (fun i j => a * at2 x i j + b * at2 y i j)%Qc.

(** The point at altitude h of the straight line from p (at the ground) to q (at altitude H) *)
Definition on_line (p q H h : Qc) : Qc := (p + (q - p) * (h / H))%Qc.

(** A traveller at altitude [at_] performing a list of operations in direction [dir] (+1 up, -1 down):
    the altitude at which each screen is met, and where it ends. *)
Fixpoint journey (dir at_ : Qc) (l : list op) : list (Z * Qc) * Qc :=
  match l with
  | [] => ([], at_)
  | Travel z :: r => journey dir (at_ + dir * z)%Qc r
  | Screen k :: r => let '(v, e) := journey dir at_ r in ((k, at_) :: v, e)
  end.
Definition never_backwards (l : list op) : Prop := forall z, In (Travel z) l -> (0 <= z)%Qc.

(** Strictly increasing altitudes, none below the ground *)
Fixpoint increasing_from (lo : Qc) (l : list Qc) : Prop :=
  match l with [] => True | a :: r => (lo < a)%Qc /\ increasing_from a r end.
Definition altitudes (l : list Qc) : Prop :=
  match l with [] => False | a :: r => (0 <= a)%Qc /\ increasing_from a r end.
Definition top (l : list Qc) : Qc := last l 0%Qc.
(** The screens paired with their altitudes, lowest first *)
Definition stations (l : list Qc) : list (Z * Qc) := combine (map Z.of_nat (seq 0 (length l))) l.

(** Bilinear interpolation of the four pixels around (x, y), as the usual weighted mean *)
Definition between_pixels (a : arr Qc) (x y : Qc) : Qc :=
  let i := qc_floor x in let j := qc_floor y in
  let s := (x - qz i)%Qc in let t := (y - qz j)%Qc in
  ((1 - s) * (1 - t) * at2 a i j + s * (1 - t) * at2 a (i + 1)%Z j +
   (1 - s) * t * at2 a i (j + 1)%Z + s * t * at2 a (i + 1)%Z (j + 1)%Z)%Qc.
(** The sum over a stack of arrays, each seen at its own altitude's footprint *)
Definition stack_sum (g : geom) (i j : Z) (l : list (arr Qc)) (alts : list Qc) : Qc :=
  lsum (map (fun p => between_pixels (fst p) (coord g (x_edges g (snd p)) i) (coord g (y_edges g (snd p)) j)) (combine l alts)).

(** States of a line of sight after any history of successful frames *)
Inductive reachable (g : geom) (i j : Z) : px -> Prop :=
| reach_init : reachable g i j (px_init g)
| reach_frame s phys scrns corr s' : reachable g i j s -> los_frame g phys i j scrns corr s = Ok s' -> reachable g i j s'.

(** Pixelwise combination of two stacks of screens *)
Definition comb_stack (a b : Qc) (l l' : list (arr Qc)) : list (arr Qc) := map (fun p => comb a b (fst p) (snd p)) (combine l l').
(** A sky direction, source and pixel scale for which every layer's footprint falls on whole pixels: [m] pixels
    of margin on axis, displaced by [d h] pixels at altitude h, and inside a screen of size N. *)
Definition whole_shift (pos scale : Qc) (n N m : Z) (d : Qc -> Z) (alts : list Qc) : Prop :=
  N = n + 2 * m /\ forall h, In h alts -> (pos * h / scale = qz (d h))%Qc /\ 0 <= m + d h /\ m + d h + n < N.

(** What a frame leaves visible: phase, field, per-layer and per-DM screens; with the returned residual *)
Definition seen (s : px) := (p_phase s, p_field s, p_scr s, p_corr s).
Definition seen_r (r : result px) : result (Qc * (Qc * option Qc * list Qc * list Qc)) :=
  match r with Ok s => Ok (p_resid s, seen s) | Err e => Err e end.
(** A correction of zero for every DM *)
Definition zero_stack (g : geom) (l : list Qc) : list (arr Qc) := repeat (zeros (g_nscrn g)) (length l).

(** What the laser guide star theorems talk about. *)
From Coq Require Import Reals.
From Verif.Base Require Import Vec CSum.

(** Position at height h of the straight line from the launch position on the ground to a beacon at angle g (radians) and height H. *)
Definition beam (launch g H h : Qc) : Qc := (launch + (g * H - launch) * (h / H))%Qc.
(** The angle from the zenith at which a point of that beam is seen from the telescope centre. *)
Definition seen_at (launch g H h : Qc) : Qc := (beam launch g H h / h)%Qc.
(** Weighted sum of images. *)
Fixpoint weighted (ws : vec) (imgs : list vec) (n : nat) : vec :=
  match ws, imgs with w :: ws', s :: t => vadd (vscale w s) (weighted ws' t n) | _, _ => vzero n end.

Open Scope R_scope.
(** Circular convolution of two P x P images about the element (c, c). *)
Definition convolved (P c : Z) (a b : Z -> Z -> R) (i j : Z) : R :=
  rsum P (fun s => rsum P (fun t => a s t * b ((i + c - s) mod P)%Z ((j + c - t) mod P)%Z)).
Definition light (P : Z) (a : Z -> Z -> R) : R := rsum P (fun i => rsum P (fun j => a i j)).
(** Optical path from a point source at height h to the edge of an aperture of diameter D, less the path to its centre. *)
Definition sag (D h : R) : R := sqrt ((D / 2) * (D / 2) + h * h) - h.
(** An image with all its light, w, in one element. *)
Definition point (w : R) (c d : Z) (i j : Z) : R := if ((i =? c) && (j =? d))%Z%bool then w else 0.
(** [beam] over the reals, and the path from a point at (x, h) to the negative edge of the aperture less the path to its positive edge. *)
Definition beamR (launch g H h : R) : R := launch + (g * H - launch) * (h / H).
Definition edge_difference (D x h : R) : R := sqrt (h * h + (x + D / 2) * (x + D / 2)) - sqrt (h * h + (D / 2 - x) * (D / 2 - x)).

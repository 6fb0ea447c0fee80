(** What the gradient sensor theorems talk about. *)
From Verif.Base Require Import Vec.
From Verif.Model Require Import Numerics Grad.
From Verif.Spec Require Import ShSpec.

(** Pixel (u, v) of the simulated aperture belongs to sub-aperture (x, y) when the pupil of n*s pixels starts at pad. *)
Definition in_subap (s pad x y u v : Z) : Prop := x * s <= u - pad < (x + 1) * s /\ y * s <= v - pad < (y + 1) * s.
(** The mask is fully open over the sub-aperture. *)
Definition lit_subap (s pad : Z) (mask : arr Qc) (x y : Z) : Prop := forall u v, in_subap s pad x y u v -> at2 mask u v = 1%Qc.
(** A tilt: [tx] arcseconds along axis 1, [ty] along axis 0, and any piston; [amp] is the phase from the first to the last of the
    P pixels of the pupil for one arcsecond. *)
Definition tilt_phase (amp tx ty c : Qc) (P N : Z) : arr Qc :=
  mkArr N N (fun u v => tx * (amp * qz v / qz (P - 1)) + ty * (amp * qz u / qz (P - 1)) + c)%Qc.
Definition comb2 (a b : Qc) (p q : arr Qc) : arr Qc := mkArr (nrow p) (ncol p) (fun i j => a * at2 p i j + b * at2 q i j)%Qc.
Definition pcomb (a b : Qc) (s t : Qc * Qc) : Qc * Qc := (a * fst s + b * fst t, a * snd s + b * snd t)%Qc.

(** Specification: common tip and tilt in slopes. *)
From Verif.Base Require Import Vec.
(** Slopes of [h] sub-apertures, x and then y, with [cx] added to every x slope and [cy] to every y slope. *)
Definition with_tt (h : nat) (cx cy : Qc) (v : vec) : vec :=
  map (fun x => x + cx)%Qc (firstn h v) ++ map (fun y => y + cy)%Qc (skipn h v).
(** The slopes of a pure tip and tilt. *)
Definition pure_tt (h : nat) (cx cy : Qc) : vec := repeat cx h ++ repeat cy h.

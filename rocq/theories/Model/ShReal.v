(** The photon count of a guide star over the reals. *)
From Coq Require Import Reals.
Open Scope R_scope.
(** soapy/wfs/shackhartmann.py:567-587  [area] is mask.sum() * phase_scale**2 *)
Definition photons_R (zp area mag exposure : R) : R := zp * area * (Rpower 10 (- mag / (5 / 2)) * exposure).

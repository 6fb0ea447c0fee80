(** Specification of what the GUI should draw. *)
From Verif.Base Require Import Vec.
From Coq Require Import List Arith Bool.
From Verif.Model Require Import GuiDraw.
Import ListNotations.

(** The image that belongs in the plot number [i] of a kind. *)
Definition belongs (e : exposure) (p : parts) (k : pkind) (i : nat) (im : img) : Prop :=
  match k with
  | Detector => exists s, nth_error (pa_sensors p) i = Some s /\ se_detector s = Some im
  | Phase => exists s, nth_error (pa_sensors p) i = Some s /\ se_phase s = Some im
  | Beacon => exists s, nth_error (pa_sensors p) i = Some s /\ se_psf s = Some im
  | Mirror => nth_error (pa_mirrors p) i = Some (Some im)
  | Science => exists c, nth_error (pa_cameras p) i = Some c /\ match e with Instant => ca_inst c = Some im | Long => ca_long c = Some im | Neither => False end
  | Residual => exists c, nth_error (pa_cameras p) i = Some c /\ ca_residual c = Some im
  end.
(** Wavefronts, which are drawn on a common scale. *)
Definition wavefront (k : pkind) : bool := match k with Phase | Mirror | Residual => true | _ => false end.
Definition wavefront_value (p : parts) (v : Qc) : Prop := exists e k i im, wavefront k = true /\ belongs e p k i im /\ In v im.
(** A GUI for the parts there are: sensors with their image and wavefront, cameras with their image, a plot for every beacon, no empty image. *)
Definition matches (g : gui) (p : parts) : Prop :=
  gu_ngs g = length (pa_sensors p) /\ gu_ndm g = length (pa_mirrors p) /\ gu_nsci g = length (pa_cameras p) /\
  (forall s, In s (pa_sensors p) -> se_detector s <> None /\ se_phase s <> None) /\
  (forall c, In c (pa_cameras p) -> ca_long c <> None /\ ca_inst c <> None) /\
  (forall i s, nth_error (pa_sensors p) i = Some s -> se_psf s <> None -> gu_lgs g i = true) /\
  (forall e k i, ~ belongs e p k i []).

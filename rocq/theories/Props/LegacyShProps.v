(** C165, C166: the legacy Shack-Hartmann sensor. *)
From Verif.Base Require Import Vec.
From Verif.Model Require Import Numerics Sh LegacySh.
From Verif.Spec Require Import NumericsSpec ShSpec LegacyShSpec.
From Verif.Proofs Require Import LegacyShProofs.

(** ** C165.  Full property: every sub-aperture is given its own square of the field over the pupil.  Proved when the field on the
    simulation grid is at least two elements larger than the pupil's. *)
Theorem C165_tiles_partial :
  forall (A : Type) (g : legacy) (e : arr A) (x y : Z),
    1 <= g_nx g -> 1 <= g_sp g -> g_nx g * g_sp g + 2 <= leg_field g -> square (leg_field g) e -> on_grid (g_nx g) (x, y) ->
    exists a, leg_chop g e x y = Ok a /\ square (g_sp g) a /\
      forall i j, 0 <= i < g_sp g -> 0 <= j < g_sp g ->
        let margin := (leg_field g - g_nx g * g_sp g) / 2 in
        at2 a i j = at2 e (margin + x * g_sp g + i) (margin + y * g_sp g + j).
Proof. intros A g e x y H1 H2 H3 H4 [Hx Hy]. apply chop_ok; auto. Qed.
Print Assumptions C165_tiles_partial.
(** That is so when the padding of the simulation, scaled to the sub-apertures' elements, is over three quarters of an element. *)
Theorem C165_margin_partial :
  forall g : legacy, 1 <= g_nx g -> 1 <= g_sp g -> 1 <= g_pupil g -> 3 * g_pupil g < 4 * (g_nx g * g_sp g * g_pad g) ->
    g_nx g * g_sp g + 2 <= leg_field g.
Proof. exact field_large. Qed.
Print Assumptions C165_margin_partial.
(** REFUTED when it is under three quarters: the slice [0:-0] that cuts out the pupil is empty and every sub-aperture raises. *)
Theorem C165_refuted :
  forall (A : Type) (g : legacy) (e : arr A) (x y : Z),
    1 <= g_nx g -> 1 <= g_sp g -> 1 <= g_pupil g -> 0 <= g_pad g -> 4 * (g_nx g * g_sp g * g_pad g) < 3 * g_pupil g ->
    square (leg_field g) e -> leg_chop g e x y = Err ValueError.
Proof. intros. apply chop_fails; auto. apply field_small; auto. Qed.
Print Assumptions C165_refuted.
(** 8 x 8 sub-apertures on a pupil of 128 pixels padded by one (simOversize 1.02): 40 elements across a sub-aperture are enough, 8 are not. *)
Example C165_instance :
  let g := mkLegacy 8 10 2 40 128 1 in let g' := mkLegacy 8 10 1 8 128 1 in
  leg_field g = 325 /\ 3 * g_pupil g < 4 * (g_nx g * g_sp g * g_pad g) /\ on_grid (g_nx g) (7, 3) /\
  leg_field g' = 65 /\ 4 * (g_nx g' * g_sp g' * g_pad g') < 3 * g_pupil g' /\
  leg_chop g' (mkArr 65 65 (fun i j => i)) 7 3 = Err ValueError /\
  match leg_chop g (mkArr 325 325 (fun i j => i)) 7 3 with Ok a => at2 a 39 0 = 321 | Err _ => False end.
Proof. cbn zeta. unfold on_grid. cbn [g_nx g_sp g_pad g_pupil fst snd]. repeat split; try lia; vm_compute; reflexivity. Qed.

(** ** C166.  Full property: every image is put on the detector centred on the window of its sub-aperture.  Proved, to the half pixel that
    an odd number of pixels leaves over, with a field stop, or with the doubled field on a detector of more than one sub-aperture
    and an even number of pixels; what would fall off the detector is left out. *)
Theorem C166_placed_partial :
  forall g : legacy, leg_sane g -> placeable g ->
  exists first : Z -> Z,
    (forall x, 0 <= x < g_nx g -> Z.abs (off_centre2 (g_px g) (g_over g * g_px g) x (first x)) <= 1) /\
    (Z.even ((g_over g - 1) * g_px g) = true -> forall x, 0 <= x < g_nx g -> off_centre2 (g_px g) (g_over g * g_px g) x (first x) = 0) /\
    forall (det : arr Qc) (subs : list ((Z * Z) * arr Qc)), square (leg_side g) det ->
      Forall (fun s => on_grid (g_nx g) (fst s) /\ square (g_over g * g_px g) (snd s)) subs ->
      exists d, leg_place g det subs = Ok d /\ square (leg_side g) d /\
        forall u v, 0 <= u < leg_side g -> 0 <= v < leg_side g -> at2 d u v = (at2 det u v + lit_by g first subs u v)%Qc.
Proof. exact placed. Qed.
Print Assumptions C166_placed_partial.
(** The window a centroid is computed from: the pixels of its sub-aperture, with or without a field stop. *)
Theorem C166_window_pixels :
  forall (g : legacy) (d : arr Qc) (q : Z * Z), leg_sane g -> square (leg_side g) d -> on_grid (g_nx g) q ->
    square (g_px g) (leg_window g d q) /\
    forall i j, 0 <= i < g_px g -> 0 <= j < g_px g -> at2 (leg_window g d q) i j = at2 d (fst q * g_px g + i) (snd q * g_px g + j).
Proof. exact window_pixels. Qed.
Print Assumptions C166_window_pixels.
(** With a field stop the window of a sub-aperture holds its image and nothing else. *)
Theorem C166_windows :
  forall (g : legacy) (det : arr Qc) (subs : list ((Z * Z) * arr Qc)),
    leg_sane g -> g_over g = 1 -> square (leg_side g) det -> (forall u v, at2 det u v = 0%Qc) ->
    Forall (fun s => on_grid (g_nx g) (fst s) /\ square (g_px g) (snd s)) subs -> NoDup (map fst subs) ->
    exists d, leg_place g det subs = Ok d /\ forall q img, In (q, img) subs -> arr_eq (leg_window g d q) img.
Proof. exact window_stop. Qed.
Print Assumptions C166_windows.
(** And from focal plane to detector light is kept, weighted by the lit part of each sub-aperture. *)
Theorem C166_light :
  forall (g : legacy) (os : Z) (det : arr Qc) (subs : list ((Z * Z) * (Qc * arr Qc))),
    leg_sane g -> g_over g = 1 -> 1 <= os -> square (leg_side g) det ->
    Forall (fun s => on_grid (g_nx g) (fst s) /\ square (g_px g * os) (snd (snd s))) subs ->
    exists d, leg_integrate g os det subs = Ok d /\ square (leg_side g) d /\
      flux d = (flux det + lsum (map (fun s => fst (snd s) * flux (snd (snd s)))%Qc subs))%Qc.
Proof. exact integrate_stop. Qed.
Print Assumptions C166_light.
(** REFUTED with the doubled field when the detector has an odd number of pixels: ties are rounded to even on both sides of a slice whose
    ends differ by an odd number, so any sub-aperture of the last row or column raises. *)
Theorem C166_odd_refuted :
  forall (g : legacy) (det : arr Qc) (subs : list ((Z * Z) * arr Qc)),
    2 <= g_nx g -> 1 <= g_px g -> g_over g = 2 -> Z.odd (leg_side g) = true -> square (leg_side g) det ->
    Forall (fun s => square (g_over g * g_px g) (snd s)) subs ->
    Exists (fun s => fst (fst s) = g_nx g - 1 \/ snd (fst s) = g_nx g - 1) subs -> leg_place g det subs = Err ValueError.
Proof. exact odd_fails. Qed.
Print Assumptions C166_odd_refuted.
(** REFUTED with the doubled field and a single sub-aperture, whatever its pixels. *)
Theorem C166_single_refuted :
  forall (g : legacy) (det img : arr Qc), g_nx g = 1 -> 1 <= g_px g -> g_over g = 2 -> square (leg_side g) det ->
    square (g_over g * g_px g) img -> leg_place g det [((0, 0), img)] = Err ValueError.
Proof. exact single_fails. Qed.
Print Assumptions C166_single_refuted.
(** A corner, an edge and an inner sub-aperture of 4 x 4, on 6 and on 5 pixels; 5 x 5 sub-apertures of 5 pixels fail. *)
Example C166_instance :
  let g := mkLegacy 4 6 2 20 64 2 in let dark n := mkArr n n (fun _ _ => 0%Qc) in let one n := mkArr n n (fun i j => qz (i * 100 + j)) in
  leg_sane g /\ placeable g /\ placeable (mkLegacy 4 5 2 20 64 2) /\
  match leg_place g (dark 24) [((0, 3), one 12)] with
  | Ok d => at2 d 0 15 = qz 300 /\ at2 d 8 23 = qz 1108 /\ at2 d 9 23 = 0%Qc /\ flux d = flux (mkArr 9 9 (fun i j => qz ((i + 3) * 100 + j)))
  | Err _ => False end /\
  match leg_place (mkLegacy 4 5 2 20 64 2) (dark 20) [((1, 2), one 10)] with
  | Ok d => at2 d 2 8 = 0%Qc /\ at2 d 3 9 = qz 101 | Err _ => False end /\
  Z.odd (leg_side (mkLegacy 5 5 2 20 64 2)) = true /\ leg_place (mkLegacy 5 5 2 20 64 2) (dark 25) [((1, 4), one 10)] = Err ValueError /\
  leg_place (mkLegacy 5 5 2 20 64 2) (dark 25) [((1, 3), one 10)] <> Err ValueError.
Proof.
  cbn zeta. unfold leg_sane, placeable. cbn [g_nx g_px g_over]. repeat split; try lia; try (right; split; [lia|reflexivity]); try qc_compute; try reflexivity.
  vm_compute. discriminate.
Qed.

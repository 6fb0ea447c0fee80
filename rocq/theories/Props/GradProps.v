(** Property theorems C46, C47, C82-C84: the gradient sensor, and what the simulation asks of every sensor class. *)
From Verif.Base Require Import Vec.
From Verif.Model Require Import Numerics Sh Grad.
From Verif.Spec Require Import NumericsSpec ShSpec GradSpec.
From Verif.Proofs Require Import GradProofs.
Open Scope Z_scope.

(** A pupil of 4 pixels with 2 sub-apertures of 2 pixels, one pixel of padding; [ex_mask] is dark in one pixel. *)
Definition ex_open : arr Qc := mkArr 6 6 (fun _ _ => 1%Qc).
Definition ex_mask : arr Qc := mkArr 6 6 (fun u v => if (u =? 1) && (v =? 1) then 0%Qc else 1%Qc).
Definition ex_flat (c : Qc) : arr Qc := mkArr 6 6 (fun _ _ => c).

(** C46: slopes of every sub-aperture are linear in the phase (when the pupil is a multiple of the sub-apertures;
    for the rest see C47), for every mask. *)
Theorem C46_linear :
  forall (amp : Qc) (P n pad : Z) (mask : arr Qc) (a b : Qc) (p q : arr Qc) (x y : Z) (s t : Qc * Qc),
    0 < n -> P mod n = 0 -> 1 <= P / n -> 1 <= pad -> square (P + 2 * pad) p -> square (P + 2 * pad) q -> on_grid n (x, y) ->
    grad_frame amp P n pad mask p x y = Ok (Some s) -> grad_frame amp P n pad mask q x y = Ok (Some t) ->
    grad_frame amp P n pad mask (comb2 a b p q) x y = Ok (Some (pcomb a b s t)).
Proof. exact grad_linear. Qed.
Print Assumptions C46_linear.
(** C46, partial: a fully lit sub-aperture measures any tilt exactly (minus the tilt in arcseconds), each axis on its
    own, whatever the piston.  Missing: partially lit sub-apertures (see C46_refuted). *)
Theorem C46_tilt_partial :
  forall (amp : Qc) (P n pad : Z) (mask : arr Qc) (tx ty c : Qc) (x y : Z),
    0 < n -> P mod n = 0 -> 2 <= P / n -> 1 <= pad -> amp <> 0%Qc -> on_grid n (x, y) -> lit_subap (P / n) pad mask x y ->
    grad_frame amp P n pad mask (tilt_phase amp tx ty c P (P + 2 * pad)) x y = Ok (Some (- tx, - ty)%Qc).
Proof. exact grad_tilt. Qed.
Print Assumptions C46_tilt_partial.
(** C46, partial: piston added to any phase does not change the slopes of a fully lit sub-aperture. *)
Theorem C46_piston_partial :
  forall (amp : Qc) (P n pad : Z) (mask p : arr Qc) (c : Qc) (x y : Z),
    0 < n -> P mod n = 0 -> 1 <= P / n -> 1 <= pad -> square (P + 2 * pad) p -> on_grid n (x, y) -> lit_subap (P / n) pad mask x y ->
    grad_frame amp P n pad mask (mkArr (nrow p) (ncol p) (fun u v => at2 p u v + c)%Qc) x y = grad_frame amp P n pad mask p x y.
Proof. exact grad_piston. Qed.
Print Assumptions C46_piston_partial.
(** C46, refuted: the phase is multiplied by the mask before it is projected, so in a sub-aperture with one dark
    pixel (fill factor 3/4) a flat phase of one radian measures a slope. *)
Theorem C46_refuted :
  ~ (forall (amp : Qc) (P n pad : Z) (mask p : arr Qc) (c : Qc) (x y : Z),
       0 < n -> P mod n = 0 -> 2 <= P / n -> 1 <= pad -> amp <> 0%Qc -> square (P + 2 * pad) p -> on_grid n (x, y) ->
       (forall u v, at2 mask u v = 0%Qc \/ at2 mask u v = 1%Qc) ->
       grad_frame amp P n pad mask (mkArr (nrow p) (ncol p) (fun u v => at2 p u v + c)%Qc) x y = grad_frame amp P n pad mask p x y).
Proof.
  intros H. specialize (H (qz 3) 4 2 1 ex_mask (ex_flat 0) 1%Qc 0 0). 
  assert (E : grad_frame (qz 3) 4 2 1 ex_mask (mkArr 6 6 (fun u v => at2 (ex_flat 0) u v + 1)%Qc) 0 0 = Ok (Some (qfrac (-1) 2, qfrac (-1) 2))) by qc_compute.
  assert (F : grad_frame (qz 3) 4 2 1 ex_mask (ex_flat 0) 0 0 = Ok (Some (0, 0)%Qc)) by qc_compute.
  cbn [ex_flat nrow ncol] in H. rewrite E, F in H.
  assert (G : Ok (Some (qfrac (-1) 2, qfrac (-1) 2)) = Ok (Some (0, 0)%Qc)).
  { apply H; try lia; try reflexivity.
    - intros A. apply (f_equal (fun q => qc_eqb q 0)) in A. vm_compute in A. discriminate.
    - split; reflexivity.
    - split; cbn; lia.
    - intros u v. cbn. destruct (_ && _); auto. }
  injection G as A. discriminate.
Qed.
Print Assumptions C46_refuted.
Example C46_instance :
  lit_subap 2 1 ex_open 1 0 /\ lit_subap 2 1 ex_mask 1 0 /\
  grad_frame (qz 3) 4 2 1 ex_mask (tilt_phase (qz 3) (qz 5) (qz 7) (qz 11) 4 6) 1 0 = Ok (Some (- qz 5, - qz 7)%Qc).
Proof.
  split; [intros u v H; reflexivity|]. split.
  - intros u v H. unfold in_subap in H. cbn. destruct (Z.eqb_spec u 1); [lia|reflexivity].
  - apply grad_tilt; try lia; try reflexivity.
    + intros A. apply (f_equal (fun q => qc_eqb q 0)) in A. vm_compute in A. discriminate.
    + split; cbn; lia.
    + intros u v H. unfold in_subap in H. cbn. destruct (Z.eqb_spec u 1); [lia|reflexivity].
Qed.

(** C47, partial: when the pupil is a multiple of the number of sub-apertures every frame gives one measurement per
    active sub-aperture. *)
Theorem C47_partial :
  forall (amp : Qc) (P n pad : Z) (mask phase : arr Qc) (subs : list (Z * Z)),
    0 < n -> P mod n = 0 -> 1 <= P / n -> 1 <= pad -> square (P + 2 * pad) phase -> Forall (on_grid n) subs ->
    exists l, grad_all amp P n pad mask phase subs = Ok l /\ length l = length subs.
Proof. exact grad_all_div. Qed.
Print Assumptions C47_partial.
(** C47, refuted: for every other combination of sizes at least one row of sub-apertures is wider than the array made
    for it, and the frame fails as soon as every row has an active sub-aperture. *)
Theorem C47_refuted :
  forall (amp : Qc) (P n pad : Z) (mask phase : arr Qc) (subs : list (Z * Z)),
    0 < n -> n <= P -> P mod n <> 0 -> 1 <= pad -> square (P + 2 * pad) phase ->
    (forall x, 0 <= x < n -> exists y, In (x, y) subs) -> grad_all amp P n pad mask phase subs = Err ValueError.
Proof. exact grad_all_nodiv. Qed.
Print Assumptions C47_refuted.
Example C47_instance :
  (exists l, grad_all (qz 3) 4 2 1 ex_mask (ex_flat 1) [(0, 0); (0, 1); (1, 0); (1, 1)] = Ok l /\ length l = 4%nat) /\
  grad_all (qz 3) 5 2 1 (mkArr 7 7 (fun _ _ => 1%Qc)) (mkArr 7 7 (fun _ _ => 0%Qc)) [(0, 0); (1, 1)] = Err ValueError.
Proof.
  split.
  - apply grad_all_div; [lia|reflexivity|cbn; lia|lia|split; reflexivity|]. repeat constructor; cbn; lia.
  - apply grad_all_nodiv; [lia|lia|cbn; lia|lia|split; reflexivity|].
    intros x Hx. assert (x = 0 \/ x = 1) as [-> | ->] by lia; [exists 0|exists 1]; cbn; auto.
Qed.

(** C82, partial: with Shack-Hartmann (also legacy) and pyramid sensors only, initialisation adds up the numbers of measurements. *)
Theorem C82_partial :
  forall (ws : list (wfs_class * Z)) (acc : Z), Forall (fun w => fst w = CShackHartmann \/ fst w = CShackHartmannLegacy \/ fst w = CPyramid) ws ->
    init_wfss ws acc = Ok (fold_left (fun t w => t + snd w) ws acc).
Proof. exact init_others. Qed.
Print Assumptions C82_partial.
(** C82, refuted: any simulation with a gradient sensor (and no Zernike sensor) stops with AttributeError... *)
Theorem C82_refuted :
  forall (ws : list (wfs_class * Z)) (acc : Z), (exists n, In (CGradient, n) ws) -> Forall (fun w => fst w <> CZernike) ws ->
    init_wfss ws acc = Err AttributeError.
Proof. exact init_gradient. Qed.
Print Assumptions C82_refuted.
(** ... and one with a Zernike sensor cannot be initialised either. *)
Theorem C82_zernike_refuted :
  forall (ws : list (wfs_class * Z)) (acc : Z), (exists n, In (CZernike, n) ws) ->
    exists e, init_wfss ws acc = Err e /\ (e = NameError \/ e = AttributeError).
Proof. exact init_zernike. Qed.
Print Assumptions C82_zernike_refuted.
Example C82_instance :
  init_wfss [(CShackHartmann, 104); (CPyramid, 60)] 0 = Ok 164 /\
  init_wfss [(CShackHartmann, 104); (CGradient, 60)] 0 = Err AttributeError /\ init_wfss [(CZernike, 10)] 0 = Err NameError.
Proof. repeat split. Qed.

(** C83: elongated guide stars run exactly on the sensors whose calcFocalPlane accepts a line of sight; the gradient,
    pyramid and legacy Shack-Hartmann sensors raise TypeError for every number of layers. *)
Theorem C83_partial : forall layers : nat, elong_calls CShackHartmann layers = Ok tt.
Proof. intros. rewrite elong_others. reflexivity. Qed.
Print Assumptions C83_partial.
Theorem C83_refuted :
  forall (c : wfs_class) (layers : nat), c = CGradient \/ c = CPyramid \/ c = CShackHartmannLegacy -> (1 <= layers)%nat -> elong_calls c layers = Err TypeError.
Proof. intros c layers H Hl. rewrite elong_others. destruct layers; [lia|]. destruct H as [->|[-> | ->]]; reflexivity. Qed.
Print Assumptions C83_refuted.
Example C83_instance : elong_calls CGradient 3 = Err TypeError /\ elong_calls CShackHartmann 3 = Ok tt.
Proof. split; reflexivity. Qed.

(** C84, refuted: for a sensor that overwrites its image the slopes read at the end of an exposure do not depend on any
    earlier frame of it, whatever the frames before (read or not). *)
Theorem C84_refuted :
  forall (Ph Im : Type) (make : Ph -> Im) (slopes : Im -> vec) (nm : nat) (im im' : Im) (h h' : list (bool * Ph)) (ph : Ph),
    last (ow_run (overwrite make) base_zero_data slopes nm im (h ++ [(true, ph)])) [] =
    last (ow_run (overwrite make) base_zero_data slopes nm im' (h' ++ [(true, ph)])) [].
Proof. intros. rewrite !ow_last. reflexivity. Qed.
Print Assumptions C84_refuted.
(** Two frames of opposite tilts: the exposure sees no tilt on average, the gradient sensor reports the last one. *)
Example C84_instance :
  let tilt t := tilt_phase (qz 3) t 0 0 4 6 in
  let slopes p := match grad_frame (qz 3) 4 2 1 ex_open p 0 0 with Ok (Some (sx, sy)) => [sx; sy] | _ => [] end in
  last (ow_run (overwrite (fun p => p)) base_zero_data slopes 2 (ex_flat 0) [(false, tilt (qz 5)); (true, tilt (- qz 5)%Qc)]) [] = [qz 5; 0%Qc] /\
  slopes (comb2 (qfrac 1 2) (qfrac 1 2) (tilt (qz 5)) (tilt (- qz 5)%Qc)) = [0%Qc; 0%Qc].
Proof. split; qc_compute. Qed.

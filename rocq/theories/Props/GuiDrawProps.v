(** Property theorems C197 and C198: what the GUI draws and shows. *)
From Verif.Base Require Import Vec.
From Coq Require Import List Arith Bool Lia.
From Verif.Model Require Import GuiDraw.
From Verif.Spec Require Import GuiDrawSpec.
From Verif.Proofs Require Import GuiDrawFrame.
Import ListNotations.

(** C197: every image the simulation has is drawn, in the plot it belongs to and nowhere else, and all wavefronts (uncorrected, of the mirrors, residual) on one scale, from the least to the
    greatest of their values.  Partial: with numpy before 2.0, and if there is a wavefront. *)
Theorem C197_drawn_partial :
  forall (g : gui) (p : parts), gu_any_none g = true -> matches g p -> (exists v, wavefront_value p v) ->
    exists d calls lo hi, collect p = Some d /\ draw g d = (calls, None) /\
      (forall k i im, belongs (gu_exp g) p k i im -> In (mkCall k i im (if wavefront k then Some (lo, hi) else None)) calls) /\
      (forall c, In c calls -> belongs (gu_exp g) p (c_kind c) (c_num c) (c_img c) /\ c_levels c = if wavefront (c_kind c) then Some (lo, hi) else None) /\
      (forall v, wavefront_value p v -> (lo <= v /\ v <= hi)%Qc) /\ wavefront_value p lo /\ wavefront_value p hi.
Proof. exact draw_ok. Qed.
Print Assumptions C197_drawn_partial.
(** C197 is FALSE with numpy from 2.0, where numpy.any(None) is False and not None: a sensor without a beacon ends the drawing before any mirror or camera is drawn ... *)
Theorem C197_beacon_refuted :
  forall (g : gui) (p : parts) (d : plot) (i : nat) (s : sensor), gu_any_none g = false -> collect p = Some d ->
    nth_error (pa_sensors p) i = Some s -> (i < gu_ngs g)%nat -> se_psf s = None -> gu_lgs g i = false ->
    snd (draw g d) <> None /\ forall c, In c (fst (draw g d)) -> match c_kind c with Mirror | Science | Residual => False | _ => True end.
Proof. exact beacon_stops. Qed.
Print Assumptions C197_beacon_refuted.
(** ... and a camera without a residual (physical propagation) leaves nothing drawn at all. *)
Theorem C197_physical_refuted :
  forall (g : gui) (p : parts) (d : plot) (i : nat) (c : camera), gu_any_none g = false -> collect p = Some d ->
    nth_error (pa_cameras p) i = Some c -> (i < gu_nsci g)%nat -> ca_residual c = None -> exists e, draw g d = ([], Some e).
Proof. exact residual_stops. Qed.
Print Assumptions C197_physical_refuted.
(** C197 is FALSE of cameras alone with physical propagation, with any numpy before 2.0: there is no wavefront to find a scale from, and the images, which need none, are not drawn. *)
Theorem C197_images_refuted :
  forall (g : gui) (p : parts) (d : plot), gu_any_none g = true -> collect p = Some d -> gu_ngs g = 0%nat -> gu_ndm g = 0%nat -> gu_nsci g = length (pa_cameras p) ->
    (forall c, In c (pa_cameras p) -> ca_residual c = None) -> draw g d = ([], Some ValueError).
Proof. exact nothing_stops. Qed.
Print Assumptions C197_images_refuted.

(** Two sensors, one with a beacon, two mirrors, one not used yet, a camera. *)
Definition some_gui (b : bool) : gui := mkGui 2 2 1 (fun i => Nat.eqb i 1) Long b.
Definition some_parts : parts :=
  mkParts [mkSensor (Some [1; 0]%Qc) (Some [0; 0]%Qc) None; mkSensor (Some [1]%Qc) (Some [qz (-3); 1]%Qc) (Some [1]%Qc)] [Some [qz 7]; None] [mkCamera (Some [qz 5]) (Some [1]%Qc) (Some [qz 2])].
Example C197_instance : matches (some_gui true) some_parts /\ (exists v, wavefront_value some_parts v) /\ matches (some_gui false) some_parts /\
  nth_error (pa_sensors some_parts) 0 = Some (mkSensor (Some [1; 0]%Qc) (Some [0; 0]%Qc) None) /\ (0 < gu_ngs (some_gui false))%nat /\ gu_lgs (some_gui false) 0 = false.
Proof.
  assert (M : forall b, matches (some_gui b) some_parts).
  { intro b. repeat split; try reflexivity.
    - destruct H as [<-|[<-|[]]]; discriminate.
    - destruct H as [<-|[<-|[]]]; discriminate.
    - destruct H as [<-|[]]; discriminate.
    - destruct H as [<-|[]]; discriminate.
    - intros i s E P. destruct i as [|[|[|i]]]; cbn in E; [injection E as <-; contradiction|reflexivity|discriminate E|discriminate E].
    - intros e k i B. destruct k; cbn [belongs] in B.
      + destruct B as (s & E & Q). destruct i as [|[|[|i]]]; cbn in E; try discriminate E; injection E as <-; discriminate Q.
      + destruct B as (s & E & Q). destruct i as [|[|[|i]]]; cbn in E; try discriminate E; injection E as <-; discriminate Q.
      + destruct B as (s & E & Q). destruct i as [|[|[|i]]]; cbn in E; try discriminate E; injection E as <-; discriminate Q.
      + destruct i as [|[|[|i]]]; discriminate B.
      + destruct B as (s & E & Q). destruct i as [|[|i]]; cbn in E; try discriminate E; injection E as <-; destruct e; try discriminate Q; exact Q.
      + destruct B as (s & E & Q). destruct i as [|[|i]]; cbn in E; try discriminate E; injection E as <-; discriminate Q. }
  split; [apply M|]. split; [|split; [apply M|repeat split; cbn; lia]]. exists (qz 7), Long, Mirror, 0%nat, [qz 7]. repeat split. left. reflexivity.
Qed.
Example C197_images_instance : exists p d, collect p = Some d /\ (forall c, In c (pa_cameras p) -> ca_residual c = None) /\ belongs Long p Science 0 [1%Qc] /\ draw (mkGui 0 0 1 (fun _ => false) Long true) d = ([], Some ValueError).
Proof.
  exists (mkParts [] [] [mkCamera (Some [1%Qc]) (Some [1%Qc]) None]). eexists. split; [reflexivity|]. split; [intros c [<-|[]]; reflexivity|]. split; [eexists; split; reflexivity|reflexivity].
Qed.

(** C198: while a loop runs, the GUI shows the frames per second since it was started and the time the remaining frames take at that speed.  Partial: if the simulation was at its first frame
    when the loop was started. *)
Theorem C198_speed_partial :
  forall (k n : nat) (t : Qc), (0 < k <= n)%nat -> (0 < t)%Qc ->
    stats (0 + k) n t = (qz (Z.of_nat k) / t, qz (Z.of_nat (n - k)) * (t / qz (Z.of_nat k)))%Qc.
Proof. intros k n t K T. rewrite Nat.add_0_l, stats_rate by (auto; lia). rewrite Nat2Z.inj_sub by lia. reflexivity. Qed.
Print Assumptions C198_speed_partial.
(** C198 is FALSE of a loop that was stopped and goes on: the [m] frames from before are counted as well, and the time remaining shown is too short. *)
Theorem C198_resumed_refuted :
  forall (m k n : nat) (t : Qc), (0 < m)%nat -> (0 < k)%nat -> (m + k < n)%nat -> (0 < t)%Qc ->
    (qz (Z.of_nat k) / t < fst (stats (m + k) n t) /\ snd (stats (m + k) n t) < qz (Z.of_nat (n - (m + k))) * (t / qz (Z.of_nat k)))%Qc.
Proof.
  intros m k n t M K N T. rewrite stats_rate by (auto; lia). cbn [fst snd]. rewrite <- Nat2Z.inj_sub by lia. rewrite qz_add.
  pose proof (qz_pos m M) as PM. pose proof (qz_pos k K) as PK. pose proof (qz_pos (n - (m + k)) ltac:(lia)) as PR. set (a := qz (Z.of_nat m)) in *. set (b := qz (Z.of_nat k)) in *. set (r := qz (Z.of_nat (n - (m + k)))) in *.
  pose proof (quot_pos a t PM T) as Q1. assert (PAB : (0 < a + b)%Qc) by qclra. assert (NT : t <> 0%Qc) by (intro E; rewrite E in T; qclra). assert (NB : b <> 0%Qc) by (intro E; rewrite E in PK; qclra). assert (NAB : (a + b)%Qc <> 0%Qc) by (intro E; rewrite E in PAB; qclra).
  split; [replace ((a + b) / t)%Qc with (a / t + b / t)%Qc by (field; exact NT); qclra|].
  assert (PP : (0 < b * (a + b))%Qc) by (replace 0%Qc with (0 * (a + b))%Qc by ring; apply Qcmult_lt_compat_r; assumption).
  assert (PT : (0 < r * t * a)%Qc). { assert (0 < r * t)%Qc by (replace 0%Qc with (0 * t)%Qc by ring; apply Qcmult_lt_compat_r; assumption). replace 0%Qc with (0 * a)%Qc by ring. apply Qcmult_lt_compat_r; assumption. }
  pose proof (quot_pos _ _ PT PP) as Q2. assert (E : (r * (t / b) = r * (t / (a + b)) + r * t * a / (b * (a + b)))%Qc) by (field; split; assumption). rewrite E. qclra.
Qed.
Print Assumptions C198_resumed_refuted.
(** 40 of 100 frames in 8 seconds; and 60 more after 30 frames of another run. *)
Example C198_instance : (0 < 40 <= 100)%nat /\ (0 < qz 8)%Qc /\ (0 < 30)%nat /\ (0 < 60)%nat /\ (30 + 60 < 100)%nat /\ fst (stats 40 100 (qz 8)) = qz 5 /\ fst (stats (30 + 60) 100 (qz 10)) = qz 9.
Proof. repeat split; try lia; try reflexivity; apply Qc_is_canon; reflexivity. Qed.

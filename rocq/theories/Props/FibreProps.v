(** The single mode fibre. *)
From Coquelicot Require Import Complex.
From Verif.Base Require Import Vec CSum CSumFacts.
From Coq Require Import Reals Lra Lia.
From Verif.Model Require Import Science.
From Verif.Model Require Import Fibre.
From Verif.Spec Require Import FibreSpec.
From Verif.Proofs Require Import FibreProofs.
Local Open Scope R_scope.

(** A single mode fibre in geometric propagation, whatever happened to it before, reports after each frame a coupling between nothing and
    what it announced for a flat wavefront, which is positive and at most one.  It reports just that if and only if the residual over the
    aperture is flat up to whole waves.  A residual within B radians of flat, B up to a quarter of a wave, costs at most a factor cos^2 B.
    Piston, and whole waves anywhere, change nothing. *)
Theorem C200_coupling : forall n w mask acts atmos correction, (0 < n)%Z -> w <> 0 -> aperture n mask ->
  exists f, fibre_run (acts ++ FFrame atmos correction :: nil) (fibre_new n w mask) = Ok f /\
    0 <= fb_inst f <= ref_strehl n w mask /\ 0 < ref_strehl n w mask <= 1 /\
    (fb_inst f = ref_strehl n w mask <-> exists d, through n mask (fun i j => whole_waves (atmos i j - correction i j) d)) /\
    (forall d B, 0 <= B <= PI / 2 -> through n mask (fun i j => Rabs (atmos i j - correction i j - d) <= B) ->
       cos B * cos B * ref_strehl n w mask <= fb_inst f) /\
    (forall acts' atmos' correction' d,
       through n mask (fun i j => whole_waves (atmos' i j - correction' i j) (atmos i j - correction i j + d)) ->
       exists f', fibre_run (acts' ++ FFrame atmos' correction' :: nil) (fibre_new n w mask) = Ok f' /\ fb_inst f' = fb_inst f).
Proof.
  intros n w mask acts a c Hn Hw A.
  assert (Run : forall acts' a' c', exists f', fibre_run (acts' ++ FFrame a' c' :: nil) (fibre_new n w mask) = Ok f' /\ fb_inst f' = fibre_coupling n w mask (los_field a' c')).
  { intros acts' a' c'. destruct (run_kept n w mask acts' (fibre_new n w mask) (new_kept n w mask)) as (g & Eg & Kn & Kw & Km & _ & _).
    rewrite run_app, Eg. cbn [fibre_run]. rewrite frame_geo. eexists. split; [reflexivity|]. cbn [fb_inst]. rewrite Kn, Kw, Km. reflexivity. }
  destruct (Run acts a c) as (f & Ef & Ei). exists f. split; [exact Ef|]. rewrite Ei.
  assert (P : 0 < ref_strehl n w mask).
  { rewrite ref_value. pose proof (weight_sum_pos n w mask Hn A). apply Rmult_lt_0_compat; assumption. }
  split; [split; [apply cnorm2_nonneg|apply coupling_le; assumption]|].
  split; [split; [exact P|apply ref_le_one; assumption]|].
  split.
  - split.
    + intros F. pose proof (coupling_full n w mask a c Hn A F) as W. destruct (proj2 A) as (k & l & Hkl & Pm). exists (a k l - c k l).
      intros i j Hij Hm. apply W; assumption.
    + intros [d Hd]. apply coupling_flat with d; assumption.
  - split.
    + intros d B HB H. apply coupling_low with d; assumption.
    + intros acts' a' c' d H. destruct (Run acts' a' c') as (f' & Ef' & Ei'). exists f'. split; [exact Ef'|]. rewrite Ei'. apply coupling_same with d; assumption.
Qed.
Print Assumptions C200_coupling.

(** The long exposure Strehl of a fibre, which the simulation records with that of the other instruments, is zero after any history, that of
    perfect correction in every frame included. *)
Theorem C200_long_refuted : forall n w mask acts atmos correction d, (0 < n)%Z -> w <> 0 -> aperture n mask ->
  through n mask (fun i j => whole_waves (atmos i j - correction i j) d) ->
  exists f, fibre_run (acts ++ FFrame atmos correction :: nil) (fibre_new n w mask) = Ok f /\
    0 < fb_inst f /\ fb_inst f = ref_strehl n w mask /\ fb_long f = 0.
Proof.
  intros n w mask acts a c d Hn Hw A H.
  destruct (C200_coupling n w mask acts a c Hn Hw A) as (f & Ef & _ & [P _] & [_ Full] & _).
  assert (E : fb_inst f = ref_strehl n w mask) by (apply Full; exists d; exact H).
  exists f. split; [exact Ef|]. rewrite E. split; [exact P|]. split; [reflexivity|].
  destruct (run_kept n w mask (acts ++ FFrame a c :: nil) (fibre_new n w mask) (new_kept n w mask)) as (g & Eg & _ & _ & _ & L & _).
  rewrite Ef in Eg. injection Eg as <-. exact L.
Qed.
Print Assumptions C200_long_refuted.

(** With physical propagation the constructor succeeds, and every frame fails: the field along the line of sight always has more elements
    than the mode of the fibre. *)
Theorem C200_physical_refuted : forall pupil pad nx os ratio fuel g w mask field, (0 < pupil)%Z -> (0 < pad)%Z -> (0 < ratio)%Qc ->
  sci_geometry pupil (pupil + 2 * pad) nx os ratio fuel = Some (Ok g) ->
  fibre_frame (field_size true g (pupil + 2 * pad)) field (fibre_new (pupil + 2 * pad) w mask) = Err ValueError.
Proof.
  intros pupil pad nx os ratio fuel g w mask field Hp Hd Hr H. apply frame_phys with nx os ratio fuel; try assumption. reflexivity.
Qed.
Print Assumptions C200_physical_refuted.

(** Two open elements out of four: in phase, half a wave apart, and a camera with physical propagation. *)
Definition pair_mask : image := fun i j => if (i =? 0)%Z then 1 else 0.
Definition half_wave : image := fun i j => if (j =? 0)%Z then PI else 0.
Example C200_instance :
  aperture 2 pair_mask /\ through 2 pair_mask (fun i j => whole_waves (2 * PI - 0) 0) /\
  ~ (exists d, through 2 pair_mask (fun i j => whole_waves (half_wave i j - 0) d)) /\
  through 2 pair_mask (fun i j => Rabs (half_wave i j - 0 - PI / 2) <= PI / 2) /\
  (exists g, sci_geometry 8 10 4 2 (qfrac 33 10) 20 = Some (Ok g) /\ g_padfov g = 11%Z).
Proof.
  pose proof PI_RGT_0 as Pp. split; [|split; [|split; [|split]]].
  - split.
    + intros i j _. unfold pair_mask. destruct (i =? 0)%Z; lra.
    + exists 0%Z, 0%Z. split; [split; lia|]. cbn. lra.
  - intros i j _ _. exists 1%Z. ring.
  - intros [d H]. destruct (H 0%Z 0%Z) as [m Hm]; [split; lia|cbn; lra|]. destruct (H 0%Z 1%Z) as [k Hk]; [split; lia|cbn; lra|].
    cbn in Hm, Hk. assert (E : PI * 1 = PI * (2 * (IZR m - IZR k))) by lra. apply Rmult_eq_reg_l in E; [|lra].
    rewrite <- minus_IZR, <- mult_IZR in E. apply eq_IZR in E. lia.
  - intros i j _ _. unfold half_wave. destruct (j =? 0)%Z; unfold Rabs; destruct (Rcase_abs _); lra.
  - eexists. split; [vm_compute; reflexivity|reflexivity].
Qed.

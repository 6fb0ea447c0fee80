(** C168, C169: sub-apertures without light, and NaN. *)
From Verif.Base Require Import Vec.
From Verif.Model Require Import Recon Sh NoLight.
From Verif.Spec Require Import NoLightSpec.
From Verif.Proofs Require Import NoLightProofs.

(** ** C168.  Full property: a sub-aperture that received no light in a frame measures no slope.  REFUTED.
    The centroid of a window without light is NaN ... *)
Theorem C168_dark_partial : forall w : window, dark w -> cog_x w = NaN /\ cog_y w = NaN.
Proof. exact dark_cog. Qed.
Print Assumptions C168_dark_partial.
(** ... and a NaN centroid is replaced by 0 before the slopes are taken relative to the flat wavefront: the slope is
    minus the whole distance from the first pixel to the place of the spot of a flat wavefront. *)
Theorem C168_refuted :
  forall (p : Z) (n : nat) (flat cents : fvec) (k : nat) (q : Qc),
    at_k flat k (Num q) -> at_k cents k NaN ->
    at_k (sh_measure p (Some (sh_measure p None n false flat)) n false cents) k (Num (- q)%Qc).
Proof. exact dark_slope. Qed.
Print Assumptions C168_refuted.
(** With light nothing is replaced: the slopes are those of C44 and C79. *)
Theorem C168_lit_partial :
  forall (p : Z) (static : option vec) (n : nat) (tt : bool) (cents : vec),
    sh_measure p (option_map (map Num) static) n tt (map Num cents) = map Num (calc_slopes p static n tt cents) /\
    legacy_measure p (option_map (map Num) static) n tt (map Num cents) = map Num (calc_slopes p static n tt cents).
Proof. exact measure_nums. Qed.
Print Assumptions C168_lit_partial.

(** Two sub-apertures of 4 x 4 pixels, whose spots are at 3/2 for a flat wavefront; in this frame no photon falls on
    the second: its slopes are -3/2 pixels, nearly the half width of the window. *)
Definition nl_lit : window := [[0;0;0;0]; [0;1;1;0]; [0;1;1;0]; [0;0;0;0]]%Qc.
Definition nl_dark : window := repeat (repeat 0%Qc 4) 4.
Example C168_instance :
  let cents a b := [cog_x a; cog_x b; cog_y a; cog_y b] in
  dark nl_dark /\ cents nl_lit nl_lit = repeat (Num (qfrac 3 2)) 4 /\
  sh_measure 4 (Some (sh_measure 4 None 2 false (cents nl_lit nl_lit))) 2 false (cents nl_lit nl_dark)
  = [Num 0; Num (qfrac (-3) 2); Num 0; Num (qfrac (-3) 2)].
Proof.
  cbv zeta. split; [repeat constructor|]. split.
  - vm_compute. repeat (apply f_equal2; [apply f_equal, Qc_is_canon; reflexivity|]). reflexivity.
  - vm_compute. repeat (apply f_equal2; [apply f_equal, Qc_is_canon; reflexivity|]). reflexivity.
Qed.

(** ** C169.  Full property: measurements and commands are numbers, whatever light there is.
    Proved for the ordinary sensor ... *)
Theorem C169_numbers_partial :
  forall (p : Z) (static : option fvec) (n : nat) (tt : bool) (cents : fvec),
    match static with Some s => Forall is_num s | None => True end ->
    Forall is_num (sh_measure p static n tt cents).
Proof. exact sh_numbers. Qed.
Print Assumptions C169_numbers_partial.
(** ... and for the commands, which from numbers are those of C11. *)
Theorem C169_commands_partial :
  forall (ds : list dm) (nmeas total : nat) (ctrl : mat) (s : option vec) (m : vec),
    freconstruct ds nmeas total ctrl (option_map (map Num) s) (map Num m)
    = rmap (map Num) (reconstruct ds nmeas total ctrl s m).
Proof. exact recon_nums. Qed.
Print Assumptions C169_commands_partial.
(** REFUTED for the legacy sensor: the final check of the frame drops its result and NaN is returned, ... *)
Theorem C169_legacy_refuted :
  forall (p : Z) (static : option fvec) (n : nat) (cents : fvec) (k : nat) (z : fl),
    at_k cents k NaN -> match static with Some s => at_k s k z | None => True end ->
    at_k (legacy_measure p static n false cents) k NaN.
Proof. exact legacy_nan. Qed.
Print Assumptions C169_legacy_refuted.
(** ... with tip-tilt removal for all sub-apertures, ... *)
Theorem C169_legacy_tt_refuted :
  forall (p : Z) (static : option fvec) (n : nat) (cents : fvec) (k : nat) (z : fl),
    at_k cents k NaN -> (k < n)%nat -> match static with Some s => at_k s k z | None => True end ->
    forall j, (j < n)%nat -> (j < length (legacy_measure p static n true cents))%nat ->
      at_k (legacy_measure p static n true cents) j NaN.
Proof. exact legacy_tt_nan. Qed.
Print Assumptions C169_legacy_tt_refuted.
(** ... and one NaN among the measurements of one frame makes NaN of every command of every mirror, of this frame and of
    all that follow, whatever they measure, ... *)
Theorem C169_poisoned_refuted :
  forall (ds : list dm) (nmeas total : nat) (ctrl : mat) (s : option fvec) (m : fvec) (ops : list frecon_op),
    fitted ds nmeas total ctrl -> match s with Some a => length a = total | None => True end ->
    length m = nmeas -> In NaN m -> Forall (frame_of_length nmeas) ops ->
    exists b, frecon_run ds nmeas total ctrl s (FFrame m :: ops) = Ok (Some b) /\ lost b /\ length b = total.
Proof. exact poisoned. Qed.
Print Assumptions C169_poisoned_refuted.
(** ... until the loop is reset. *)
Theorem C169_reset_partial :
  forall (ds : list dm) (nmeas total : nat) (ctrl : mat) (a : fvec) (m : vec),
    frecon_run ds nmeas total ctrl (Some a) [FReset; FFrame (map Num m)]
    = rmap Some (rmap (map Num) (reconstruct ds nmeas total ctrl (Some (vzero (length a))) m)).
Proof. exact cleared. Qed.
Print Assumptions C169_reset_partial.

(** The frame of C168's instance on the legacy sensor; a mirror of two actuators in closed loop and one of one in open
    loop that the dark sub-aperture does not even control: after one more, fully lit frame all are NaN. *)
Definition nl_dms : list dm := [mkDm 2 [] [true; true] (Some 2%nat) true (qfrac 1 2); mkDm 1 [] [true] (Some 1%nat) false (qfrac 1 4)].
Definition nl_ctrl : mat := [[1; 0; 0; 0]; [0; 0; 1; 0]; [0; 1; 0; 1]]%Qc.
Example C169_instance :
  let m := legacy_measure 4 (Some (repeat (Num (qfrac (-1) 2)) 4)) 2 false [cog_x nl_lit; cog_x nl_dark; cog_y nl_lit; cog_y nl_dark] in
  fitted nl_dms 4 3 nl_ctrl /\ m = [Num 0; NaN; Num 0; NaN] /\
  frecon_run nl_dms 4 3 nl_ctrl None [FFrame m; FFrame (repeat (Num 1) 4)] = Ok (Some [NaN; NaN; NaN]) /\
  frecon_run nl_dms 4 3 nl_ctrl None [FFrame (repeat (Num 1) 4)] = Ok (Some [Num (qfrac 1 2); Num (qfrac 1 2); Num (qfrac 1 2)]).
Proof.
  cbv zeta. split; [repeat split; repeat constructor; discriminate|]. split; [|split].
  - vm_compute. repeat (apply f_equal2; [first [reflexivity | apply f_equal, Qc_is_canon; reflexivity]|]). reflexivity.
  - vm_compute. reflexivity.
  - vm_compute. do 2 apply f_equal. repeat (apply f_equal2; [apply f_equal, Qc_is_canon; reflexivity|]). reflexivity.
Qed.

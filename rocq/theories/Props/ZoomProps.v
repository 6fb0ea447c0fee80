(** C146, continued: what interpolation makes of shapes of another size. *)
From Verif.Base Require Import Vec.
From Verif.Model Require Import ZoomMissing.
From Verif.Spec Require Import ScreenSpec.
From Verif.Spec Require Import ZoomSpec.
From Verif.Proofs Require Import ZoomProofs.
Local Open Scope Qc_scope.

(** Whatever the triangulation, an element of a resized shape is zero or between the least and greatest nonzero values of the file. *)
Theorem C146_between : forall gd acts k n p file lo hi, linear_griddata gd -> (acts <= k)%Z -> n <> p ->
  (forall a i j v, file a i j = Some v -> v <> 0 -> lo <= v <= hi) ->
  exists z, custom_shapes gd acts k n n p file = Ok z /\ forall a i j, z a i j = 0 \/ lo <= z a i j <= hi.
Proof. exact zoom_between. Qed.
Print Assumptions C146_between.
(** Planes stay planes inside the file's grid of points; a shape made smaller lies wholly inside. *)
Theorem C146_plane_partial : forall gd acts k n p file A B C, linear_griddata gd -> (acts <= k)%Z -> (2 <= n)%Z -> (0 < p)%Z -> n <> p ->
  full n file -> plane_file n A B C file ->
  exists z, custom_shapes gd acts k n n p file = Ok z /\
    (forall a i j, inside n p i -> inside n p j -> z a i j = A a + B a * middle p i + C a * middle p j) /\
    ((p <= n)%Z -> forall i, (0 <= i < p)%Z -> inside n p i).
Proof.
  intros gd acts k n p file A B C L Hk Hn Hp N FF H. destruct (zoom_plane gd acts k n p file A B C L Hk Hn Hp N FF H) as (z & E & Z).
  exists z. split; [exact E|]. split; [exact Z|]. intros Hs i Hi. apply inside_smaller; assumption.
Qed.
Print Assumptions C146_plane_partial.
(** Outside it they do not: a shape made larger has zeros all around its border, whatever the file holds. *)
Theorem C146_border_refuted : forall gd acts k n p file, linear_griddata gd -> (acts <= k)%Z -> (0 < n)%Z -> (n < p)%Z ->
  exists z, custom_shapes gd acts k n n p file = Ok z /\
    forall a i j, i = 0%Z \/ i = (p - 1)%Z \/ j = 0%Z \/ j = (p - 1)%Z -> z a i j = 0.
Proof. exact zoom_border. Qed.
Print Assumptions C146_border_refuted.
(** Such interpolators exist, and so do files to resize. *)
Example C146_linear_instance : linear_griddata bilinear_gd.
Proof. exact bilinear_linear. Qed.
Example C146_plane_instance :
  let file := fun (_ i j : Z) => Some (qz 5 + 1 * middle 3 i + qz 2 * middle 3 j) in
  plane_file 3 (fun _ => qz 5) (fun _ => 1) (fun _ => qz 2) file /\ full 3 file /\
  match custom_shapes bilinear_gd 1 2 3 3 2 file, custom_shapes bilinear_gd 1 2 3 3 4 file with
  | Ok z, Ok y => map (fun i => map (z 0%Z i) [0; 1]%Z) [0; 1]%Z = [[qz 7 / qz 2; qz 11 / qz 2]; [qz 9 / qz 2; qz 13 / qz 2]] /\
      map (fun i => map (y 0%Z i) [0; 1; 2; 3]%Z) [0; 1; 2; 3]%Z = [[0; 0; 0; 0]; [0; qz 17 / qz 4; qz 21 / qz 4; 0]; [0; qz 19 / qz 4; qz 23 / qz 4; 0]; [0; 0; 0; 0]]
  | _, _ => False end.
Proof.
  split; [intros a i j _ _; reflexivity|]. split.
  - intros a i j Hi Hj. eexists. split; [reflexivity|].
    assert (I : (i = 0 \/ i = 1 \/ i = 2)%Z) by lia. assert (J : (j = 0 \/ j = 1 \/ j = 2)%Z) by lia.
    destruct I as [->|[->| ->]], J as [->|[->| ->]]; vm_compute; discriminate.
  - vm_compute. split; repeat (apply f_equal2; [repeat (apply f_equal2; [apply Qc_is_canon; reflexivity|]); reflexivity|]); reflexivity.
Qed.

(** Tactics that call the checkers of AttrsProofs and AttrsMore. *)
From Coq Require Import List String Bool.
From Verif Require Import Model.Attrs Spec.AttrsSpec Proofs.AttrsProofs Proofs.AttrsMore.
Import ListNotations.
Open Scope string_scope.

Ltac by_check T imp :=
  intros rho;
  match goal with
  | |- clean _ ?M ?pre ?ms =>
    exact (proj1 (check_all_sound 400 40 T (fun _ => true) M imp pre ms [] rho
             ltac:(vm_compute; reflexivity) eq_refl))
  | |- forall a, In a ?want -> provides _ ?M ?pre ?ms a =>
    exact (proj2 (check_all_sound 400 40 T (fun _ => true) M imp pre ms want rho
             ltac:(vm_compute; reflexivity) eq_refl))
  end.
Ltac by_stuck T :=
  intros rho;
  match goal with
  | |- never_returns _ ?M ?pre ?c =>
    intros S S'; exact (stuck_all_sound 400 40 T (fun _ => true) M pre c rho S S'
      ltac:(vm_compute; reflexivity) eq_refl)
  end.
Ltac by_lacks T :=
  intros rho;
  match goal with
  | |- lacks _ ?M ?pre ?ms ?a =>
    exact (lacks_all_sound 400 40 T (fun _ => true) M pre ms a rho
             ltac:(vm_compute; reflexivity) eq_refl)
  end.
(* [l]: the calls before, each with the branches to take *)
Ltac by_run l ch :=
  match goal with
  | |- can_end ?rho ?M ?pre ?c ?o =>
    exact (ends_sound 4000 rho M l c ch o ltac:(vm_compute; reflexivity))
  | |- startable ?rho ?M ?pre =>
    exact (starts_sound 4000 rho M l ltac:(vm_compute; reflexivity))
  end.

(* arguments of these tactics *)
Definition no := @nil string.
Definition nimp := @nil (string * string).
Definition nb := @nil bool.

Lemma switches_on need T rho : incl need T -> incl need rho ->
  forallb (fun c => mem c (restrict T rho)) need = true.
Proof.
  intros HT HR. apply forallb_forall. intros c Hc. rewrite <- restrict_agree by (apply HT; exact Hc).
  apply mem_In. apply HR. exact Hc.
Qed.


(** More about executions of attribute effects: they depend on the configuration
    only through the switches a program tests; a bound on the attributes an
    object can ever get; statements that cannot return; and an interpreter that
    finds executions.  Nothing here appears in the statements of the theorems in
    Props/AttrsProps.v. *)
From Coq Require Import List String Bool Arith.
From Verif Require Import Model.Attrs Spec.AttrsSpec Proofs.AttrsProofs.
Import ListNotations.
Open Scope string_scope.

(** ** Dependence on the configuration *)
Fixpoint tests_in (T : list string) (s : stmt) : bool :=
  match s with
  | Seq a b | Or a b | IfHas _ a b | Try _ _ a b => tests_in T a && tests_in T b
  | Cond c a b => mem c T && tests_in T a && tests_in T b
  | Loop a => tests_in T a
  | _ => true
  end.
Definition table_in (T : list string) (l : list (string * stmt)) : bool :=
  forallb (fun p => tests_in T (snd p)) l.
Definition mro_in (T : list string) (M : mro) : bool :=
  forallb (fun c => table_in T (c_meth c) && table_in T (c_get c) && table_in T (c_set c)) M.

Lemma assoc_in T m l b : table_in T l = true -> assoc m l = Some b -> tests_in T b = true.
Proof.
  induction l as [|[k s] l IH]; cbn; [discriminate|].
  intros H. apply andb_true_iff in H. destruct H as [H1 H2].
  destruct (String.eqb k m); [intros E; injection E as <-; exact H1|apply IH; exact H2].
Qed.
Lemma find_in_in T f M m b : (forall c, In c M -> table_in T (f c) = true) ->
  find_in f M m = Some b -> tests_in T b = true.
Proof.
  induction M as [|c M IH]; cbn; [discriminate|]. intros H.
  destruct (assoc m (f c)) as [s|] eqn:E.
  - intros E2. injection E2 as <-. eapply assoc_in; [apply H; left; reflexivity|exact E].
  - apply IH. intros d Hd. apply H. right. exact Hd.
Qed.
Lemma mro_in_parts T M : mro_in T M = true ->
  (forall c, In c M -> table_in T (c_meth c) = true) /\
  (forall c, In c M -> table_in T (c_get c) = true) /\
  (forall c, In c M -> table_in T (c_set c) = true).
Proof.
  unfold mro_in. rewrite forallb_forall. intros H.
  repeat split; intros c Hc; specialize (H c Hc); apply andb_true_iff in H; destruct H as [H H3];
    apply andb_true_iff in H; destruct H as [H1 H2]; assumption.
Qed.
Lemma after_incl k : forall M M', after k M = Some M' -> incl M' M.
Proof.
  induction M as [|c M IH]; cbn; [discriminate|]. intros M'.
  destruct (String.eqb (c_name c) k).
  - intros E. injection E as <-. apply incl_tl, incl_refl.
  - intros E. apply incl_tl. apply IH. exact E.
Qed.
Lemma from_incl k : forall M M', from k M = Some M' -> incl M' M.
Proof.
  induction M as [|c M IH]; cbn; [discriminate|]. intros M'.
  destruct (String.eqb (c_name c) k).
  - intros E. injection E as <-. apply incl_refl.
  - intros E. apply incl_tl. apply IH. exact E.
Qed.

Lemma callee_in (P : stmt -> Prop) M S s b :
  (forall m b, find_in c_get M m = Some b -> P b) ->
  (forall m b, find_in c_set M m = Some b -> P b) ->
  (forall M' m b, incl M' M -> find_in c_meth M' m = Some b -> P b) ->
  callee M S s = Some (inr b) -> P b.
Proof.
  intros HG HS HM H. destruct s; cbn in H; try discriminate H.
  - injection H as H. unfold lookup in H. destruct (find_in c_get M a) eqn:E.
    + injection H as <-. eapply HG. exact E.
    + destruct (mem a S); [discriminate|]. destruct (find_in c_meth M a); [discriminate|].
      destruct (existsb _ M); discriminate.
  - destruct (find_in c_set M a) eqn:E; [injection H as <-; eapply HS; exact E|].
    destruct (find_in c_get M a); discriminate.
  - injection H as H. unfold lookup in H. destruct (find_in c_get M m) eqn:E.
    + injection H as <-. eapply HG. exact E.
    + destruct (mem m S); [discriminate|]. destruct (find_in c_meth M m) eqn:E2.
      * injection H as <-. eapply HM; [apply incl_refl|exact E2].
      * destruct (existsb _ M); discriminate.
  - injection H as H. destruct (after k M) eqn:E1; [|discriminate].
    destruct (find_in c_meth m0 m) eqn:E2.
    + injection H as <-. eapply HM; [eapply after_incl; exact E1|exact E2].
    + destruct (String.eqb m "__init__"); discriminate.
  - injection H as H. destruct (from k M) eqn:E1; [|discriminate].
    destruct (find_in c_meth m0 m) eqn:E2; [|discriminate].
    injection H as <-. eapply HM; [eapply from_incl; exact E1|exact E2].
Qed.

Lemma callee_tests T M S s b : mro_in T M = true -> callee M S s = Some (inr b) ->
  tests_in T b = true.
Proof.
  intros HM. destruct (mro_in_parts _ _ HM) as (H1 & H2 & H3).
  apply (callee_in (fun b => tests_in T b = true)).
  - intros m b0. apply find_in_in. exact H2.
  - intros m b0. apply find_in_in. exact H3.
  - intros M' m b0 HI. apply find_in_in. intros c Hc. apply H1. apply HI. exact Hc.
Qed.

Lemma exec_agree rho rho' M T : mro_in T M = true ->
  (forall c, In c T -> mem c rho = mem c rho') ->
  forall s S S' o, exec rho M s S S' o -> tests_in T s = true -> exec rho' M s S S' o.
Proof.
  intros HM HT. induction 1; intros Ht; cbn in Ht;
    repeat match goal with H : _ && _ = true |- _ => apply andb_true_iff in H; destruct H end.
  - apply X_raise.
  - apply X_skip.
  - apply X_ret.
  - apply X_brk.
  - apply X_undef.
  - apply X_none; assumption.
  - eapply X_call; [eassumption|]. apply IHexec. eapply callee_tests; eassumption.
  - apply X_put; assumption.
  - eapply X_seq; eauto.
  - eapply X_seq_stop; eauto.
  - apply X_or_l; auto.
  - apply X_or_r; auto.
  - apply X_cond. rewrite <- HT by (apply mem_In; assumption). apply IHexec.
    destruct (mem c rho); assumption.
  - apply X_has. apply IHexec. destruct (mem a S); assumption.
  - apply X_loop_end.
  - eapply X_loop_more; [apply IHexec1; assumption|assumption|apply IHexec2; assumption].
  - apply X_loop_stop; auto.
  - apply X_try; auto.
  - eapply X_try_exc; eauto.
  - eapply X_try_attr; eauto.
  - eapply X_try_name; eauto.
Qed.

Lemma runs_agree rho rho' M T : mro_in T M = true ->
  (forall c, In c T -> mem c rho = mem c rho') ->
  forall l S S', runs rho M l S S' -> forallb (tests_in T) l = true -> runs rho' M l S S'.
Proof.
  intros HM HT l S S' H. induction H; cbn; intros Hl; [constructor|].
  apply andb_true_iff in Hl. destruct Hl. econstructor; [eapply exec_agree; eassumption|auto].
Qed.
Lemma used_agree rho rho' M T pre ms : mro_in T M = true ->
  (forall c, In c T -> mem c rho = mem c rho') ->
  forallb (tests_in T) pre = true -> forallb (tests_in T) ms = true ->
  forall S, used rho M pre ms S -> used rho' M pre ms S.
Proof.
  intros HM HT Hp Hm S H. induction H.
  - apply U_new. eapply runs_agree; eassumption.
  - eapply U_call; [eassumption|eassumption|].
    eapply exec_agree; try eassumption. rewrite forallb_forall in Hm. auto.
Qed.

Fixpoint sublists {A} (l : list A) : list (list A) :=
  match l with
  | [] => [[]]
  | x :: l => let r := sublists l in r ++ map (cons x) r
  end.
Lemma filter_sublists {A} (f : A -> bool) l : In (filter f l) (sublists l).
Proof.
  induction l as [|x l IH]; cbn; [auto|].
  apply in_or_app. destruct (f x); [right; apply in_map; exact IH|left; exact IH].
Qed.
Definition restrict (T rho : list string) : list string := filter (fun c => mem c rho) T.
Lemma restrict_agree T rho c : In c T -> mem c rho = mem c (restrict T rho).
Proof.
  intros H. destruct (mem c rho) eqn:E; symmetry.
  - apply mem_In. apply filter_In. auto.
  - destruct (mem c (restrict T rho)) eqn:E2; [|reflexivity].
    apply mem_In in E2. apply filter_In in E2. destruct E2. congruence.
Qed.

Definition closed_tests (T : list string) (M : mro) (pre ms : list stmt) : bool :=
  mro_in T M && forallb (tests_in T) pre && forallb (tests_in T) ms.
Lemma closed_tests_parts T M pre ms : closed_tests T M pre ms = true ->
  mro_in T M = true /\ forallb (tests_in T) pre = true /\ forallb (tests_in T) ms = true.
Proof.
  unfold closed_tests. intros H. apply andb_true_iff in H. destruct H as [H H3].
  apply andb_true_iff in H. tauto.
Qed.

Lemma clean_agree T M pre ms rho : closed_tests T M pre ms = true ->
  clean (restrict T rho) M pre ms -> clean rho M pre ms.
Proof.
  intros HT [H1 H2]. apply closed_tests_parts in HT. destruct HT as (HM & Hp & Hm). split.
  - intros l1 c l2 S S' o E HR HX. subst pre.
    rewrite forallb_app in Hp. apply andb_true_iff in Hp. destruct Hp as [Hp1 Hp2].
    cbn in Hp2. apply andb_true_iff in Hp2. destruct Hp2 as [Hp2 _].
    eapply H1; [reflexivity| |].
    + eapply runs_agree; [exact HM|apply restrict_agree|exact HR|exact Hp1].
    + eapply exec_agree; [exact HM|apply restrict_agree|exact HX|exact Hp2].
  - intros S c S' o HU Hc HX. eapply (H2 S c S' o); [|exact Hc|].
    + eapply used_agree; [exact HM|apply restrict_agree|exact Hp|exact Hm|exact HU].
    + eapply exec_agree; [exact HM|apply restrict_agree|exact HX|].
      rewrite forallb_forall in Hm. auto.
Qed.
Lemma provides_agree T M pre ms rho a : closed_tests T M pre ms = true ->
  provides (restrict T rho) M pre ms a -> provides rho M pre ms a.
Proof.
  intros HT H S HU. apply closed_tests_parts in HT. destruct HT as (HM & Hp & Hm).
  apply H. eapply used_agree; [exact HM|apply restrict_agree|exact Hp|exact Hm|exact HU].
Qed.

(** Every attribute some statement assigns, following calls (only a guess: it is
    checked, not trusted). *)
Definition union (a b : list string) : list string :=
  fold_right (fun x acc => if mem x acc then acc else x :: acc) b a.
Fixpoint puts (fuel : nat) (rho : list string) (M : mro) (s : stmt) : list string :=
  match fuel with
  | O => []
  | Datatypes.S f =>
    match callee M [] s with
    | Some (inr b) => puts f rho M b
    | Some (inl _) => []
    | None =>
      match s with
      | Put a => [a]
      | Seq a b | Or a b | IfHas _ a b | Try _ _ a b => union (puts f rho M a) (puts f rho M b)
      | Cond c a b => if mem c rho then puts f rho M a else puts f rho M b
      | Loop a => puts f rho M a
      | _ => []
      end
    end
  end.
Definition all_puts (fuel : nat) (rho : list string) (M : mro) (l : list stmt) : list string :=
  fold_right (fun s acc => union (puts fuel rho M s) acc) [] l.

(* PF: fuel for puts, depth of nesting; CF: fuel for the checker, depth of calls *)

(** The whole check, for every configuration satisfying [P]. *)
Definition check_all (PF CF : nat) (T : list string) (P : list string -> bool) (M : mro)
  (imp : list (string * string)) (pre ms : list stmt) (want : list string) : bool :=
  closed_tests T M pre ms &&
  forallb (fun rho => implb (P rho)
     (check rho M (all_puts PF rho M (pre ++ ms)) imp CF pre ms want)) (sublists T).

Lemma check_all_sound PF CF T P M imp pre ms want rho :
  check_all PF CF T P M imp pre ms want = true -> P (restrict T rho) = true ->
  clean rho M pre ms /\ forall a, In a want -> provides rho M pre ms a.
Proof.
  unfold check_all. intros H HP. apply andb_true_iff in H. destruct H as [HT H].
  rewrite forallb_forall in H. specialize (H (restrict T rho) (filter_sublists _ T)).
  rewrite HP in H. cbn [implb] in H. apply check_sound in H. destruct H as [H1 H2].
  split; [eapply clean_agree; eassumption|].
  intros a Ha. eapply provides_agree; [eassumption|]. apply H2. exact Ha.
Qed.

(** ** A bound on the attributes an object can get *)
Section Bound.
Variables (rho : list string) (M : mro) (may : list string).

(* every attribute [s] can assign is in [may] *)
Fixpoint clo (fuel : nat) : stmt -> bool :=
  match fuel with
  | O => fun _ => false
  | S fuel' =>
    fix go (s : stmt) {struct s} : bool :=
      match s with
      | Get a => match find_in c_get M a with Some g => clo fuel' g | None => true end
      | Inv m => match find_in c_get M m with
                 | Some g => clo fuel' g
                 | None => match find_in c_meth M m with Some b => clo fuel' b | None => true end
                 end
      | Sup k m => match after k M with
                   | Some M' => match find_in c_meth M' m with Some b => clo fuel' b | None => true end
                   | None => true
                   end
      | Own k m => match from k M with
                   | Some M' => match find_in c_meth M' m with Some b => clo fuel' b | None => true end
                   | None => true
                   end
      | Put a => match find_in c_set M a with
                 | Some b => clo fuel' b
                 | None => mem a may
                 end
      | Seq a b | Or a b | IfHas _ a b | Try _ _ a b => go a && go b
      | Cond c a b => if mem c rho then go a else go b
      | Loop a => go a
      | _ => true
      end
  end.

Lemma callee_clo f S s b : clo (Datatypes.S f) s = true -> callee M S s = Some (inr b) ->
  clo f b = true.
Proof.
  intros HC H. destruct s; cbn in H, HC; try discriminate H.
  - injection H as H. unfold lookup in H. destruct (find_in c_get M a).
    + injection H as <-. exact HC.
    + destruct (mem a S); [discriminate|]. destruct (find_in c_meth M a); [discriminate|].
      destruct (existsb _ M); discriminate.
  - destruct (find_in c_set M a); [injection H as <-; exact HC|].
    destruct (find_in c_get M a); discriminate.
  - injection H as H. unfold lookup in H. destruct (find_in c_get M m).
    + injection H as <-. exact HC.
    + destruct (mem m S); [discriminate|]. destruct (find_in c_meth M m).
      * injection H as <-. exact HC.
      * destruct (existsb _ M); discriminate.
  - injection H as H. destruct (after k M); [|discriminate].
    destruct (find_in c_meth m0 m); [injection H as <-; exact HC|].
    destruct (String.eqb m "__init__"); discriminate.
  - injection H as H. destruct (from k M); [|discriminate].
    destruct (find_in c_meth m0 m); [injection H as <-; exact HC|discriminate].
Qed.

Lemma clo_sound : forall s S S' o, exec rho M s S S' o ->
  forall f, clo f s = true -> incl S may -> incl S' may.
Proof.
  induction 1; intros f HC HI; try exact HI; destruct f as [|f]; try discriminate HC.
  - eapply IHexec; [eapply callee_clo; eassumption|exact HI].
  - cbn in H, HC. destruct (find_in c_set M a); [discriminate|].
    intros x [<-|Hx]; [apply mem_In; exact HC|apply HI; exact Hx].
  - cbn in HC. apply andb_true_iff in HC. destruct HC as [H1 H2].
    eapply (IHexec2 (Datatypes.S f)); [exact H2|]. eapply (IHexec1 (Datatypes.S f)); [exact H1|exact HI].
  - cbn in HC. apply andb_true_iff in HC. destruct HC as [H1 H2].
    eapply (IHexec (Datatypes.S f)); [exact H1|exact HI].
  - cbn in HC. apply andb_true_iff in HC. destruct HC as [H1 H2].
    eapply (IHexec (Datatypes.S f)); [exact H1|exact HI].
  - cbn in HC. apply andb_true_iff in HC. destruct HC as [H1 H2].
    eapply (IHexec (Datatypes.S f)); [exact H2|exact HI].
  - cbn in HC. eapply (IHexec (Datatypes.S f)); [|exact HI].
    destruct (mem c rho); exact HC.
  - cbn in HC. apply andb_true_iff in HC. destruct HC as [H1 H2].
    eapply (IHexec (Datatypes.S f)); [|exact HI]. destruct (mem a S); assumption.
  - pose proof HC as HC'. cbn in HC.
    eapply (IHexec2 (Datatypes.S f)); [exact HC'|]. eapply (IHexec1 (Datatypes.S f)); [exact HC|exact HI].
  - cbn in HC. eapply (IHexec (Datatypes.S f)); [exact HC|exact HI].
  - cbn in HC. apply andb_true_iff in HC. destruct HC as [H3 H4].
    eapply (IHexec (Datatypes.S f)); [exact H3|exact HI].
  - cbn in HC. apply andb_true_iff in HC. destruct HC as [H3 H4].
    eapply (IHexec2 (Datatypes.S f)); [exact H4|]. eapply (IHexec1 (Datatypes.S f)); [exact H3|exact HI].
  - cbn in HC. apply andb_true_iff in HC. destruct HC as [H3 H4].
    eapply (IHexec2 (Datatypes.S f)); [exact H4|]. eapply (IHexec1 (Datatypes.S f)); [exact H3|exact HI].
  - cbn in HC. apply andb_true_iff in HC. destruct HC as [H3 H4].
    eapply (IHexec2 (Datatypes.S f)); [exact H4|]. eapply (IHexec1 (Datatypes.S f)); [exact H3|exact HI].
Qed.

Lemma runs_clo f : forall l S S', runs rho M l S S' -> forallb (clo f) l = true ->
  incl S may -> incl S' may.
Proof.
  induction 1; cbn; intros H1 H2; [exact H2|].
  apply andb_true_iff in H1. destruct H1. apply IHruns; [assumption|].
  eapply clo_sound; eassumption.
Qed.
Lemma used_clo f pre ms : forallb (clo f) pre = true -> forallb (clo f) ms = true ->
  forall S, used rho M pre ms S -> incl S may.
Proof.
  intros Hp Hm S H. induction H.
  - eapply runs_clo; [eassumption|exact Hp|]. intros x [].
  - eapply clo_sound; [eassumption| |assumption]. rewrite forallb_forall in Hm. apply Hm. assumption.
Qed.

(** Which of "falls off the end", "returns", "breaks" are possible for [s] when
    the object never has an attribute outside [may]. *)
Definition can := (bool * bool * bool)%type.
Definition cor (p q : can) : can :=
  let '(a, b, c) := p in let '(a', b', c') := q in (a || a', b || b', c || c').
Definition cret (p : can) : can := let '(a, b, c) := p in (a || b || c, false, false).
Definition cseq (p q : can) : can :=
  let '(n, r, k) := p in let '(n', r', k') := q in
  if n then (n', r || r', k || k') else (false, r, k).
Definition cloop (p : can) : can := let '(n, r, k) := p in (true, r, false).
Fixpoint fin (fuel : nat) : stmt -> can :=
  match fuel with
  | O => fun _ => (true, true, true)
  | S fuel' =>
    fix go (s : stmt) {struct s} : can :=
      let yes := (true, false, false) in
      let no := (false, false, false) in
      match s with
      | Skip => yes
      | Ret => (false, true, false)
      | Brk => (false, false, true)
      | Rse | Undef _ => no
      | Get a =>
        match find_in c_get M a with
        | Some g => cret (fin fuel' g)
        | None => match find_in c_meth M a with
                  | Some _ => yes
                  | None => if mem a may || existsb (fun c => mem a (c_attrs c)) M then yes else no
                  end
        end
      | Inv m =>
        match find_in c_get M m with
        | Some g => cret (fin fuel' g)
        | None => if mem m may then yes else
                  match find_in c_meth M m with
                  | Some b => cret (fin fuel' b)
                  | None => if existsb (fun c => mem m (c_attrs c)) M then yes else no
                  end
        end
      | Sup k m =>
        match after k M with
        | None => no
        | Some M' => match find_in c_meth M' m with
                     | Some b => cret (fin fuel' b)
                     | None => yes
                     end
        end
      | Own k m =>
        match from k M with
        | None => no
        | Some M' => match find_in c_meth M' m with
                     | Some b => cret (fin fuel' b)
                     | None => no
                     end
        end
      | Put a =>
        match find_in c_set M a with
        | Some b => cret (fin fuel' b)
        | None => yes
        end
      | Seq a b =>
        cseq (go a) (go b)
      | Or a b => cor (go a) (go b)
      | Cond c a b => if mem c rho then go a else go b
      | IfHas x a b => if mem x may then cor (go a) (go b) else go b
      | Loop a => cloop (go a)
      | Try _ _ a h => cor (go a) (go h)
      end
  end.
Definition allowed (p : can) (o : outcome) : Prop :=
  let '(n, r, b) := p in
  match o with Norm => n = true | Retn => r = true | Brkn => b = true | _ => True end.
Lemma allowed_l p q o : allowed p o -> allowed (cor p q) o.
Proof. destruct p as [[? ?] ?], q as [[? ?] ?], o; cbn; intros H; rewrite ?H; auto. Qed.
Lemma allowed_r p q o : allowed q o -> allowed (cor p q) o.
Proof.
  destruct p as [[? ?] ?], q as [[? ?] ?], o; cbn; intros H; rewrite ?H; auto using orb_true_r.
Qed.
Lemma allowed_ret p o : allowed p o -> allowed (cret p) (returned o).
Proof.
  destruct p as [[? ?] ?], o; cbn; intros H; rewrite ?H; auto using orb_true_r.
  rewrite orb_true_r. reflexivity.
Qed.

Lemma allowed_seq p q o : allowed p Norm -> allowed q o -> allowed (cseq p q) o.
Proof.
  destruct p as [[? ?] ?], q as [[? ?] ?], o; cbn; intros -> H; cbn; rewrite ?H; auto using orb_true_r.
Qed.
Lemma allowed_stop p q o : allowed p o -> o <> Norm -> allowed (cseq p q) o.
Proof.
  destruct p as [[[] ?] ?], q as [[? ?] ?], o; cbn; intros H N; rewrite ?H; auto; congruence.
Qed.
Lemma allowed_loop p o : allowed p o -> o <> Norm -> o <> Brkn -> allowed (cloop p) o.
Proof. destruct p as [[? ?] ?], o; cbn; intros H N B; auto; congruence. Qed.
Lemma allowed_loop0 p : allowed (cloop p) Norm.
Proof. destruct p as [[? ?] ?]. reflexivity. Qed.

Lemma allowed_all o : allowed (true, true, true) o.
Proof. destruct o; exact I || reflexivity. Qed.

Lemma fin_sound : forall s S S' o, exec rho M s S S' o ->
  forall f g, clo g s = true -> incl S may -> allowed (fin f s) o.
Proof.
  induction 1; intros f g HG HI; (destruct f as [|f];
    [apply allowed_all|]);
    (destruct g as [|g]; [discriminate HG|]).
  - destruct (fin (Datatypes.S f) s) as [[? ?] ?]. exact I.
  - reflexivity.
  - reflexivity.
  - reflexivity.
  - exact I.
  - (* no body *)
    destruct s; cbn in H |- *; try discriminate H.
    + injection H as H. unfold lookup in H.
      destruct (find_in c_get M a); [discriminate|].
      destruct (mem a S) eqn:ES.
      * injection H as <-. rewrite (mem_true_incl _ _ _ HI ES). destruct (find_in c_meth M a); reflexivity.
      * destruct (find_in c_meth M a); [injection H as <-; reflexivity|].
        destruct (existsb _ M); injection H as <-.
        { rewrite orb_true_r. reflexivity. }
        { destruct (mem a may || false); exact I. }
    + destruct (find_in c_set M a); [discriminate|].
      destruct (find_in c_get M a); [|discriminate]. injection H as <-. exact I.
    + injection H as H. unfold lookup in H.
      destruct (find_in c_get M m); [discriminate|].
      destruct (mem m S) eqn:ES.
      * injection H as <-. rewrite (mem_true_incl _ _ _ HI ES). reflexivity.
      * destruct (find_in c_meth M m); [discriminate|].
        destruct (existsb _ M); injection H as <-; destruct (mem m may); reflexivity || exact I.
    + injection H as H. destruct (after k M).
      * destruct (find_in c_meth m0 m); [discriminate|].
        destruct (String.eqb m "__init__"); injection H as <-; reflexivity || exact I.
      * injection H as <-. exact I.
    + injection H as H. destruct (from k M).
      * destruct (find_in c_meth m0 m); [discriminate|]. injection H as <-. exact I.
      * injection H as <-. exact I.
  - (* call *)
    pose proof (callee_clo _ _ _ _ HG H) as HB.
    specialize (IHexec f g HB HI). apply allowed_ret in IHexec.
    destruct s; cbn in H |- *; try discriminate H.
    + injection H as H. unfold lookup in H.
      destruct (find_in c_get M a); [injection H as <-; exact IHexec|].
      destruct (mem a S); [discriminate|]. destruct (find_in c_meth M a); [discriminate|].
      destruct (existsb _ M); discriminate.
    + destruct (find_in c_set M a); [injection H as <-; exact IHexec|].
      destruct (find_in c_get M a); discriminate.
    + injection H as H. unfold lookup in H.
      destruct (find_in c_get M m); [injection H as <-; exact IHexec|].
      destruct (mem m S); [discriminate|]. destruct (find_in c_meth M m).
      * injection H as <-. destruct (mem m may); [|exact IHexec].
        destruct o; reflexivity || exact I.
      * destruct (existsb _ M); discriminate.
    + injection H as H. destruct (after k M); [|discriminate].
      destruct (find_in c_meth m0 m); [injection H as <-; exact IHexec|].
      destruct (String.eqb m "__init__"); discriminate.
    + injection H as H. destruct (from k M); [|discriminate].
      destruct (find_in c_meth m0 m); [injection H as <-; exact IHexec|discriminate].
  - cbn in H |- *. destruct (find_in c_set M a); [discriminate|]. reflexivity.
  - (* seq *)
    cbn in HG. apply andb_true_iff in HG. destruct HG as [G1 G2].
    specialize (IHexec1 (Datatypes.S f) (Datatypes.S g) G1 HI).
    assert (HI1 : incl S1 may) by (exact (clo_sound _ _ _ _ H (Datatypes.S g) G1 HI)).
    specialize (IHexec2 (Datatypes.S f) (Datatypes.S g) G2 HI1).
    exact (allowed_seq _ _ _ IHexec1 IHexec2).
  - (* seq stop *)
    cbn in HG. apply andb_true_iff in HG. destruct HG as [G1 G2].
    specialize (IHexec (Datatypes.S f) (Datatypes.S g) G1 HI). exact (allowed_stop _ _ _ IHexec H0).
  - cbn in HG. apply andb_true_iff in HG. destruct HG as [G1 G2].
    specialize (IHexec (Datatypes.S f) (Datatypes.S g) G1 HI). cbn. apply allowed_l. exact IHexec.
  - cbn in HG. apply andb_true_iff in HG. destruct HG as [G1 G2].
    specialize (IHexec (Datatypes.S f) (Datatypes.S g) G2 HI). cbn. apply allowed_r. exact IHexec.
  - cbn in HG. specialize (IHexec (Datatypes.S f) (Datatypes.S g)). cbn.
    destruct (mem c rho); apply IHexec; assumption.
  - cbn in HG. apply andb_true_iff in HG. destruct HG as [G1 G2].
    specialize (IHexec (Datatypes.S f) (Datatypes.S g)). cbn.
    destruct (mem a S) eqn:ES.
    + rewrite (mem_true_incl _ _ _ HI ES). apply allowed_l. apply IHexec; assumption.
    + destruct (mem a may); [apply allowed_r|]; apply IHexec; assumption.
  - apply allowed_loop0.
  - pose proof HG as HG'. cbn in HG.
    assert (HI1 : incl S1 may) by (exact (clo_sound _ _ _ _ H (Datatypes.S g) HG HI)).
    exact (IHexec2 (Datatypes.S f) (Datatypes.S g) HG' HI1).
  - cbn in HG. specialize (IHexec (Datatypes.S f) (Datatypes.S g) HG HI). exact (allowed_loop _ _ IHexec H0 H1).
  - cbn in HG. apply andb_true_iff in HG. destruct HG as [G1 G2].
    specialize (IHexec (Datatypes.S f) (Datatypes.S g) G1 HI). cbn. apply allowed_l. exact IHexec.
  - cbn in HG. apply andb_true_iff in HG. destruct HG as [G1 G2].
    assert (HI1 : incl S1 may) by (exact (clo_sound _ _ _ _ H (Datatypes.S g) G1 HI)).
    specialize (IHexec2 (Datatypes.S f) (Datatypes.S g) G2 HI1). cbn. apply allowed_r. exact IHexec2.
  - cbn in HG. apply andb_true_iff in HG. destruct HG as [G1 G2].
    assert (HI1 : incl S1 may) by (exact (clo_sound _ _ _ _ H (Datatypes.S g) G1 HI)).
    specialize (IHexec2 (Datatypes.S f) (Datatypes.S g) G2 HI1). cbn. apply allowed_r. exact IHexec2.
  - cbn in HG. apply andb_true_iff in HG. destruct HG as [G1 G2].
    assert (HI1 : incl S1 may) by (exact (clo_sound _ _ _ _ H (Datatypes.S g) G1 HI)).
    specialize (IHexec2 (Datatypes.S f) (Datatypes.S g) G2 HI1). cbn. apply allowed_r. exact IHexec2.
Qed.
End Bound.

(** [c], called right after [pre], never returns; every configuration. *)
Definition stuck_all (PF CF : nat) (T : list string) (P : list string -> bool) (M : mro) (pre : list stmt) (c : stmt) : bool :=
  closed_tests T M (pre ++ [c]) [] &&
  forallb (fun rho =>
     let may := all_puts PF rho M (pre ++ [c]) in
     implb (P rho) (forallb (clo rho M may CF) (pre ++ [c]) &&
     negb (fst (fst (fin rho M may CF c))))) (sublists T).
Lemma stuck_all_sound PF CF T P M pre c rho S S' : stuck_all PF CF T P M pre c = true ->
  P (restrict T rho) = true ->
  runs rho M pre [] S -> ~ exec rho M c S S' Norm.
Proof.
  unfold stuck_all. intros H HP HR HX. apply andb_true_iff in H. destruct H as [HT H].
  rewrite forallb_forall in H. specialize (H (restrict T rho) (filter_sublists _ T)).
  cbv zeta in H. set (may := all_puts _ _ _ _) in H. rewrite HP in H. cbn [implb] in H.
  apply closed_tests_parts in HT. destruct HT as (HM & Hp & _).
  rewrite forallb_app in Hp. apply andb_true_iff in Hp. destruct Hp as [Hp Hc].
  cbn in Hc. rewrite andb_true_r in Hc.
  apply andb_true_iff in H. destruct H as [H1 H2].
  rewrite forallb_app in H1. apply andb_true_iff in H1. destruct H1 as [H1 H3].
  cbn [forallb] in H3. rewrite andb_true_r in H3.
  assert (HR' := runs_agree _ _ _ _ HM (restrict_agree T rho) _ _ _ HR Hp).
  assert (HX' := exec_agree _ _ _ _ HM (restrict_agree T rho) _ _ _ _ HX Hc).
  assert (HI : incl S may) by (eapply runs_clo; [exact HR'|exact H1|intros x []]).
  assert (HF := fin_sound _ _ _ _ _ _ _ HX' CF CF H3 HI).
  destruct (fin (restrict T rho) M may CF c) as [[n r] b]. cbn in HF, H2. subst n. discriminate.
Qed.

(** [a] is never there, whatever is called; every configuration. *)
Definition lacks_all (PF CF : nat) (T : list string) (P : list string -> bool) (M : mro) (pre ms : list stmt) (a : string) : bool :=
  closed_tests T M pre ms &&
  match find_in c_get M a, find_in c_meth M a with
  | None, None => negb (existsb (fun c => mem a (c_attrs c)) M)
  | _, _ => false
  end &&
  forallb (fun rho =>
     let may := all_puts PF rho M (pre ++ ms) in
     implb (P rho)
       (forallb (clo rho M may CF) pre && forallb (clo rho M may CF) ms && negb (mem a may)))
    (sublists T).
Lemma lacks_all_sound PF CF T P M pre ms a rho : lacks_all PF CF T P M pre ms a = true ->
  P (restrict T rho) = true -> lacks rho M pre ms a.
Proof.
  unfold lacks_all. intros H HP S HU. apply andb_true_iff in H. destruct H as [H H2].
  apply andb_true_iff in H. destruct H as [HT H1].
  apply closed_tests_parts in HT. destruct HT as (HM & Hp & Hm).
  rewrite forallb_forall in H2. specialize (H2 (restrict T rho) (filter_sublists _ T)).
  cbv zeta in H2. set (may := all_puts _ _ _ _) in H2. rewrite HP in H2. cbn [implb] in H2.
  apply andb_true_iff in H2. destruct H2 as [H2 H4]. apply andb_true_iff in H2. destruct H2 as [H2 H3].
  assert (HU' : used (restrict T rho) M pre ms S).
  { eapply used_agree; [exact HM|apply restrict_agree|exact Hp|exact Hm|exact HU]. }
  assert (HI : incl S may) by exact (used_clo _ _ _ CF _ _ H2 H3 _ HU').
  unfold lookup. destruct (find_in c_get M a); [discriminate|].
  destruct (find_in c_meth M a); [discriminate|].
  rewrite (mem_false_incl a S may HI) by (destruct (mem a may); [discriminate|reflexivity]).
  destruct (existsb _ M); [discriminate|reflexivity].
Qed.

(** ** Finding executions: [Or] and [Loop] consume a list of choices. *)
Fixpoint run (fuel : nat) (rho : list string) (M : mro) (s : stmt) (S : list string)
  (ch : list bool) : option (list string * outcome * list bool) :=
  match fuel with
  | O => None
  | Datatypes.S f =>
    match callee M S s with
    | Some (inl o) => Some (S, o, ch)
    | Some (inr b) =>
      match run f rho M b S ch with
      | Some (S', o, ch') => Some (S', returned o, ch')
      | None => None
      end
    | None =>
      match s with
      | Skip => Some (S, Norm, ch)
      | Ret => Some (S, Retn, ch)
      | Brk => Some (S, Brkn, ch)
      | Rse => Some (S, Exc, ch)
      | Undef x => Some (S, MissN x, ch)
      | Put a => Some (a :: S, Norm, ch)
      | Seq a b =>
        match run f rho M a S ch with
        | Some (S1, Norm, ch1) => run f rho M b S1 ch1
        | r => r
        end
      | Or a b =>
        match ch with
        | true :: ch => run f rho M a S ch
        | false :: ch => run f rho M b S ch
        | [] => run f rho M b S []
        end
      | Cond c a b => run f rho M (if mem c rho then a else b) S ch
      | IfHas x a b => run f rho M (if mem x S then a else b) S ch
      | Loop a =>
        match ch with
        | true :: ch =>
          match run f rho M a S ch with
          | Some (S1, Norm, ch1) | Some (S1, Brkn, ch1) => run f rho M (Loop a) S1 ch1
          | r => r
          end
        | false :: ch => Some (S, Norm, ch)
        | [] => Some (S, Norm, [])
        end
      | Try ca cn a h =>
        match run f rho M a S ch with
        | Some (S1, Exc, ch1) => run f rho M h S1 ch1
        | Some (S1, MissA x, ch1) => if ca then run f rho M h S1 ch1 else Some (S1, MissA x, ch1)
        | Some (S1, MissN x, ch1) => if cn then run f rho M h S1 ch1 else Some (S1, MissN x, ch1)
        | r => r
        end
      | _ => None
      end
    end
  end.

Lemma run_sound rho M : forall f s S ch S' o ch',
  run f rho M s S ch = Some (S', o, ch') -> exec rho M s S S' o.
Proof.
  induction f as [|f IH]; intros s S ch S' o ch'; [discriminate|].
  cbn [run]. destruct (callee M S s) as [[o0|b]|] eqn:E.
  - intros H. injection H as <- <- <-. apply X_none. exact E.
  - destruct (run f rho M b S ch) as [[[S1 o1] ch1]|] eqn:E1; [|discriminate].
    intros H. injection H as <- <- <-. eapply X_call; [exact E|]. eapply IH. exact E1.
  - destruct s; intros H; try discriminate H.
    + injection H as <- <- <-. constructor.
    + injection H as <- <- <-. apply X_put. exact E.
    + injection H as <- <- <-. constructor.
    + destruct (run f rho M s1 S ch) as [[[S1 o1] ch1]|] eqn:E1; [|discriminate].
      apply IH in E1. destruct o1.
      * apply IH in H. eapply X_seq; eassumption.
      * injection H as <- <- <-. apply X_seq_stop; [exact E1|discriminate].
      * injection H as <- <- <-. apply X_seq_stop; [exact E1|discriminate].
      * injection H as <- <- <-. apply X_seq_stop; [exact E1|discriminate].
      * injection H as <- <- <-. apply X_seq_stop; [exact E1|discriminate].
      * injection H as <- <- <-. apply X_seq_stop; [exact E1|discriminate].
    + destruct ch as [|[|] ch]; apply IH in H; [apply X_or_r|apply X_or_l|apply X_or_r]; exact H.
    + apply X_cond. eapply IH. exact H.
    + apply X_has. eapply IH. exact H.
    + destruct ch as [|[|] ch].
      * injection H as <- <- <-. apply X_loop_end.
      * destruct (run f rho M s S ch) as [[[S1 o1] ch1]|] eqn:E1; [|discriminate].
        apply IH in E1. destruct o1.
        -- apply IH in H. eapply X_loop_more; [exact E1|auto|exact H].
        -- injection H as <- <- <-. apply X_loop_stop; [exact E1|discriminate|discriminate].
        -- apply IH in H. eapply X_loop_more; [exact E1|auto|exact H].
        -- injection H as <- <- <-. apply X_loop_stop; [exact E1|discriminate|discriminate].
        -- injection H as <- <- <-. apply X_loop_stop; [exact E1|discriminate|discriminate].
        -- injection H as <- <- <-. apply X_loop_stop; [exact E1|discriminate|discriminate].
      * injection H as <- <- <-. apply X_loop_end.
    + destruct (run f rho M s1 S ch) as [[[S1 o1] ch1]|] eqn:E1; [|discriminate].
      apply IH in E1. destruct o1.
      * injection H as <- <- <-. apply X_try; [exact E1|discriminate|discriminate].
      * injection H as <- <- <-. apply X_try; [exact E1|discriminate|discriminate].
      * injection H as <- <- <-. apply X_try; [exact E1|discriminate|discriminate].
      * apply IH in H. eapply X_try_exc; eassumption.
      * destruct ca.
        -- apply IH in H. eapply X_try_attr; eassumption.
        -- injection H as <- <- <-. apply X_try; [exact E1|auto|discriminate].
      * destruct cn.
        -- apply IH in H. eapply X_try_name; eassumption.
        -- injection H as <- <- <-. apply X_try; [exact E1|discriminate|auto].
    + injection H as <- <- <-. constructor.
    + injection H as <- <- <-. apply X_raise.
    + injection H as <- <- <-. constructor.
Qed.

(** Several calls in a row, each with its choices. *)
Fixpoint run_list (fuel : nat) (rho : list string) (M : mro) (l : list (stmt * list bool))
  (S : list string) : option (list string) :=
  match l with
  | [] => Some S
  | (c, ch) :: l =>
    match run fuel rho M c S ch with
    | Some (S1, Norm, _) => run_list fuel rho M l S1
    | _ => None
    end
  end.
Lemma run_list_sound f rho M : forall l S S', run_list f rho M l S = Some S' ->
  runs rho M (map fst l) S S'.
Proof.
  induction l as [|[c ch] l IH]; intros S S'; cbn.
  - intros H. injection H as <-. constructor.
  - destruct (run f rho M c S ch) as [[[S1 o] ch1]|] eqn:E; [|discriminate].
    destruct o; try discriminate. intros H. econstructor; [eapply run_sound; exact E|apply IH; exact H].
Qed.

Definition starts (f : nat) (rho : list string) (M : mro) (l : list (stmt * list bool)) : bool :=
  match run_list f rho M l [] with Some _ => true | None => false end.
Lemma starts_sound f rho M l : starts f rho M l = true -> startable rho M (map fst l).
Proof.
  unfold starts. destruct (run_list f rho M l []) as [S|] eqn:E; [|discriminate].
  intros _. exists S. eapply run_list_sound. exact E.
Qed.

(** After the calls [l], the call [c] ends in the outcome [o]. *)
Definition outcome_eqb (o p : outcome) : bool :=
  match o, p with
  | Norm, Norm | Retn, Retn | Brkn, Brkn | Exc, Exc => true
  | MissA a, MissA b | MissN a, MissN b => String.eqb a b
  | _, _ => false
  end.
Lemma outcome_eqb_eq o p : outcome_eqb o p = true -> o = p.
Proof.
  destruct o, p; cbn; try discriminate; auto; intros H; apply String.eqb_eq in H; subst; reflexivity.
Qed.
Definition ends (f : nat) (rho : list string) (M : mro) (l : list (stmt * list bool))
  (c : stmt) (ch : list bool) (o : outcome) : bool :=
  match run_list f rho M l [] with
  | Some S0 => match run f rho M c S0 ch with
              | Some (_, o', _) => outcome_eqb o' o
              | None => false
              end
  | None => false
  end.
Lemma ends_sound f rho M l c ch o : ends f rho M l c ch o = true ->
  exists S S', runs rho M (map fst l) [] S /\ exec rho M c S S' o.
Proof.
  unfold ends. destruct (run_list f rho M l []) as [S|] eqn:E; [|discriminate].
  destruct (run f rho M c S ch) as [[[S' o'] ch']|] eqn:E2; [|discriminate].
  intros H. apply outcome_eqb_eq in H. subst o'.
  exists S, S'. split; [eapply run_list_sound; exact E|eapply run_sound; exact E2].
Qed.

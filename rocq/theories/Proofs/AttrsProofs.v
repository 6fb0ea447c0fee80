(** A checker for attribute effects, and its soundness with respect to the
    executions of Model/Attrs.v.  Nothing here appears in the statements of the
    theorems in Props/AttrsProps.v. *)
From Coq Require Import List String Bool.
From Verif Require Import Model.Attrs Spec.AttrsSpec.
Import ListNotations.
Open Scope string_scope.

Lemma mem_In a l : mem a l = true <-> In a l.
Proof.
  unfold mem. rewrite existsb_exists. split.
  - intros (x & Hx & E). apply String.eqb_eq in E. subst. exact Hx.
  - intros H. exists a. split; [exact H|apply String.eqb_refl].
Qed.
Lemma mem_cons a b l : mem a (b :: l) = String.eqb a b || mem a l.
Proof. reflexivity. Qed.
Lemma mem_false_incl a S T : incl S T -> mem a T = false -> mem a S = false.
Proof.
  intros HI HT. destruct (mem a S) eqn:E; [|reflexivity].
  apply mem_In in E. apply HI in E. apply mem_In in E. congruence.
Qed.
Lemma mem_true_incl a S T : incl S T -> mem a S = true -> mem a T = true.
Proof. intros HI HS. apply mem_In. apply HI. apply mem_In. exact HS. Qed.

(** ** The checker *)
Definition oset := option (list string).     (* None: cannot happen *)
Definition inter (a b : list string) : list string := filter (fun x => mem x b) a.
Definition meet (a b : oset) : oset :=
  match a, b with
  | None, b => b
  | a, None => a
  | Some x, Some y => Some (inter x y)
  end.
Definition res := (oset * oset * oset)%type.
Definition meet3 (p q : res) : res :=
  let '(n, r, b) := p in let '(n', r', b') := q in (meet n n', meet r r', meet b b').
Definition ret3 (p : res) : res := let '(n, r, b) := p in (meet n (meet r b), None, None).
Definition obind {A B} (x : option A) (f : A -> option B) : option B :=
  match x with Some a => f a | None => None end.

Section Check.
Variables (rho : list string) (M : mro) (may : list string) (imp : list (string * string)).

(* entries of [imp]: whenever the first attribute is there, so is the second *)
Definition implied (a : string) (S : list string) : list string :=
  fold_right (fun p acc => if String.eqb (fst p) a then snd p :: acc else acc) S imp.
Definition imp_ok (S : list string) : Prop :=
  forall p, In p imp -> In (fst p) S -> In (snd p) S.

(* [t]: may a missing attribute, an unbound name escape (a handler awaits it)? *)
Definition tol := (bool * bool)%type.
Fixpoint chk (fuel : nat) : stmt -> tol -> list string -> option res :=
  match fuel with
  | O => fun _ _ _ => None
  | S fuel' =>
    fix go (s : stmt) (t : tol) (A : list string) {struct s} : option res :=
      let call b := option_map ret3 (chk fuel' b t A) in
      let missing := if fst t then Some (Some A, None, None) else None in
      let fine := Some (Some A, None, None) in
      match s with
      | Skip => fine
      | Ret => Some (None, Some A, None)
      | Brk => Some (None, None, Some A)
      | Rse => Some (None, None, None)
      | Undef _ => if snd t then Some (None, None, None) else None
      | Get a =>
        match find_in c_get M a with
        | Some g => call g
        | None => if mem a A then fine
                  else match find_in c_meth M a with
                       | Some _ => fine
                       | None => if existsb (fun c => mem a (c_attrs c)) M then fine else missing
                       end
        end
      | Inv m =>
        match find_in c_get M m with
        | Some g => call g
        | None => if mem m A then fine
                  else match find_in c_meth M m with
                       | Some b => if mem m may then None else call b
                       | None => if existsb (fun c => mem m (c_attrs c)) M then fine else missing
                       end
        end
      | Sup k m =>
        match after k M with
        | None => Some (None, None, None)
        | Some M' => match find_in c_meth M' m with
                     | Some b => call b
                     | None => if String.eqb m "__init__" then fine else None
                     end
        end
      | Own k m =>
        match from k M with
        | None => Some (None, None, None)
        | Some M' => match find_in c_meth M' m with
                     | Some b => call b
                     | None => None
                     end
        end
      | Put a =>
        match find_in c_set M a with
        | Some b => call b
        | None => match find_in c_get M a with
                  | Some _ => None
                  | None => if mem a may
                               && forallb (fun p => negb (String.eqb (fst p) a) || mem (snd p) (a :: A)) imp
                            then Some (Some (if mem a A then A else a :: A), None, None) else None
                  end
        end
      | Seq s1 s2 =>
        obind (go s1 t A) (fun p => let '(n, r, b) := p in
          match n with
          | None => Some (None, r, b)
          | Some A1 => option_map (fun q => let '(n', r', b') := q in (n', meet r r', meet b b')) (go s2 t A1)
          end)
      | Or s1 s2 => obind (go s1 t A) (fun p => option_map (meet3 p) (go s2 t A))
      | Cond c s1 s2 => if mem c rho then go s1 t A else go s2 t A
      | IfHas a s1 s2 =>
        if mem a A then go s1 t A
        else if mem a may
             then obind (go s1 t (a :: implied a A)) (fun p => option_map (meet3 p) (go s2 t A))
             else go s2 t A
      | Loop s1 => obind (go s1 t A) (fun p => let '(n, r, b) := p in Some (Some A, r, None))
      | Try ca cn s1 h => obind (go s1 (fst t || ca, snd t || cn) A) (fun p => option_map (meet3 p) (go h t A))
      end
  end.

Definition within (x : oset) (S : list string) : Prop :=
  exists A, x = Some A /\ incl A S.
Definition good (t : tol) (p : res) (o : outcome) (S : list string) : Prop :=
  let '(n, r, b) := p in
  match o with
  | Norm => within n S
  | Retn => within r S
  | Brkn => within b S
  | Exc => True
  | MissA _ => fst t = true
  | MissN _ => snd t = true
  end.

Lemma inter_l a b : incl (inter a b) a.
Proof. intros x H. apply filter_In in H. tauto. Qed.
Lemma inter_r a b : incl (inter a b) b.
Proof. intros x H. apply filter_In in H. apply mem_In. tauto. Qed.
Lemma within_l a b S : within a S -> within (meet a b) S.
Proof.
  intros (A & -> & H). destruct b as [B|]; cbn.
  - exists (inter A B). split; [reflexivity|]. eapply incl_tran; [apply inter_l|exact H].
  - exists A. auto.
Qed.
Lemma within_r a b S : within b S -> within (meet a b) S.
Proof.
  intros (B & -> & H). destruct a as [A|]; cbn.
  - exists (inter A B). split; [reflexivity|]. eapply incl_tran; [apply inter_r|exact H].
  - exists B. auto.
Qed.
Lemma good_l t p q o S : good t p o S -> good t (meet3 p q) o S.
Proof.
  destruct p as [[n r] b], q as [[n' r'] b'], o; cbn; auto using within_l.
Qed.
Lemma good_r t p q o S : good t q o S -> good t (meet3 p q) o S.
Proof.
  destruct p as [[n r] b], q as [[n' r'] b'], o; cbn; auto using within_r.
Qed.
Lemma good_ret t p o S : good t p o S -> good t (ret3 p) (returned o) S.
Proof.
  destruct p as [[n r] b], o; cbn; auto using within_l, within_r.
Qed.

Lemma implied_incl a A S : In a S -> imp_ok S -> incl A S -> incl (implied a A) S.
Proof.
  intros Ha Hi HA. unfold implied, imp_ok in *. clear rho M may.
  induction imp as [|p l IH]; cbn; [exact HA|].
  destruct (String.eqb (fst p) a) eqn:E.
  - apply String.eqb_eq in E. intros x [<-|Hx].
    + apply Hi; [left; reflexivity|]. rewrite E. exact Ha.
    + apply IH; [|exact Hx]. intros q Hq. apply Hi. right. exact Hq.
  - apply IH. intros q Hq. apply Hi. right. exact Hq.
Qed.

(* what a state keeps satisfying *)
Definition inv (S : list string) : Prop := incl S may /\ imp_ok S.

Lemma chk_sound : forall s S S' o,
  exec rho M s S S' o ->
  forall f t A p, chk f s t A = Some p -> incl A S -> inv S ->
  incl S S' /\ inv S' /\ good t p o S'.
Proof.
  induction 1; intros f t A p HC HA HI.
  - (* raise *) split; [apply incl_refl|]. split; [exact HI|].
    destruct p as [[n r] b]. exact I.
  - destruct f; [discriminate|]. cbn in HC. injection HC as <-.
    repeat split; try apply incl_refl; try apply HI. cbn. exists A. auto.
  - destruct f; [discriminate|]. cbn in HC. injection HC as <-.
    repeat split; try apply incl_refl; try apply HI. cbn. exists A. auto.
  - destruct f; [discriminate|]. cbn in HC. injection HC as <-.
    repeat split; try apply incl_refl; try apply HI. cbn. exists A. auto.
  - destruct f; [discriminate|]. cbn in HC. destruct (snd t) eqn:Et; [|discriminate].
    injection HC as <-. repeat split; try apply incl_refl; try apply HI. exact Et.
  - (* no body *)
    destruct f; [discriminate|].
    split; [apply incl_refl|]. split; [exact HI|].
    destruct s; cbn in H, HC; try discriminate H.
    + (* Get *) injection H as H. unfold lookup in H.
      destruct (find_in c_get M a) as [g|] eqn:Eg; [discriminate|].
      destruct (mem a S) eqn:ES.
      * injection H as <-.
        destruct (mem a A); [injection HC as <-; exists A; auto|].
        destruct (find_in c_meth M a); [injection HC as <-; exists A; auto|].
        destruct (existsb _ M); [injection HC as <-; exists A; auto|].
        destruct (fst t); [injection HC as <-; exists A; auto|discriminate].
      * rewrite (mem_false_incl a A S HA ES) in HC.
        destruct (find_in c_meth M a); [injection H as <-; injection HC as <-; exists A; auto|].
        destruct (existsb _ M); injection H as <-; [injection HC as <-; exists A; auto|].
        destruct (fst t) eqn:Et; [injection HC as <-; exact Et|discriminate].
    + (* Put *)
      destruct (find_in c_set M a); [discriminate|].
      destruct (find_in c_get M a); discriminate.
    + (* Inv *)
      injection H as H. unfold lookup in H.
      destruct (find_in c_get M m) as [g|] eqn:Eg; [discriminate|].
      destruct (mem m S) eqn:ES.
      * injection H as <-.
        destruct (mem m A) eqn:EA; [injection HC as <-; exists A; auto|].
        destruct (find_in c_meth M m) as [b0|].
        { assert (Hm : mem m may = true) by (apply mem_In; apply HI; apply mem_In; exact ES).
          rewrite Hm in HC. discriminate. }
        destruct (existsb _ M); [injection HC as <-; exists A; auto|].
        destruct (fst t); [injection HC as <-; exists A; auto|discriminate].
      * rewrite (mem_false_incl m A S HA ES) in HC.
        destruct (find_in c_meth M m); [discriminate|].
        destruct (existsb _ M); injection H as <-; [injection HC as <-; exists A; auto|].
        destruct (fst t) eqn:Et; [injection HC as <-; exact Et|discriminate].
    + (* Sup *)
      injection H as H. destruct (after k M) as [M'|].
      * destruct (find_in c_meth M' m); [discriminate|].
        destruct (String.eqb m "__init__"); [|discriminate].
        injection H as <-. injection HC as <-. exists A; auto.
      * injection H as <-. destruct p as [[? ?] ?]. exact I.
    + (* Own *)
      injection H as H. destruct (from k M) as [M'|].
      * destruct (find_in c_meth M' m); [discriminate|]. discriminate.
      * injection H as <-. destruct p as [[? ?] ?]. exact I.
  - (* call *)
    destruct f; [discriminate|].
    assert (HB : exists q, chk f b t A = Some q /\ p = ret3 q).
    { destruct s; cbn in H, HC; try discriminate H.
      - injection H as H. unfold lookup in H.
        destruct (find_in c_get M a) as [g|] eqn:Eg.
        + injection H as <-. destruct (chk f g t A) as [q|]; [|discriminate].
          injection HC as <-. eauto.
        + destruct (mem a S); [discriminate|]. destruct (find_in c_meth M a); [discriminate|].
          destruct (existsb _ M); discriminate.
      - destruct (find_in c_set M a) as [g|] eqn:Eg.
        + injection H as <-. destruct (chk f g t A) as [q|]; [|discriminate].
          injection HC as <-. eauto.
        + destruct (find_in c_get M a); discriminate.
      - injection H as H. unfold lookup in H.
        destruct (find_in c_get M m) as [g|] eqn:Eg.
        + injection H as <-. destruct (chk f g t A) as [q|]; [|discriminate].
          injection HC as <-. eauto.
        + destruct (mem m S) eqn:ES; [discriminate|].
          rewrite (mem_false_incl m A S HA ES) in HC.
          destruct (find_in c_meth M m) as [g|].
          * injection H as <-. destruct (mem m may); [discriminate|].
            destruct (chk f g t A) as [q|]; [|discriminate]. injection HC as <-. eauto.
          * destruct (existsb _ M); discriminate.
      - injection H as H. destruct (after k M) as [M'|]; [|discriminate].
        destruct (find_in c_meth M' m) as [g|].
        + injection H as <-. destruct (chk f g t A) as [q|]; [|discriminate]. injection HC as <-. eauto.
        + destruct (String.eqb m "__init__"); discriminate.
      - injection H as H. destruct (from k M) as [M'|]; [|discriminate].
        destruct (find_in c_meth M' m) as [g|]; [|discriminate].
        injection H as <-. destruct (chk f g t A) as [q|]; [|discriminate]. injection HC as <-. eauto. }
    destruct HB as (q & Hq & ->).
    destruct (IHexec f t A q Hq HA HI) as (H1 & H2 & H3).
    split; [exact H1|]. split; [exact H2|]. apply good_ret. exact H3.
  - (* put *)
    destruct f; [discriminate|]. cbn in H, HC.
    destruct (find_in c_set M a); [discriminate|].
    destruct (find_in c_get M a); [discriminate|].
    destruct (mem a may && forallb _ imp) eqn:E; [|discriminate].
    injection HC as <-. apply andb_true_iff in E. destruct E as [E1 E2].
    split; [apply incl_tl, incl_refl|]. split.
    + split.
      * intros x [<-|Hx]; [apply mem_In; exact E1|]. apply HI. exact Hx.
      * intros q Hq Hf.
        rewrite forallb_forall in E2. specialize (E2 q Hq).
        destruct Hf as [Hf|Hf].
        -- rewrite <- Hf, String.eqb_refl in E2. cbn in E2.
           change (mem (snd q) (a :: A) = true) in E2. rewrite mem_cons in E2.
           apply orb_true_iff in E2. destruct E2 as [E2|E2].
           ++ apply String.eqb_eq in E2. left. auto.
           ++ right. apply HA. apply mem_In. exact E2.
        -- right. destruct HI as [_ HI]. exact (HI q Hq Hf).
    + cbn. eexists. split; [reflexivity|]. destruct (mem a A).
      * intros x Hx. right. apply HA. exact Hx.
      * intros x [<-|Hx]; [left; reflexivity|right; apply HA; exact Hx].
  - (* seq *)
    destruct f; [discriminate|]. cbn in HC.
    destruct (chk (Datatypes.S f) s1 t A) as [[[n r] b]|] eqn:E1; cbn in E1; rewrite E1 in HC; [|discriminate].
    cbn in HC.
    destruct (IHexec1 (Datatypes.S f) t A (n, r, b) E1 HA HI) as (H1 & H2 & A1 & -> & H3).
    destruct (chk (Datatypes.S f) s2 t A1) as [[[n' r'] b']|] eqn:E2; cbn in E2; rewrite E2 in HC; [|discriminate].
    injection HC as <-.
    destruct (IHexec2 (Datatypes.S f) t A1 _ E2 H3 H2) as (H4 & H5 & H6).
    split; [eapply incl_tran; eassumption|]. split; [exact H5|].
    destruct o; cbn in *; auto using within_r.
  - (* seq stop *)
    destruct f; [discriminate|]. cbn in HC.
    destruct (chk (Datatypes.S f) s1 t A) as [[[n r] b]|] eqn:E1; cbn in E1; rewrite E1 in HC; [|discriminate].
    cbn in HC.
    destruct (IHexec (Datatypes.S f) t A (n, r, b) E1 HA HI) as (H1 & H2 & H3).
    split; [exact H1|]. split; [exact H2|].
    destruct n as [A1|].
    + destruct (chk (Datatypes.S f) s2 t A1) as [[[n' r'] b']|] eqn:E2; cbn in E2; rewrite E2 in HC; [|discriminate].
      injection HC as <-. destruct o; cbn in *; auto using within_l; congruence.
    + injection HC as <-. destruct o; cbn in *; auto; congruence.
  - (* or left *)
    destruct f; [discriminate|]. cbn in HC.
    destruct (chk (Datatypes.S f) s1 t A) as [q1|] eqn:E1; cbn in E1; rewrite E1 in HC; [|discriminate].
    cbn in HC.
    destruct (chk (Datatypes.S f) s2 t A) as [q2|] eqn:E2; cbn in E2; rewrite E2 in HC; [|discriminate].
    injection HC as <-.
    destruct (IHexec (Datatypes.S f) t A q1 E1 HA HI) as (H1 & H2 & H3).
    split; [exact H1|]. split; [exact H2|]. apply good_l. exact H3.
  - (* or right *)
    destruct f; [discriminate|]. cbn in HC.
    destruct (chk (Datatypes.S f) s1 t A) as [q1|] eqn:E1; cbn in E1; rewrite E1 in HC; [|discriminate].
    cbn in HC.
    destruct (chk (Datatypes.S f) s2 t A) as [q2|] eqn:E2; cbn in E2; rewrite E2 in HC; [|discriminate].
    injection HC as <-.
    destruct (IHexec (Datatypes.S f) t A q2 E2 HA HI) as (H1 & H2 & H3).
    split; [exact H1|]. split; [exact H2|]. apply good_r. exact H3.
  - (* cond *)
    destruct f; [discriminate|]. cbn in HC.
    apply (IHexec (Datatypes.S f) t A p); [|exact HA|exact HI].
    destruct (mem c rho); exact HC.
  - (* has *)
    destruct f; [discriminate|]. cbn in HC.
    destruct (mem a A) eqn:EA.
    + rewrite (mem_true_incl a A S HA EA) in *.
      apply (IHexec (Datatypes.S f) t A p); [exact HC|exact HA|exact HI].
    + destruct (mem a may) eqn:EM.
      * destruct (chk (Datatypes.S f) s1 t (a :: implied a A)) as [q1|] eqn:E1; cbn in E1; rewrite E1 in HC; [|discriminate].
        cbn in HC.
        destruct (chk (Datatypes.S f) s2 t A) as [q2|] eqn:E2; cbn in E2; rewrite E2 in HC; [|discriminate].
        injection HC as <-.
        destruct (mem a S) eqn:ES.
        -- apply mem_In in ES.
           destruct (IHexec (Datatypes.S f) t (a :: implied a A) q1 E1) as (H1 & H2 & H3).
           { intros x [<-|Hx]; [exact ES|]. eapply implied_incl; try eassumption. apply HI. }
           { exact HI. }
           split; [exact H1|]. split; [exact H2|]. apply good_l. exact H3.
        -- destruct (IHexec (Datatypes.S f) t A q2 E2 HA HI) as (H1 & H2 & H3).
           split; [exact H1|]. split; [exact H2|]. apply good_r. exact H3.
      * assert (ES : mem a S = false) by (eapply mem_false_incl; [apply HI|exact EM]).
        rewrite ES in *.
        apply (IHexec (Datatypes.S f) t A p); [exact HC|exact HA|exact HI].
  - (* loop end *)
    destruct f; [discriminate|]. cbn in HC.
    destruct (chk (Datatypes.S f) s t A) as [[[n r] b]|] eqn:E1; cbn in E1; rewrite E1 in HC; [|discriminate].
    injection HC as <-. repeat split; try apply incl_refl; try apply HI. exists A. auto.
  - (* loop more *)
    destruct f; [discriminate|]. pose proof HC as HC'. cbn in HC.
    destruct (chk (Datatypes.S f) s t A) as [[[n r] b]|] eqn:E1; cbn in E1; rewrite E1 in HC; [|discriminate].
    destruct (IHexec1 (Datatypes.S f) t A (n, r, b) E1 HA HI) as (H3 & H4 & _).
    destruct (IHexec2 (Datatypes.S f) t A p HC') as (H5 & H6 & H7).
    { eapply incl_tran; eassumption. } { exact H4. }
    split; [eapply incl_tran; eassumption|]. auto.
  - (* loop stop *)
    destruct f; [discriminate|]. cbn in HC.
    destruct (chk (Datatypes.S f) s t A) as [[[n r] b]|] eqn:E1; cbn in E1; rewrite E1 in HC; [|discriminate].
    injection HC as <-.
    destruct (IHexec (Datatypes.S f) t A (n, r, b) E1 HA HI) as (H3 & H4 & H5).
    split; [exact H3|]. split; [exact H4|].
    destruct o; cbn in *; auto; congruence.
  - (* try *)
    destruct f; [discriminate|]. cbn in HC.
    destruct (chk (Datatypes.S f) s (fst t || ca, snd t || cn) A) as [q1|] eqn:E1; cbn in E1; rewrite E1 in HC; [|discriminate].
    cbn in HC.
    destruct (chk (Datatypes.S f) h t A) as [q2|] eqn:E2; cbn in E2; rewrite E2 in HC; [|discriminate].
    injection HC as <-.
    destruct (IHexec (Datatypes.S f) _ A q1 E1 HA HI) as (H3 & H4 & H5).
    split; [exact H3|]. split; [exact H4|]. apply good_l.
    destruct q1 as [[n r] b], o; cbn in *; auto.
    + rewrite (H0 _ eq_refl), orb_false_r in H5. exact H5.
    + rewrite (H1 _ eq_refl), orb_false_r in H5. exact H5.
  - (* try exc *)
    destruct f; [discriminate|]. cbn in HC.
    destruct (chk (Datatypes.S f) s (fst t || ca, snd t || cn) A) as [q1|] eqn:E1; cbn in E1; rewrite E1 in HC; [|discriminate].
    cbn in HC.
    destruct (chk (Datatypes.S f) h t A) as [q2|] eqn:E2; cbn in E2; rewrite E2 in HC; [|discriminate].
    injection HC as <-.
    destruct (IHexec1 (Datatypes.S f) _ A q1 E1 HA HI) as (H3 & H4 & _).
    destruct (IHexec2 (Datatypes.S f) t A q2 E2) as (H5 & H6 & H7).
    { eapply incl_tran; eassumption. } { exact H4. }
    split; [eapply incl_tran; eassumption|]. split; [exact H6|]. apply good_r. exact H7.
  - (* try attr *)
    destruct f; [discriminate|]. cbn in HC.
    destruct (chk (Datatypes.S f) s (fst t || true, snd t || cn) A) as [q1|] eqn:E1; cbn in E1; rewrite E1 in HC; [|discriminate].
    cbn in HC.
    destruct (chk (Datatypes.S f) h t A) as [q2|] eqn:E2; cbn in E2; rewrite E2 in HC; [|discriminate].
    injection HC as <-.
    destruct (IHexec1 (Datatypes.S f) _ A q1 E1 HA HI) as (H3 & H4 & _).
    destruct (IHexec2 (Datatypes.S f) t A q2 E2) as (H5 & H6 & H7).
    { eapply incl_tran; eassumption. } { exact H4. }
    split; [eapply incl_tran; eassumption|]. split; [exact H6|]. apply good_r. exact H7.
  - (* try name *)
    destruct f; [discriminate|]. cbn in HC.
    destruct (chk (Datatypes.S f) s (fst t || ca, snd t || true) A) as [q1|] eqn:E1; cbn in E1; rewrite E1 in HC; [|discriminate].
    cbn in HC.
    destruct (chk (Datatypes.S f) h t A) as [q2|] eqn:E2; cbn in E2; rewrite E2 in HC; [|discriminate].
    injection HC as <-.
    destruct (IHexec1 (Datatypes.S f) _ A q1 E1 HA HI) as (H3 & H4 & _).
    destruct (IHexec2 (Datatypes.S f) t A q2 E2) as (H5 & H6 & H7).
    { eapply incl_tran; eassumption. } { exact H4. }
    split; [eapply incl_tran; eassumption|]. split; [exact H6|]. apply good_r. exact H7.
Qed.

(** Setting an object up, then using it. *)
Fixpoint setup (f : nat) (pre : list stmt) (A : list string) : option (list string) :=
  match pre with
  | [] => Some A
  | c :: pre => match chk f c (false, false) A with
                | Some (Some A1, _, _) => setup f pre A1
                | _ => None
                end
  end.
Definition usable (f : nat) (ms : list stmt) (A : list string) : bool :=
  forallb (fun c => match chk f c (false, false) A with Some _ => true | None => false end) ms.
Definition has (A : list string) (a : string) : bool :=
  match find_in c_get M a, find_in c_meth M a with
  | None, None => mem a A || existsb (fun c => mem a (c_attrs c)) M
  | _, _ => true
  end.
Definition check (f : nat) (pre ms : list stmt) (want : list string) : bool :=
  match setup f pre [] with
  | Some A => usable f ms A && forallb (has A) want
  | None => false
  end.

Lemma inv_nil : inv [].
Proof. split; [intros x []|intros p _ []]. Qed.

Lemma runs_split : forall l1 l2 S S', runs rho M (l1 ++ l2)%list S S' <->
  exists S1, runs rho M l1 S S1 /\ runs rho M l2 S1 S'.
Proof.
  induction l1 as [|c l1 IH]; intros l2 S S'.
  - split; [intros H; exists S; split; [constructor|exact H]|].
    intros (S1 & H1 & H2). inversion H1; subst. exact H2.
  - split.
    + intros H. inversion H; subst. apply IH in H5. destruct H5 as (S2 & H6 & H7).
      exists S2. split; [econstructor; eassumption|exact H7].
    + intros (S1 & H1 & H2). inversion H1; subst. econstructor; [eassumption|].
      apply IH. eauto.
Qed.

Lemma setup_sound f : forall pre A A' S S',
  setup f pre A = Some A' -> incl A S -> inv S -> runs rho M pre S S' ->
  incl A' S' /\ inv S'.
Proof.
  induction pre as [|c pre IH]; intros A A' S S' HS HA HI HR.
  - injection HS as <-. inversion HR; subst. auto.
  - cbn in HS. destruct (chk f c (false, false) A) as [[[[A1|] r] b]|] eqn:E; try discriminate.
    inversion HR as [|? ? ? S1 ? HX HR']; subst.
    destruct (chk_sound _ _ _ _ HX _ _ _ _ E HA HI) as (_ & H2 & A2 & H3 & H4).
    injection H3 as <-. eapply IH; eassumption.
Qed.

Lemma setup_prefix f : forall l1 c l2 A A' , setup f (l1 ++ c :: l2)%list A = Some A' ->
  exists A1 p, setup f l1 A = Some A1 /\ chk f c (false, false) A1 = Some p.
Proof.
  induction l1 as [|d l1 IH]; intros c l2 A A' H; cbn in H.
  - destruct (chk f c (false, false) A) as [[[[A1|] r] b]|] eqn:E; try discriminate.
    exists A. eexists. split; [reflexivity|exact E].
  - destruct (chk f d (false, false) A) as [[[[A1|] r] b]|] eqn:E; try discriminate.
    apply IH in H. cbn. rewrite E. exact H.
Qed.

Lemma used_sound f pre ms A : setup f pre [] = Some A -> usable f ms A = true ->
  forall S, used rho M pre ms S -> incl A S /\ inv S.
Proof.
  intros HS HU S H. induction H as [S H|S c S' o H IH Hc HX].
  - eapply setup_sound; [exact HS|apply incl_refl|apply inv_nil|exact H].
  - destruct IH as [HA HI].
    unfold usable in HU. rewrite forallb_forall in HU. specialize (HU c Hc).
    destruct (chk f c (false, false) A) as [p|] eqn:E; [|discriminate].
    destruct (chk_sound _ _ _ _ HX _ _ _ _ E HA HI) as (H1 & H2 & _).
    split; [eapply incl_tran; eassumption|exact H2].
Qed.

Lemma good_no_miss p o S : good (false, false) p o S -> no_miss o.
Proof. destruct p as [[? ?] ?], o; cbn; auto; discriminate. Qed.

Lemma has_sound A S a : has A a = true -> incl A S -> lookup M S a <> IsMissing.
Proof.
  unfold has, lookup. destruct (find_in c_get M a); [discriminate|].
  intros H HA. destruct (mem a S) eqn:ES; [discriminate|].
  destruct (find_in c_meth M a); [discriminate|].
  rewrite (mem_false_incl a A S HA ES) in H. cbn in H. rewrite H. discriminate.
Qed.

Lemma check_sound f pre ms want : check f pre ms want = true ->
  clean rho M pre ms /\ forall a, In a want -> provides rho M pre ms a.
Proof.
  unfold check. destruct (setup f pre []) as [A|] eqn:HS; [|discriminate].
  intros H. apply andb_true_iff in H. destruct H as [HU HW].
  split; [split|].
  - intros l1 c l2 S S' o -> HR HX.
    destruct (setup_prefix _ _ _ _ _ _ HS) as (A1 & p & HS1 & HC).
    destruct (setup_sound _ _ _ _ _ _ HS1 (incl_refl _) inv_nil HR) as [HA HI].
    destruct (chk_sound _ _ _ _ HX _ _ _ _ HC HA HI) as (_ & _ & HG).
    eapply good_no_miss. exact HG.
  - intros S c S' o HUsed Hc HX.
    destruct (used_sound _ _ _ _ HS HU _ HUsed) as [HA HI].
    unfold usable in HU. rewrite forallb_forall in HU. specialize (HU c Hc).
    destruct (chk f c (false, false) A) as [p|] eqn:E; [|discriminate].
    destruct (chk_sound _ _ _ _ HX _ _ _ _ E HA HI) as (_ & _ & HG).
    eapply good_no_miss. exact HG.
  - intros a Ha S HUsed.
    destruct (used_sound _ _ _ _ HS HU _ HUsed) as [HA HI].
    rewrite forallb_forall in HW. eapply has_sound; [apply HW; exact Ha|exact HA].
Qed.
End Check.

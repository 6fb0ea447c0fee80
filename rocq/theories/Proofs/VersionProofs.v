(** Proofs about versions. *)
From Coq Require Import Sorted Decimal DecimalString DecimalNat String Ascii Arith Bool List Lia.
From Verif.Model Require Import Version.
From Verif.Spec Require Import VersionSpec.
Import ListNotations.

Open Scope list_scope.
Notation L := list_ascii_of_string.
(** the specification with the functions of the model *)
Definition hexb (s : string) : Prop := Forall (fun c => is_hex c = true) (L s).
Definition validb (c : checkout) : Prop :=
  match c with
  | Tagged t _ h _ => starts_with_digit t = true /\ hexb h /\ h <> EmptyString
  | Untagged _ h _ => hexb h /\ h <> EmptyString
  end.
Definition name_ofb (c : checkout) : string :=
  (match c with
  | Tagged t n h d => if (n =? 0)%nat && negb d then t else t ++ (if has "+" t then "." else "+") ++ show_nat n ++ ".g" ++ h ++ (if d then ".dirty" else "")
  | Untagged n h d => "0+untagged." ++ show_nat n ++ ".g" ++ substring 0 7 h ++ (if d then ".dirty" else "")
  end)%string.
Definition plainb (c : checkout) : Prop := match c with Tagged t _ _ _ => has "+" t = false | Untagged _ _ _ => True end.
Definition looksb (r v : string) : Prop := r = ("v" ++ v)%string /\ starts_with_digit v = true.
Definition not_tagb (r : string) : Prop := after "tag: " r = None.
Lemma L_app a b : L (a ++ b)%string = L a ++ L b.
Proof. induction a as [|c a IH]; cbn; [reflexivity|]. now rewrite IH. Qed.
Lemma L_inj a b : L a = L b -> a = b.
Proof. intros H. rewrite <- (string_of_list_ascii_of_string a), <- (string_of_list_ascii_of_string b). now rewrite H. Qed.
Lemma L_S l : L (string_of_list_ascii l) = l.
Proof. apply list_ascii_of_string_of_list_ascii. Qed.

Lemma span_all {A} f (a : list A) x b : Forall (fun c => f c = true) a -> f x = false -> span f (a ++ x :: b) = (a, x :: b).
Proof. intros Ha Hx. induction Ha as [|c a Hc _ IH]; cbn; [now rewrite Hx|]. rewrite Hc, IH. reflexivity. Qed.
Lemma span_end_all {A} f (a : list A) x b : Forall (fun c => f c = true) b -> f x = false -> span_end f (a ++ x :: b) = (a ++ [x], b).
Proof.
  intros Hb Hx. unfold span_end. rewrite rev_app_distr. cbn [rev]. rewrite <- app_assoc. cbn [app].
  rewrite span_all by (auto; apply Forall_rev, Hb). cbn [fst snd rev]. now rewrite !rev_involutive.
Qed.
Lemma before_end_app p a : before_end p (a ++ p) = Some a.
Proof.
  unfold before_end. rewrite app_length, Nat.add_sub, skipn_app, skipn_all, Nat.sub_diag. cbn [app skipn].
  destruct (list_eq_dec _ p p); [|contradiction]. now rewrite firstn_app, firstn_all, Nat.sub_diag, firstn_O, app_nil_r.
Qed.
Lemma before_end_last p x y a : x <> y -> before_end (p ++ [x]) (a ++ [y]) = None.
Proof.
  intros N. unfold before_end. destruct (list_eq_dec _ _ _) as [E|]; [|reflexivity]. exfalso.
  pose proof (f_equal (fun l => rev l) E) as E'. set (n := length (a ++ [y]) - length (p ++ [x])) in *.
  assert (H : exists z, skipn n (a ++ [y]) = z ++ [y]).
  { rewrite skipn_app. replace (n - length a) with 0 by (subst n; rewrite !app_length; cbn; lia). cbn. eauto. }
  destruct H as (z & H). rewrite H in E. apply app_inj_tail in E. destruct E as [_ E]. congruence.
Qed.

Lemma show_digits n : Forall (fun c => is_digit c = true) (L (show_nat n)).
Proof.
  unfold show_nat, NilZero.string_of_uint. assert (G : forall u, Forall (fun c => is_digit c = true) (L (NilEmpty.string_of_uint u))).
  { induction u; cbn; constructor; auto. }
  destruct (Nat.to_uint n) eqn:E; [repeat constructor|..]; rewrite <- E; apply G.
Qed.
Lemma to_uint_nil n : Nat.to_uint n <> Nil.
Proof.
  intros E. pose proof (DecimalNat.Unsigned.of_to n) as H. rewrite E in H. cbn in H. subst n. discriminate.
Qed.
Lemma read_show n : read_nat (show_nat n) = Some n.
Proof. unfold read_nat, show_nat. rewrite NilZero.usu by apply to_uint_nil. cbn. f_equal. apply DecimalNat.Unsigned.of_to. Qed.
Lemma show_nonempty n : L (show_nat n) <> [].
Proof.
  unfold show_nat, NilZero.string_of_uint. destruct (Nat.to_uint n); cbn; discriminate.
Qed.
Lemma show_inj n m : show_nat n = show_nat m -> n = m.
Proof. intros E. pose proof (read_show n) as A. rewrite E, read_show in A. congruence. Qed.

Lemma hex_notin x s : is_hex x = false -> Forall (fun c => is_hex c = true) s -> ~ In x s.
Proof. intros Hx F I. rewrite Forall_forall in F. apply F in I. congruence. Qed.
Lemma digit_notin x s : is_digit x = false -> Forall (fun c => is_digit c = true) s -> ~ In x s.
Proof. intros Hx F I. rewrite Forall_forall in F. apply F in I. congruence. Qed.

Lemma reads_long t n h : starts_with_digit t = true -> hexb h -> h <> EmptyString ->
  read_long (L ("v" ++ t ++ "-" ++ show_nat n ++ "-g" ++ h)%string) = Some (String "v" t, n, h).
Proof.
  intros Ht Hh Nh. rewrite !L_app. change (L "-g") with ["-"; "g"]%char. change (L "-") with ["-"%char]. change (L "v") with ["v"%char].
  unfold read_long.
  replace (["v"%char] ++ L t ++ ["-"%char] ++ L (show_nat n) ++ ["-"; "g"]%char ++ L h) with ((("v"%char :: L t) ++ "-"%char :: L (show_nat n) ++ ["-"%char]) ++ "g"%char :: L h)
    by (rewrite <- !app_assoc; cbn; now rewrite <- !app_assoc).
  rewrite span_end_all by (auto; reflexivity).
  replace ((("v"%char :: L t) ++ "-"%char :: L (show_nat n) ++ ["-"%char]) ++ ["g"%char]) with ((("v"%char :: L t) ++ "-"%char :: L (show_nat n)) ++ ["-"; "g"]%char)
    by (rewrite <- !app_assoc; cbn; now rewrite <- !app_assoc).
  rewrite before_end_app.
  destruct (L h) as [|c r] eqn:Eh; [destruct h; [congruence|discriminate]|].
  rewrite span_end_all by (auto using show_digits; reflexivity). rewrite before_end_app. rewrite string_of_list_ascii_of_string, read_show.
  rewrite <- Eh. cbn [string_of_list_ascii]. now rewrite !string_of_list_ascii_of_string.
Qed.
Lemma hex_end h : hexb h -> h <> EmptyString -> exists a y, L h = a ++ [y] /\ is_hex y = true.
Proof.
  intros Hh Nh. destruct (L h) as [|c r] eqn:E; [destruct h; [congruence|discriminate]|].
  destruct (exists_last (l := c :: r)) as (a & y & Ey); [discriminate|]. exists a, y. split; [exact Ey|].
  unfold hexb in Hh. rewrite E, Ey in Hh. apply Forall_app in Hh. destruct Hh as [_ H]. now inversion H.
Qed.
Lemma dirt pre h (d : bool) : hexb h -> h <> EmptyString ->
  match before_end (L "-dirty") (L (pre ++ h ++ (if d then "-dirty" else ""))%string) with Some x => (true, x) | None => (false, L (pre ++ h ++ (if d then "-dirty" else ""))%string) end
  = (d, L (pre ++ h)%string).
Proof.
  intros Hh Nh. destruct (hex_end h Hh Nh) as (a & y & E & Hy). rewrite !L_app. destruct d.
  - rewrite app_assoc, before_end_app. reflexivity.
  - change (L "") with (@nil ascii). rewrite app_nil_r, E, app_assoc. change (L "-dirty") with (["-"; "d"; "i"; "r"; "t"] ++ ["y"])%char.
    rewrite before_end_last; [reflexivity|]. intros <-. discriminate.
Qed.
Lemma existsb_in x l : existsb (Ascii.eqb x) l = true <-> In x l.
Proof.
  rewrite existsb_exists. split; [intros (y & H & E); apply Ascii.eqb_eq in E; now subst|]. intros H. exists x. split; [exact H|apply Ascii.eqb_refl].
Qed.
Lemma version_name_b c : validb c -> version c = name_ofb c.
Proof.
  destruct c as [t n h d|n h d]; cbn [validb].
  - intros (Ht & Hh & Nh). unfold version, version_of, pieces_of. cbn [describe full_hash commits]. change (decimal n) with (show_nat n).
    pose proof (dirt ("v" ++ t ++ "-" ++ show_nat n ++ "-g")%string h d Hh Nh) as D.
    assert (A : forall z, (("v" ++ t ++ "-" ++ show_nat n ++ "-g") ++ z = "v" ++ t ++ "-" ++ show_nat n ++ "-g" ++ z)%string).
    { intros z. apply L_inj. rewrite !L_app. now rewrite <- !app_assoc. }
    rewrite !A in D. rewrite D.
    replace (existsb _ _) with true.
    2:{ symmetry. apply existsb_in. rewrite !L_app. apply in_or_app. right. apply in_or_app. right. now left. }
    rewrite reads_long by auto. cbn [after]. rewrite Ascii.eqb_refl. unfold render_pep440. cbn [v_tag v_distance v_dirty v_short name_ofb].
    destruct t as [|c t]; [discriminate|]. unfold plus_or_dot. destruct (n =? 0), d; reflexivity.
  - intros (Hh & Nh). unfold version, version_of, pieces_of. cbn [describe full_hash commits].
    pose proof (dirt ""%string h d Hh Nh) as D. cbn [append] in D. rewrite D.
    replace (existsb _ _) with false; [destruct d; reflexivity|].
    symmetry. apply not_true_is_false. rewrite existsb_in. apply hex_notin; [reflexivity|exact Hh].
Qed.

(** ** Distinct names *)
Lemma cut_first {A} (x : A) a b : ~ In x a -> forall a' b', ~ In x a' -> a ++ x :: b = a' ++ x :: b' -> a = a' /\ b = b'.
Proof.
  induction a as [|c a IH]; intros Ha [|c' a'] b' Ha' E; cbn in E.
  - injection E as ->. auto.
  - injection E as -> E. exfalso. apply Ha'. now left.
  - injection E as -> E. exfalso. apply Ha. now left.
  - injection E as -> E. destruct (IH (fun H => Ha (or_intror H)) a' b' (fun H => Ha' (or_intror H)) E) as [-> ->]. auto.
Qed.
Lemma has_in c s : has c s = false <-> ~ In c (L s).
Proof. unfold has. rewrite <- existsb_in. destruct (existsb _ _); split; intros; congruence. Qed.
(** the part after the plus *)
Definition tail_of (n : nat) (h : string) (d : bool) : list ascii := L (show_nat n) ++ "."%char :: "g"%char :: L h ++ (if d then L ".dirty" else []).
Lemma tail_inj n h d n' h' d' : Forall (fun c => is_hex c = true) (L h) -> Forall (fun c => is_hex c = true) (L h') ->
  tail_of n h d = tail_of n' h' d' -> n = n' /\ h = h' /\ d = d'.
Proof.
  intros Hh Hh' E. unfold tail_of in E.
  apply cut_first in E; [|apply digit_notin; [reflexivity|apply show_digits]..]. destruct E as [E1 E]. injection E as E.
  split; [apply show_inj, L_inj, E1|].
  assert (N : forall z, Forall (fun c => is_hex c = true) z -> ~ In "."%char z) by (intros; now apply hex_notin).
  destruct d, d'; cbn [app] in E.
  - apply cut_first in E; auto. destruct E as [E _]. split; [now apply L_inj|reflexivity].
  - rewrite app_nil_r in E. exfalso. apply (N _ Hh'). rewrite <- E. apply in_or_app. right. now left.
  - rewrite app_nil_r in E. exfalso. apply (N _ Hh). rewrite E. apply in_or_app. right. now left.
  - rewrite !app_nil_r in E. split; [now apply L_inj|reflexivity].
Qed.
Lemma name_tagged t n h d : has "+" t = false -> L (name_ofb (Tagged t n h d)) = if (n =? 0) && negb d then L t else L t ++ "+"%char :: tail_of n h d.
Proof.
  intros H. cbn [name_ofb]. rewrite H. destruct ((n =? 0) && negb d); [reflexivity|]. unfold tail_of. rewrite !L_app. f_equal. cbn. f_equal. f_equal.
  destruct d; reflexivity.
Qed.
Lemma name_untagged n h d : L (name_ofb (Untagged n h d)) = "0"%char :: "+"%char :: L "untagged." ++ tail_of n (substring 0 7 h) d.
Proof.
  cbn [name_ofb]. rewrite !L_app. unfold tail_of. destruct d; reflexivity.
Qed.
Lemma hex_sub h : hexb h -> forall m, Forall (fun c => is_hex c = true) (L (substring 0 m h)).
Proof.
  unfold hexb. induction h as [|c h IH]; intros H m; destruct m; cbn; constructor; inversion H; subst; auto.
Qed.
Lemma tail_head n h d : exists c r, tail_of n h d = c :: r /\ is_digit c = true.
Proof.
  unfold tail_of. pose proof (show_nonempty n) as N. pose proof (show_digits n) as D. destruct (L (show_nat n)) as [|c r]; [congruence|].
  exists c, (r ++ "."%char :: "g"%char :: L h ++ (if d then L ".dirty" else [])). split; [reflexivity|now inversion D].
Qed.
Lemma names_differ t n h d n' h' d' : has "+" t = false -> name_ofb (Tagged t n h d) = name_ofb (Untagged n' h' d') -> False.
Proof.
  intros P E. apply (f_equal L) in E. rewrite name_tagged, name_untagged in E by auto. apply has_in in P. destruct (_ && _).
  - apply P. rewrite E. right. now left.
  - change ("0"%char :: "+"%char :: L "untagged." ++ tail_of n' (substring 0 7 h') d') with (["0"%char] ++ "+"%char :: L "untagged." ++ tail_of n' (substring 0 7 h') d') in E.
    apply cut_first in E; auto; [|intros [H|[]]; discriminate]. destruct E as [_ E]. destruct (tail_head n h d) as (c & r & F & G). rewrite F in E. injection E as -> _. discriminate.
Qed.
Lemma distinct_b c c' : validb c -> validb c' -> plainb c -> plainb c' -> version c = version c' -> same_code c c'.
Proof.
  intros V V' P P' E. rewrite !version_name_b in E by auto.
  destruct c as [t n h d|n h d], c' as [t' n' h' d'|n' h' d']; cbn [same_code plainb validb] in *.
  - apply (f_equal L) in E. rewrite !name_tagged in E by auto. apply has_in in P. apply has_in in P'.
    destruct V as (_ & Hh & _), V' as (_ & Hh' & _).
    destruct ((n =? 0) && negb d) eqn:C, ((n' =? 0) && negb d') eqn:C'.
    + apply andb_true_iff in C as [C1 C2]. apply andb_true_iff in C' as [C1' C2']. apply Nat.eqb_eq in C1, C1'. apply negb_true_iff in C2, C2'. subst.
      split; [now apply L_inj|]. auto.
    + exfalso. apply P. rewrite E. apply in_or_app. right. now left.
    + exfalso. apply P'. rewrite <- E. apply in_or_app. right. now left.
    + apply cut_first in E; auto. destruct E as [E1 E]. apply tail_inj in E; auto. destruct E as (-> & -> & ->). split; [now apply L_inj|]. auto.
  - eapply names_differ; eauto.
  - symmetry in E. eapply names_differ; eauto.
  - apply (f_equal L) in E. rewrite !name_untagged in E. injection E as E.
    apply tail_inj in E; [tauto| |]; apply hex_sub; tauto.
Qed.

(** ** Archives *)
Lemma after_app p s v : after p s = Some v <-> s = (p ++ v)%string.
Proof.
  revert s. induction p as [|a p IH]; intros s; cbn; [split; congruence|].
  destruct s as [|b s]; [split; discriminate|]. destruct (Ascii.eqb_spec a b) as [<-|N].
  - rewrite IH. split; [now intros ->|]. intros H. now injection H.
  - split; [discriminate|]. intros H. injection H. congruence.
Qed.
Lemma in_ins x y l : In x (ins y l) <-> x = y \/ In x l.
Proof.
  induction l as [|z l IH]; cbn; [intuition|]. destruct (str_leb _ _); cbn; [intuition|]. rewrite IH. intuition.
Qed.
Lemma in_sorted x l : In x (sorted l) <-> In x l.
Proof. induction l as [|y l IH]; cbn; [tauto|]. fold (sorted l). rewrite in_ins, IH. intuition. Qed.
Lemma leb_total a b : str_leb a b = false -> str_leb b a = true.
Proof.
  revert b. induction a as [|x a IH]; intros [|y b]; cbn; try discriminate; try reflexivity.
  rewrite (Ascii.eqb_sym y x). destruct (Ascii.eqb_spec x y) as [<-|N]; [apply IH|]. unfold ascii_leb. rewrite Nat.leb_gt, Nat.leb_le. lia.
Qed.
Lemma leb_trans a b c : str_leb a b = true -> str_leb b c = true -> str_leb a c = true.
Proof.
  revert b c. induction a as [|x a IH]; intros [|y b] [|z c]; cbn; try discriminate; try reflexivity.
  destruct (Ascii.eqb_spec x y) as [<-|N].
  - destruct (Ascii.eqb_spec x z) as [<-|M]; [apply IH|auto].
  - destruct (Ascii.eqb_spec y z) as [<-|M].
    + destruct (Ascii.eqb_spec x y); [contradiction|auto].
    + unfold ascii_leb. rewrite !Nat.leb_le. intros A B. destruct (Ascii.eqb_spec x z) as [->|].
      * exfalso. assert (H : nat_of_ascii y = nat_of_ascii z) by lia. apply (f_equal ascii_of_nat) in H. rewrite !ascii_nat_embedding in H. congruence.
      * apply Nat.leb_le. lia.
Qed.
Lemma leb_antisym a b : str_leb a b = true -> str_leb b a = true -> a = b.
Proof.
  revert b. induction a as [|x a IH]; intros [|y b]; cbn; try discriminate; try reflexivity.
  rewrite (Ascii.eqb_sym y x). destruct (Ascii.eqb_spec x y) as [<-|N]; [intros A B; f_equal; now apply IH|].
  unfold ascii_leb. rewrite !Nat.leb_le. intros A B. exfalso. assert (H : nat_of_ascii y = nat_of_ascii x) by lia.
  apply (f_equal ascii_of_nat) in H. rewrite !ascii_nat_embedding in H. congruence.
Qed.
Definition str_le (a b : string) : Prop := str_leb (L a) (L b) = true.
Lemma ins_sorted x l : StronglySorted str_le l -> StronglySorted str_le (ins x l).
Proof.
  induction 1 as [|y l S IH F]; cbn; [repeat constructor|]. destruct (str_leb _ _) eqn:E.
  - constructor; [now constructor|]. constructor; [exact E|]. eapply Forall_impl; [|exact F]. intros z Hz. eapply leb_trans; eauto.
  - constructor; [exact IH|]. rewrite Forall_forall in *. intros z Hz. apply in_ins in Hz. destruct Hz as [->|Hz]; [now apply leb_total|auto].
Qed.
Lemma sorted_sorted l : StronglySorted str_le (sorted l).
Proof. induction l; cbn; [constructor|now apply ins_sorted]. Qed.
(** a version that can be taken from a name *)
Definition gives (p r v : string) : Prop := r = (p ++ v)%string /\ starts_with_digit v = true.
Lemma pick_least p l : StronglySorted str_le l ->
  match pick p l with
  | Some v => (exists r, In r l /\ gives p r v) /\ forall r v', In r l -> gives p r v' -> str_le (p ++ v) r
  | None => forall r v, In r l -> ~ gives p r v
  end.
Proof.
  induction 1 as [|r l S IH F]; cbn [pick]; [intros r v []|].
  assert (K : (forall v, ~ gives p r v) -> match pick p l with
     | Some v => (exists r', In r' (r :: l) /\ gives p r' v) /\ forall r' v', In r' (r :: l) -> gives p r' v' -> str_le (p ++ v) r'
     | None => forall r' v, In r' (r :: l) -> ~ gives p r' v end).
  { intros NG. destruct (pick p l) as [v|].
    - destruct IH as [(r' & I & G) Q]. split; [exists r'; split; [now right|exact G]|]. intros r'' v' [<-|I''] G'; [exfalso; eapply NG; eauto|eauto].
    - intros r' v [<-|I]; auto. }
  destruct (after p r) as [v|] eqn:E.
  - apply after_app in E. subst r. destruct (starts_with_digit v) eqn:D.
    + split; [exists (p ++ v)%string; split; [now left|split; auto]|]. intros r' v' [<-|I] G; [|rewrite Forall_forall in F; now apply F].
      unfold str_le. clear. induction (L (p ++ v)) as [|c s IHs]; cbn; [reflexivity|]. now rewrite Ascii.eqb_refl.
    + apply K. intros v' [G1 G2]. apply (f_equal L) in G1. rewrite !L_app in G1. apply app_inv_head in G1. apply L_inj in G1. congruence.
  - apply K. intros v' [G1 _]. apply after_app in G1. congruence.
Qed.

Lemma tags_app a b : flat_map (fun r => match after "tag: " r with Some t => [t] | None => [] end) (a ++ b)
  = flat_map (fun r => match after "tag: " r with Some t => [t] | None => [] end) a ++ flat_map (fun r => match after "tag: " r with Some t => [t] | None => [] end) b.
Proof. apply flat_map_app. Qed.
Lemma tags_none l : Forall not_tagb l -> flat_map (fun r => match after "tag: " r with Some t => [t] | None => [] end) l = [].
Proof. induction 1 as [|r l H _ IH]; cbn [flat_map]; [reflexivity|]. unfold not_tagb in H. now rewrite H, IH. Qed.
Lemma tags_all l : flat_map (fun r => match after "tag: " r with Some t => [t] | None => [] end) (map (append "tag: ") l) = l.
Proof.
  induction l as [|t l IH]; cbn [flat_map map]; [reflexivity|]. rewrite IH.
  rewrite (proj2 (after_app "tag: " ("tag: " ++ t)%string t) eq_refl). reflexivity.
Qed.
Lemma archive_tags head tags branches : not_tagb head -> Forall not_tagb branches -> tags <> [] ->
  archive_version (names head tags branches) = match pick "v" (sorted tags) with Some v => v | None => "0+unknown"%string end.
Proof.
  intros H F N. unfold archive_version, names. cbn [flat_map]. unfold not_tagb in H. rewrite H. cbn [app].
  rewrite tags_app, tags_all, tags_none, app_nil_r by auto. destruct tags; [congruence|reflexivity].
Qed.
Lemma looks_gives r v : looksb r v <-> gives "v" r v.
Proof. reflexivity. Qed.
Lemma archive_least_b head tags branches : not_tagb head -> Forall not_tagb branches ->
  (exists t v, In t tags /\ looksb t v) ->
  exists v, In ("v" ++ v)%string tags /\ starts_with_digit v = true /\ archive_version (names head tags branches) = v /\
    forall t v', In t tags -> looksb t v' -> str_le ("v" ++ v)%string t.
Proof.
  intros H F (t & v & I & G). rewrite archive_tags by (auto; intros ->; destruct I).
  pose proof (pick_least "v" (sorted tags) (sorted_sorted tags)) as P. destruct (pick "v" (sorted tags)) as [w|].
  - destruct P as [(r & Ir & -> & Dw) Q]. apply (proj1 (in_sorted _ _)) in Ir. exists w. split; [exact Ir|]. split; [exact Dw|]. split; [reflexivity|]. intros t' v' I' G'. apply (Q t' v'); [apply (proj2 (in_sorted _ _)), I'|exact G'].
  - exfalso. eapply P; [apply (proj2 (in_sorted _ _)), I|exact G].
Qed.
Lemma le_prefix a s : s <> [] -> str_leb (a ++ s) a = false.
Proof. intros N. induction a as [|c a IH]; cbn; [destruct s; [congruence|reflexivity]|]. now rewrite Ascii.eqb_refl. Qed.
Lemma archive_final_b head tags branches v s : not_tagb head -> Forall not_tagb branches -> starts_with_digit v = true -> s <> EmptyString ->
  In ("v" ++ v)%string tags -> archive_version (names head tags branches) <> (v ++ s)%string.
Proof.
  intros H F D N I E. destruct (archive_least_b head tags branches H F) as (w & Iw & Dw & Ew & Q); [exists ("v" ++ v)%string, v; repeat split; auto|].
  rewrite Ew in E. subst w. specialize (Q _ v I ltac:(split; auto)). unfold str_le in Q. rewrite !L_app, app_assoc in Q. rewrite le_prefix in Q; [discriminate|].
  destruct s; [congruence|discriminate].
Qed.
Lemma archive_order_b head tags branches head' tags' branches' : not_tagb head -> Forall not_tagb branches -> not_tagb head' -> Forall not_tagb branches' ->
  (exists t, In t tags) -> (forall t, In t tags <-> In t tags') -> archive_version (names head tags branches) = archive_version (names head' tags' branches').
Proof.
  intros H F H' F' (t & I) S. assert (N : tags <> []) by (intros ->; destruct I). assert (N' : tags' <> []) by (intros ->; now apply S in I).
  rewrite !archive_tags by auto.
  pose proof (pick_least "v" (sorted tags) (sorted_sorted tags)) as P. pose proof (pick_least "v" (sorted tags') (sorted_sorted tags')) as P'.
  destruct (pick "v" (sorted tags)) as [w|], (pick "v" (sorted tags')) as [w'|]; auto.
  - destruct P as [(r & Ir & Gr) Q], P' as [(r' & Ir' & Gr') Q'].
    assert (A : str_le ("v" ++ w)%string r') by (apply (Q r' w'); auto; apply (proj2 (in_sorted _ _)), S, (proj1 (in_sorted _ _)), Ir').
    assert (B : str_le ("v" ++ w')%string r) by (apply (Q' r w); auto; apply (proj2 (in_sorted _ _)), S, (proj1 (in_sorted _ _)), Ir).
    destruct Gr as [-> _], Gr' as [-> _]. pose proof (leb_antisym _ _ A B) as E. rewrite !L_app in E. apply app_inv_head in E. now apply L_inj.
  - exfalso. destruct P as [(r & Ir & Gr) _]. eapply P'; [|exact Gr]. apply (proj2 (in_sorted _ _)), S, (proj1 (in_sorted _ _)), Ir.
  - exfalso. destruct P' as [(r & Ir & Gr) _]. eapply P; [|exact Gr]. apply (proj2 (in_sorted _ _)), S, (proj1 (in_sorted _ _)), Ir.
Qed.
Lemma archive_branch_b b : starts_with_digit b = true -> archive_version (names "HEAD" [] [("v" ++ b)%string]) = b.
Proof.
  intros D. unfold archive_version, names. cbn [map app]. rewrite (tags_none ["HEAD"; ("v" ++ b)%string]%string) by (repeat constructor).
  assert (E : existsb is_digit (L ("v" ++ b)%string) = true) by (destruct b as [|c b]; [discriminate|]; apply existsb_exists; exists c; split; [right; now left|exact D]).
  cbn [filter]. rewrite E. replace (existsb is_digit (L "HEAD")) with false by reflexivity. cbn [sorted fold_right ins pick].
  rewrite (proj2 (after_app "v" ("v" ++ b)%string b) eq_refl), D. reflexivity.
Qed.
Lemma archive_unknown_b head branches : not_tagb head -> Forall not_tagb branches -> (forall r v, In r (head :: branches) -> ~ looksb r v) ->
  archive_version (names head [] branches) = "0+unknown"%string.
Proof.
  intros H F N. unfold archive_version, names. cbn [map app]. rewrite (tags_none (head :: branches)) by (constructor; auto).
  set (l := filter _ _). pose proof (pick_least "v" (sorted l) (sorted_sorted l)) as P. destruct (pick "v" (sorted l)) as [v|]; [|reflexivity].
  exfalso. destruct P as [(r & I & G) _]. apply (proj1 (in_sorted _ _)) in I. unfold l in I. apply filter_In in I. eapply N; [apply I|exact G].
Qed.

(** ** As specified *)
Lemma is_digit_iff c : is_digit c = true <-> In c (L "0123456789").
Proof. rewrite <- existsb_in. replace (existsb (Ascii.eqb c) (L "0123456789")) with (is_digit c); [tauto|]. destruct c as [[] [] [] [] [] [] [] []]; reflexivity. Qed.
Lemma is_hex_iff c : is_hex c = true <-> In c (L "0123456789abcdef").
Proof. rewrite <- existsb_in. replace (existsb (Ascii.eqb c) (L "0123456789abcdef")) with (is_hex c); [tauto|]. destruct c as [[] [] [] [] [] [] [] []]; reflexivity. Qed.
Lemma starts_iff s : starts_with_digit s = true <-> digit_first s.
Proof.
  unfold digit_first. destruct s as [|c r]; cbn [starts_with_digit].
  - split; [discriminate|]. intros (c & r & E & _). discriminate.
  - rewrite is_digit_iff. split; [intros H; exists c, r; auto|]. intros (c' & r' & E & H). injection E as -> ->. exact H.
Qed.
Lemma hex_iff s : hexb s <-> all_hex s.
Proof. unfold hexb, all_hex. split; apply Forall_impl; intros c; apply is_hex_iff. Qed.
Lemma valid_iff c : validb c <-> valid c.
Proof. destruct c; cbn [validb valid]; rewrite hex_iff, ?starts_iff; tauto. Qed.
Lemma looks_iff r v : looksb r v <-> looks_like r v.
Proof. unfold looksb, looks_like. now rewrite starts_iff. Qed.
Lemma tag_iff r : not_tagb r <-> not_a_tag r.
Proof.
  unfold not_tagb, not_a_tag. split.
  - intros H t E. apply after_app in E. congruence.
  - intros H. destruct (after "tag: " r) as [t|] eqn:E; [|reflexivity]. apply after_app in E. now apply H in E.
Qed.
Lemma tags_iff l : Forall not_tagb l <-> Forall not_a_tag l.
Proof. split; apply Forall_impl; intros r; apply tag_iff. Qed.
Lemma plain_iff c : plainb c <-> plain c.
Proof. destruct c; cbn [plainb plain]; [apply has_in|tauto]. Qed.
Lemma name_eq c : name_ofb c = name_of c.
Proof.
  destruct c; cbn [name_ofb name_of]; [|reflexivity]. destruct (in_dec _ _ _) as [I|I].
  - replace (has "+" tag) with true; [reflexivity|]. symmetry. unfold has. now apply existsb_in.
  - apply has_in in I. rewrite I. reflexivity.
Qed.
Lemma le_before a b : str_le a b -> before a b.
Proof.
  unfold str_le, before. revert b. induction a as [|x a IH]; intros b H; [left; now exists b|].
  destruct b as [|y b]; cbn in H; [discriminate|]. destruct (Ascii.eqb_spec x y) as [<-|N].
  - destruct (IH b H) as [(s & ->)|(p & u & w & a' & b' & -> & -> & W)]; [left; now exists s|].
    right. exists (String x p), u, w, a', b'. auto.
  - right. exists EmptyString, x, y, a, b. split; [reflexivity|]. split; [reflexivity|].
    unfold ascii_leb in H. apply Nat.leb_le in H. assert (nat_of_ascii x <> nat_of_ascii y); [|lia].
    intros E. apply (f_equal ascii_of_nat) in E. rewrite !ascii_nat_embedding in E. congruence.
Qed.

Lemma version_name c : valid c -> version c = name_of c.
Proof. intros V. rewrite <- name_eq. now apply version_name_b, valid_iff. Qed.
Lemma distinct c c' : valid c -> valid c' -> plain c -> plain c' -> version c = version c' -> same_code c c'.
Proof. rewrite <- !valid_iff, <- !plain_iff. apply distinct_b. Qed.
Lemma archive_least head tags branches : not_a_tag head -> Forall not_a_tag branches ->
  (exists t v, In t tags /\ looks_like t v) ->
  exists v, In ("v" ++ v)%string tags /\ digit_first v /\ archive_version (names head tags branches) = v /\
    forall t v', In t tags -> looks_like t v' -> before ("v" ++ v)%string t.
Proof.
  rewrite <- tag_iff, <- tags_iff. intros H F (t & v & I & G). destruct (archive_least_b head tags branches H F) as (w & A & B & C & D).
  { exists t, v. rewrite looks_iff. auto. }
  exists w. rewrite <- starts_iff. split; [exact A|]. split; [exact B|]. split; [exact C|]. intros t' v' I' G'. apply le_before. apply (D t' v' I'). now apply looks_iff.
Qed.
Lemma archive_final head tags branches v s : not_a_tag head -> Forall not_a_tag branches -> digit_first v -> s <> EmptyString ->
  In ("v" ++ v)%string tags -> archive_version (names head tags branches) <> (v ++ s)%string.
Proof. rewrite <- tag_iff, <- tags_iff, <- starts_iff. apply archive_final_b. Qed.
Lemma archive_order head tags branches head' tags' branches' : not_a_tag head -> Forall not_a_tag branches -> not_a_tag head' -> Forall not_a_tag branches' ->
  (exists t, In t tags) -> (forall t, In t tags <-> In t tags') -> archive_version (names head tags branches) = archive_version (names head' tags' branches').
Proof. rewrite <- !tag_iff, <- !tags_iff. apply archive_order_b. Qed.
Lemma archive_branch b : digit_first b -> archive_version (names "HEAD" [] [("v" ++ b)%string]) = b.
Proof. rewrite <- starts_iff. apply archive_branch_b. Qed.
Lemma archive_unknown head branches : not_a_tag head -> Forall not_a_tag branches -> (forall r v, In r (head :: branches) -> ~ looks_like r v) ->
  archive_version (names head [] branches) = "0+unknown"%string.
Proof.
  rewrite <- tag_iff, <- tags_iff. intros H F N. apply archive_unknown_b; auto. intros r v I G. apply (N r v I). now apply looks_iff.
Qed.

From Coq Require Import List ZArith Bool Lia.
From Verif.Model Require Import Numerics Parallel.
From Verif.Spec Require Import ParallelSpec.
Import ListNotations.
Open Scope Z_scope.

Lemma addr_eqb_true a b : addr_eqb a b = true <-> a = b.
Proof.
  destruct a as [[[n i] j] k], b as [[[n' i'] j'] k']. cbn. rewrite !andb_true_iff, Nat.eqb_eq, !Z.eqb_eq. split.
  - intros [[[-> ->] ->] ->]. reflexivity.
  - intros E. injection E as -> -> -> ->. auto.
Qed.
Section G.
Context {V : Type}.
Notation mem := (memory V).
Notation prg := (prog V).
Lemma upd_same (m : mem) a v : upd m a v a = v.
Proof. unfold upd. rewrite (proj2 (addr_eqb_true a a) eq_refl). reflexivity. Qed.
Lemma upd_other (m : mem) a b v : a <> b -> upd m a v b = m b.
Proof. intros H. unfold upd. destruct (addr_eqb a b) eqn:E; [apply addr_eqb_true in E; contradiction | reflexivity]. Qed.

(** ** Every execution ends *)
Definition lstep (l' l : list prg) : Prop := exists m m', step (m, l) (m', l').
Lemma lstep_cons p l l' : lstep l' (p :: l) ->
  (exists a k v, p = Read a k /\ l' = k v :: l) \/ (exists a v q, p = Write a v q /\ l' = q :: l) \/ (exists r, l' = p :: r /\ lstep r l).
Proof.
  intros (m & m' & S). inversion S as [? l0 a k r | ? l0 a v q r]; subst; destruct l0 as [|x l0]; cbn in *; match goal with H : _ :: _ = _ :: _ |- _ => injection H; clear H; intros <- <- end.
  - left. exists a, k, (m' a). auto.
  - right; right. eexists. split; [reflexivity|]. exists m', m'. constructor.
  - right; left. eauto.
  - right; right. eexists. split; [reflexivity|]. exists m, (upd m a v). constructor.
Qed.
Lemma acc_cons p : forall l, Acc lstep l -> Acc lstep (p :: l).
Proof.
  induction p as [|a k IH|a v p IH]; intros l A; induction A as [l A IHA]; constructor; intros l' S; destruct (lstep_cons _ _ _ S) as [(a' & k' & v' & E & ->)|[(a' & v' & q & E & ->)|(r & -> & R)]];
    try discriminate; try (apply IHA; exact R); injection E; intros; subst; apply IH; constructor; exact A.
Qed.
Lemma acc_list l : Acc lstep l.
Proof.
  induction l as [|p l IH]; [|apply acc_cons; exact IH]. constructor. intros l' (m & m' & S). inversion S as [? l0 ? ? ? E | ? l0 ? ? ? ? E]; subst; destruct l0; discriminate.
Qed.
Lemma acc_state m (l : list prg) : Acc (fun s' s => step s s') (m, l).
Proof.
  revert m. induction (acc_list l) as [l A IH]. intros m. constructor. intros [m' l'] S. apply IH. exists m, m'. exact S.
Qed.
Lemma can_step (m : mem) l : (exists s', step (m, l) s') \/ Forall (eq Done) l.
Proof.
  induction l as [|p l [[[m' l'] S]|F]]; [right; constructor| |].
  - left. inversion S; subst; [exists (m', (p :: l0) ++ k (m' a) :: r) | exists (upd m a v, (p :: l0) ++ p0 :: r)]; rewrite app_comm_cons; constructor.
  - destruct p as [|a k|a v q]; [right; constructor; auto| |].
    + left. exists (m, [] ++ k (m a) :: l). exact (step_read m [] a k l).
    + left. exists (upd m a v, [] ++ q :: l). exact (step_write m [] a v q l).
Qed.

(** ** Iterations that do not interfere *)
Inductive respects (W R : addr -> bool) : prg -> Prop :=
| resp_done : respects W R Done
| resp_read a k : R a = true -> (forall v, respects W R (k v)) -> respects W R (Read a k)
| resp_write a v p : W a = true -> respects W R p -> respects W R (Write a v p).
Lemma run_agree W R p : respects W R p -> forall m m' : mem, (forall a, W a = true \/ R a = true -> m a = m' a) ->
  forall a, W a = true \/ R a = true -> run p m a = run p m' a.
Proof.
  induction 1 as [|b k Hb Hk IH|b v p Hb Hp IH]; intros m m' A a Ha; cbn.
  - apply A. exact Ha.
  - rewrite (A b) by auto. apply IH; assumption.
  - apply IH; [|exact Ha]. intros c Hc. unfold upd. destruct (addr_eqb b c); [reflexivity | apply A; exact Hc].
Qed.
Lemma run_out W R p : respects W R p -> forall (m : mem) a, W a = false -> run p m a = m a.
Proof.
  induction 1 as [|b k Hb Hk IH|b v p Hb Hp IH]; intros m a Ha; cbn; auto. rewrite IH by exact Ha. apply upd_other. intros ->. congruence.
Qed.
Lemma nth_mid {A} (l : list A) x r i y : nth_error (l ++ x :: r) i = Some y -> (i = length l /\ y = x) \/ (i <> length l /\ forall z, nth_error (l ++ z :: r) i = Some y).
Proof.
  intros H. destruct (Nat.eq_dec i (length l)) as [->|N].
  - left. rewrite nth_error_app2, Nat.sub_diag in H by lia. injection H as ->. auto.
  - right. split; [exact N|]. intros z. destruct (Nat.lt_ge_cases i (length l)).
    + rewrite nth_error_app1 in * by assumption. exact H.
    + rewrite nth_error_app2 in * by assumption. destruct (i - length l)%nat eqn:E; [lia|]. exact H.
Qed.
Section Sep.
Variables (l0 : list prg) (m0 : mem) (W R : nat -> addr -> bool).
Hypothesis resp0 : forall i p, nth_error l0 i = Some p -> respects (W i) (R i) p.
Hypothesis sep : forall i j a, (i < length l0)%nat -> (j < length l0)%nat -> i <> j -> W i a = true -> W j a = false /\ R j a = false.
Definition inv (s : mem * list prg) : Prop :=
  length (snd s) = length l0 /\
  (forall i p, nth_error (snd s) i = Some p -> respects (W i) (R i) p /\ forall p0, nth_error l0 i = Some p0 -> forall a, W i a = true \/ R i a = true -> run p (fst s) a = run p0 m0 a) /\
  (forall a, (forall i, (i < length l0)%nat -> W i a = false) -> fst s a = m0 a).
Lemma inv_step s s' : step s s' -> inv s -> inv s'.
Proof.
  intros S (L & T & O). inversion S as [m l a k r|m l a v p r]; subst; cbn [fst snd] in *.
  - split; [cbn [snd]; rewrite <- L, !app_length; reflexivity|]. split; [|exact O]. intros i p Hp. destruct (nth_mid _ _ _ _ _ Hp) as [[-> ->]|[N Q]].
    + destruct (T (length l) (Read a k)) as [RR E]; [rewrite nth_error_app2, Nat.sub_diag by lia; reflexivity|]. inversion RR; subst. split; [auto|].
      intros p0 Hp0 b Hb. rewrite <- (E p0 Hp0 b Hb). reflexivity.
    + apply T. apply Q.
  - assert (LL : (length l < length l0)%nat) by (rewrite <- L, app_length; cbn; lia).
    destruct (T (length l) (Write a v p)) as [RR E]; [rewrite nth_error_app2, Nat.sub_diag by lia; reflexivity|]. inversion RR as [| |? ? ? Wa RP]; subst.
    split; [cbn [snd]; rewrite <- L, !app_length; reflexivity|]. split.
    + intros i q Hq. destruct (nth_mid _ _ _ _ _ Hq) as [[-> ->]|[N Q]].
      * split; [exact RP|]. intros p0 Hp0 b Hb. rewrite <- (E p0 Hp0 b Hb). reflexivity.
      * destruct (T i q (Q _)) as [RQ EQ]. split; [exact RQ|]. intros p0 Hp0 b Hb. rewrite <- (EQ p0 Hp0 b Hb). apply (run_agree _ _ _ RQ); [|exact Hb].
        intros c Hc. apply upd_other. intros ->. destruct (sep (length l) i c) as [X Y]; auto; [|destruct Hc; congruence].
        apply nth_error_Some. congruence.
    + intros b Hb. rewrite <- (O b Hb). apply upd_other. intros ->. rewrite (Hb _ LL) in Wa. discriminate.
Qed.
Lemma inv_init : inv (m0, l0).
Proof. split; [reflexivity|]. split; [|reflexivity]. intros i p Hp. cbn [fst snd] in *. split; [auto|]. intros p0 E. rewrite Hp in E. injection E as <-. reflexivity. Qed.
Lemma inv_steps s s' : steps s s' -> inv s -> inv s'.
Proof. induction 1; auto. intros I. apply IHsteps. eapply inv_step; eassumption. Qed.
Lemma par_gives f : (forall i p a, nth_error l0 i = Some p -> W i a = true -> f a = run p m0 a) ->
  (forall a, (forall i, (i < length l0)%nat -> W i a = false) -> f a = m0 a) -> always_gives m0 l0 f.
Proof.
  intros F1 F2. split; [apply acc_state|]. intros [m l] S. destruct (can_step m l) as [C|C]; [left; exact C|]. right. split; [exact C|].
  destruct (inv_steps _ _ S inv_init) as (L & T & O). cbn [fst snd] in *. intros a.
  destruct (existsb (fun i => W i a) (seq 0 (length l0))) eqn:E.
  - apply existsb_exists in E. destruct E as (i & Hi & Wi). apply in_seq in Hi. destruct (nth_error l0 i) as [p0|] eqn:N0; [|apply nth_error_None in N0; lia].
    destruct (nth_error l i) as [p|] eqn:N; [|apply nth_error_None in N; lia]. rewrite (F1 _ _ _ N0 Wi). destruct (T i p N) as [_ Q]. rewrite <- (Q p0 N0 a) by auto.
    rewrite Forall_forall in C. rewrite <- (C p (nth_error_In _ _ N)). reflexivity.
  - rewrite F2, O; [reflexivity| |]; intros i Hi; rewrite <- not_true_iff_false; intros Wi; rewrite <- not_true_iff_false in E; apply E; apply existsb_exists; exists i; (split; [apply in_seq; lia | exact Wi]).
Qed.
End Sep.

(** ** One thread can be run to its end; in order is an execution *)
Lemma run_thread p : forall (m : mem) l r, steps (m, l ++ p :: r) (run p m, l ++ Done :: r).
Proof.
  induction p as [|a k IH|a v p IH]; intros m l r; cbn; [constructor| |].
  - eapply steps_more; [apply step_read | apply IH].
  - eapply steps_more; [apply step_write | apply IH].
Qed.
Lemma steps_trans (a b c : mem * list prg) : steps a b -> steps b c -> steps a c.
Proof. induction 1; auto. intros. eapply steps_more; eauto. Qed.
Lemma in_order_steps l : forall d (m : mem), Forall (eq Done) d -> exists d', Forall (eq Done) d' /\ steps (m, d ++ l) (in_order l m, d').
Proof.
  induction l as [|p l IH]; intros d m F; cbn.
  - exists d. split; [exact F|]. rewrite app_nil_r. constructor.
  - destruct (IH (d ++ [Done]) (run p m)) as (d' & F' & S); [apply Forall_app; auto|]. exists d'. split; [exact F'|].
    eapply steps_trans; [apply run_thread|]. rewrite <- app_assoc in S. exact S.
Qed.
Lemma done_stuck (m : mem) l s' : Forall (eq Done) l -> ~ step (m, l) s'.
Proof.
  intros F S. rewrite Forall_forall in F. inversion S as [? l0 a k r|? l0 a v p r]; subst;
  [assert (X := F (Read a k)) | assert (X := F (Write a v p))]; rewrite in_app_iff in X; specialize (X (or_intror (or_introl eq_refl))); discriminate.
Qed.
Lemma gives_in_order (m : mem) l (f : mem) : always_gives m l f -> forall a, in_order l m a = f a.
Proof.
  intros [_ G]. destruct (in_order_steps l [] m) as (d & F & S); [constructor|]. destruct (G _ S) as [[s' C]|[_ E]]; [|exact E]. destruct (done_stuck _ _ _ F C).
Qed.

(** ** Loops *)
Lemma run_for (I : Z -> mem -> Prop) (body : Z -> prg -> prg) n : forall lo k m (Q : mem -> Prop), I lo m ->
  (forall i m k (Q' : mem -> Prop), lo <= i < lo + Z.of_nat n -> I i m -> (forall m', I (i + 1) m' -> Q' (run k m')) -> Q' (run (body i k) m)) ->
  (forall m', I (lo + Z.of_nat n) m' -> Q (run k m')) -> Q (run (for_ n lo body k) m).
Proof.
  induction n as [|n IH]; intros lo k m Q I0 B E; cbn.
  - apply E. replace (lo + Z.of_nat 0) with lo by lia. exact I0.
  - apply (B lo m); [lia | exact I0|]. intros m' I1. apply IH; [exact I1| |].
    + intros i m1 k1 Q1 Hi. apply B. lia.
    + intros m1 H1. apply E. replace (lo + Z.of_nat (S n)) with (lo + 1 + Z.of_nat n) by lia. exact H1.
Qed.
Lemma resp_for W R (body : Z -> prg -> prg) n : forall lo k, (forall i k, lo <= i < lo + Z.of_nat n -> respects W R k -> respects W R (body i k)) ->
  respects W R k -> respects W R (for_ n lo body k).
Proof.
  induction n as [|n IH]; intros lo k B K; cbn; [exact K|]. apply B; [lia|]. apply IH; [|exact K]. intros i q Hi. apply B. lia.
Qed.
Lemma prange_nth n (body : Z -> prg) i p : nth_error (prange n body) i = Some p -> (i < n)%nat /\ p = body (Z.of_nat i).
Proof.
  unfold prange. rewrite nth_error_map. destruct (nth_error (seq 0 n) i) as [x|] eqn:E; [|discriminate]. cbn. intros H. injection H as <-.
  assert (L : (i < n)%nat) by (rewrite <- (seq_length n 0); apply nth_error_Some; congruence). split; [exact L|].
  rewrite (nth_error_nth' _ 0%nat) in E by (rewrite seq_length; exact L). rewrite seq_nth in E by exact L. injection E as <-. reflexivity.
Qed.
(** A prange loop whose iteration i writes in W i and reads in R i. *)
Lemma prange_gives n (body : Z -> prg) (W R : Z -> addr -> bool) m f :
  (forall i, 0 <= i < Z.of_nat n -> respects (W i) (R i) (body i)) ->
  (forall i j a, 0 <= i < Z.of_nat n -> 0 <= j < Z.of_nat n -> i <> j -> W i a = true -> W j a = false /\ R j a = false) ->
  (forall i a, 0 <= i < Z.of_nat n -> W i a = true -> run (body i) m a = f a) ->
  (forall a, (forall i, 0 <= i < Z.of_nat n -> W i a = false) -> f a = m a) ->
  always_gives m (prange n body) f.
Proof.
  intros RS SP F1 F2. assert (L : length (prange n body) = n) by (unfold prange; rewrite map_length, seq_length; reflexivity).
  apply (par_gives _ _ (fun i => W (Z.of_nat i)) (fun i => R (Z.of_nat i))).
  - intros i p Hp. destruct (prange_nth _ _ _ _ Hp) as [Hi ->]. apply RS. lia.
  - rewrite L. intros i j a Hi Hj N. apply SP; lia.
  - intros i p a Hp Wa. destruct (prange_nth _ _ _ _ Hp) as [Hi ->]. symmetry. apply F1; [lia | exact Wa].
  - rewrite L. intros a H. apply F2. intros i Hi. rewrite <- (Z2Nat.id i) by lia. apply H. lia.
Qed.
End G.

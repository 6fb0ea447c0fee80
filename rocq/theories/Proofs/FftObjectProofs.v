From Coq Require Import String List Bool ZArith Lia Reals.
From Coquelicot Require Import Complex.
From Verif.Model Require Import FftObject.
From Verif.Spec Require Import FourierSpec.
Import ListNotations.

Section Facts.
Variable D : Type.
Variable fwd bwd left : D -> D.
Notation act' := (act D fwd bwd left).
Notation acts' := (acts D fwd bwd left).
Notation call := (fft_call D fwd bwd left).

Lemma set_same (h : nat -> D) l d : set_at D h l d l = d.
Proof. unfold set_at. rewrite Nat.eqb_refl. reflexivity. Qed.
Lemma set_other (h : nat -> D) l d k : k <> l -> set_at D h l d k = h k.
Proof. intros H. unfold set_at. destruct (Nat.eqb_spec k l); [contradiction | reflexivity]. Qed.

(** The object's own arrays are the first two. *)
Record good (n0 : nat) (m : mem D) : Prop := {
  g_plan : f_plan_in (obj D m) = n0 /\ f_plan_out (obj D m) = S n0;
  g_used : (S n0 < used D m)%nat;
  g_in : (f_in (obj D m) < used D m)%nat }.
Definition in_own (n0 : nat) (m : mem D) : Prop := f_lib (obj D m) <> LScipy -> f_in (obj D m) = n0.
Notation ok_hist := (names_exist D fwd bwd left).

Lemma act_lib a m : f_lib (obj D (act' a m)) = f_lib (obj D m) /\ f_forward (obj D (act' a m)) = f_forward (obj D m).
Proof. destruct a; cbn; auto. unfold fft_call. destruct (f_lib (obj D m)) eqn:E; cbn; rewrite ?E; auto. Qed.
Lemma acts_lib h m : f_lib (obj D (acts' h m)) = f_lib (obj D m) /\ f_forward (obj D (acts' h m)) = f_forward (obj D m).
Proof. revert m. induction h as [|a h IH]; intros m; [auto|]. change (acts' (a :: h) m) with (acts' h (act' a m)). destruct (IH (act' a m)) as [A B]. rewrite A, B. apply act_lib. Qed.
Lemma act_used a m : (used D m <= used D (act' a m))%nat.
Proof. destruct a; cbn; try lia. unfold fft_call. destruct (f_lib (obj D m)); cbn; lia. Qed.
Lemma acts_used h m : (used D m <= used D (acts' h m))%nat.
Proof. revert m. induction h as [|a h IH]; intros m; [cbn; lia|]. change (acts' (a :: h) m) with (acts' h (act' a m)). specialize (IH (act' a m)). pose proof (act_used a m). lia. Qed.

Lemma good_act n0 a m : good n0 m -> names_ok (used D m) a -> good n0 (act' a m).
Proof.
  intros [[A B] C E] N. destruct a; cbn in *; try (constructor; cbn; auto; lia).
  unfold fft_call. destruct (f_lib (obj D m)) eqn:L; cbn; constructor; cbn; auto; try lia. destruct data; lia.
Qed.
Lemma own_act n0 a m : in_own n0 m -> ~ is_bind a -> in_own n0 (act' a m).
Proof.
  unfold in_own. intros H N. destruct a; cbn in *; auto; [contradiction (N I)|]. unfold fft_call. destruct (f_lib (obj D m)) eqn:L; cbn; rewrite ?L; auto.
  intros X. contradiction (X eq_refl).
Qed.
Lemma good_acts n0 h m : good n0 m -> ok_hist h m -> good n0 (acts' h m).
Proof. revert m. induction h as [|a h IH]; intros m G O; [exact G|]. destruct O as [N O]. apply (IH (act' a m)); [apply good_act; auto | exact O]. Qed.
Lemma own_acts n0 h m : in_own n0 m -> never is_bind h -> in_own n0 (acts' h m).
Proof. revert m. induction h as [|a h IH]; intros m G N; [exact G|]. inversion N; subst. apply (IH (act' a m)); auto. apply own_act; auto. Qed.
Lemma new_good zero l f h n : good n (new_fft D zero l f h n) /\ in_own n (new_fft D zero l f h n).
Proof. split; [constructor; cbn; auto; lia | unfold in_own; cbn; auto]. Qed.

(** ** The value of a transform *)
Lemma call_value n0 m l : good n0 m -> in_own n0 m ->
  heap D (fst (call (Some l) m)) (snd (call (Some l) m)) = transform D fwd bwd (obj D m) (heap D m l).
Proof.
  intros [[A B] C E] O. unfold fft_call, in_own in *. destruct (f_lib (obj D m)) eqn:L; cbn.
  - rewrite set_same. rewrite set_same. reflexivity.
  - rewrite set_same. rewrite A, O, set_same by discriminate. reflexivity.
  - rewrite set_same. reflexivity.
Qed.
Lemma call_none_value n0 m : good n0 m -> in_own n0 m ->
  heap D (fst (call None m)) (snd (call None m)) = transform D fwd bwd (obj D m) (heap D m (f_in (obj D m))).
Proof.
  intros [[A B] C E] O. unfold fft_call, in_own in *. destruct (f_lib (obj D m)) eqn:L; cbn; rewrite set_same; auto.
  rewrite A, O by discriminate. reflexivity.
Qed.
Lemma call_frame n0 m d k : good n0 m -> in_own n0 m -> (k < used D m)%nat -> k <> n0 -> k <> S n0 -> heap D (fst (call d m)) k = heap D m k.
Proof.
  intros [[A B] C E] O K K1 K2. unfold fft_call, in_own in *. destruct (f_lib (obj D m)) eqn:L; cbn.
  - rewrite set_other by lia. destruct d; [rewrite set_other by (rewrite O by discriminate; exact K1)|]; reflexivity.
  - rewrite set_other by (rewrite B; exact K2). rewrite set_other by (rewrite A; exact K1). destruct d; [rewrite set_other by (rewrite O by discriminate; exact K1)|]; reflexivity.
  - rewrite set_other by lia. reflexivity.
Qed.
(** ** An array the user leaves alone *)
Lemma act_frame n0 a m k : good n0 m -> in_own n0 m -> (k < used D m)%nat -> k <> n0 -> k <> S n0 -> ~ writes k a -> ~ is_bind a ->
  (is_fill a -> f_lib (obj D m) <> LScipy) -> heap D (act' a m) k = heap D m k.
Proof.
  intros G O K K1 K2 W N F. destruct a; cbn in *.
  - apply set_other. lia.
  - apply set_other. auto.
  - apply set_other. rewrite O; auto.
  - reflexivity.
  - apply call_frame with n0; auto.
Qed.
Lemma acts_frame n0 h m k : good n0 m -> in_own n0 m -> (k < used D m)%nat -> k <> n0 -> k <> S n0 -> ok_hist h m -> never (writes k) h -> never is_bind h ->
  (never is_fill h \/ f_lib (obj D m) <> LScipy) -> heap D (acts' h m) k = heap D m k.
Proof.
  revert m. induction h as [|a h IH]; intros m G O K K1 K2 OK W N F; [reflexivity|]. destruct OK as [OK1 OK]. inversion W; subst. inversion N; subst. change (acts' (a :: h) m) with (acts' h (act' a m)).
  transitivity (heap D (act' a m) k).
  - apply IH; auto.
    + apply good_act; auto.
    + apply own_act; auto.
    + pose proof (act_used a m). lia.
    + destruct F as [F|F]; [left; inversion F; auto | right; rewrite (proj1 (act_lib a m)); exact F].
  - eapply act_frame; eauto. intros X. destruct F as [F|F]; [|exact F]. inversion F; subst. contradiction.
Qed.
(** ** Results *)
Lemma res_fresh n0 m d : good n0 m -> f_lib (obj D m) <> LPyfftw -> snd (call d m) = used D m /\ (snd (call d m) < used D (fst (call d m)))%nat.
Proof. intros G L. unfold fft_call. destruct (f_lib (obj D m)); cbn; [split; lia | congruence | split; lia]. Qed.
Lemma res_pyfftw m d : f_lib (obj D m) = LPyfftw -> snd (call d m) = f_plan_out (obj D m).
Proof. intros L. unfold fft_call. rewrite L. reflexivity. Qed.
End Facts.

(** ** Which library *)
Lemma mode_pyfftw a : fft_mode a "pyfftw" = if has_pyfftw a then Some LPyfftw else if has_scipy a then Some LScipy else None.
Proof. destruct a as [r o c p s]. destruct p, s; reflexivity. Qed.
Lemma mode_scipy a : fft_mode a "scipy" = if has_scipy a then Some LScipy else None.
Proof. destruct a as [r o c p s]. destruct p, s; reflexivity. Qed.
Lemma mode_gpu a : fft_mode a "gpu" = if has_reikna a && (ocl_works a || cuda_works a) then Some LGpu else if has_pyfftw a then Some LPyfftw else if has_scipy a then Some LScipy else None.
Proof. unfold fft_mode, gpu_block. destruct a as [r o c p s]. destruct r, o, c, p, s; reflexivity. Qed.

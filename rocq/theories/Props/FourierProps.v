(** C133-C141: the Fourier transform object, convolution and correlation. *)
From Coq Require Import ZArith Reals Lra Lia List String Bool.
From Coquelicot Require Import Complex.
From Verif.Base Require Import CSum CSumFacts.
From Verif.Model Require Import FftObject Convolve.
From Verif.Spec Require Import NumericsSpec FourierSpec.
From Verif.Proofs Require Import FftObjectProofs ConvolveProofs.
Import ListNotations.
Open Scope R_scope.

(** ** C133: fft(data) is the transform of data, after any history *)
Section C133.
Variable D : Type.
Variable fwd bwd left : D -> D.
Variable zero : D.
Variable h0 : nat -> D.
Variable n0 : nat.
(** The object is new, arrays 0 .. n0-1 already exist. *)
Notation fresh l f := (new_fft D zero l f h0 n0).
Notation run := (acts D fwd bwd left).
Notation call := (fft_call D fwd bwd left).

Theorem C133_transform_partial : forall l forward hist data,
  l <> LGpu ->
  names_exist D fwd bwd left hist (fresh l forward) -> never is_bind hist ->
  let m := run hist (fresh l forward) in
  let '(m', r) := call (Some data) m in
  heap D m' r = (if forward then fwd else bwd) (heap D m data) /\
  forall k, (k < used D m)%nat -> k <> n0 -> k <> S n0 -> heap D m' k = heap D m k.
Proof.
  intros l forward hist data L N B m. destruct (new_good D zero l forward h0 n0) as [G O].
  pose proof (good_acts D fwd bwd left n0 hist _ G N) as G'. pose proof (own_acts D fwd bwd left n0 hist _ O B) as O'. fold m in G', O'.
  pose proof (call_value D fwd bwd left n0 m data G' O') as V. pose proof (fun k => call_frame D fwd bwd left n0 m (Some data) k G' O') as F.
  destruct (call (Some data) m) as [m' r]. cbn [fst snd] in *. split; [|intros; apply F; auto]. rewrite V. unfold transform.
  destruct (acts_lib D fwd bwd left hist (fresh l forward)) as [A A']. fold m in A, A'. rewrite A, A'. cbn. destruct l; congruence.
Qed.
(** fft() transforms what inputData holds. *)
Theorem C133_no_data_partial : forall l forward hist,
  l <> LGpu ->
  names_exist D fwd bwd left hist (fresh l forward) -> never is_bind hist ->
  let m := run hist (fresh l forward) in
  let '(m', r) := call None m in
  heap D m' r = (if forward then fwd else bwd) (heap D m (f_in (obj D m))).
Proof.
  intros l forward hist L N B m. destruct (new_good D zero l forward h0 n0) as [G O].
  pose proof (good_acts D fwd bwd left n0 hist _ G N) as G'. pose proof (own_acts D fwd bwd left n0 hist _ O B) as O'. fold m in G', O'.
  pose proof (call_none_value D fwd bwd left n0 m G' O') as V.
  destruct (call None m) as [m' r]. cbn [fst snd] in *. rewrite V. unfold transform.
  destruct (acts_lib D fwd bwd left hist (fresh l forward)) as [A A']. fold m in A, A'. rewrite A, A'. cbn. destruct l; congruence.
Qed.
(** With reikna the direction is the wrong way round, for every object, history and data. *)
Theorem C133_gpu_refuted : forall forward hist data,
  names_exist D fwd bwd left hist (fresh LGpu forward) -> never is_bind hist ->
  let m := run hist (fresh LGpu forward) in
  let '(m', r) := call (Some data) m in
  heap D m' r = (if forward then bwd else fwd) (heap D m data).
Proof.
  intros forward hist data N B m. destruct (new_good D zero LGpu forward h0 n0) as [G O].
  pose proof (good_acts D fwd bwd left n0 hist _ G N) as G'. pose proof (own_acts D fwd bwd left n0 hist _ O B) as O'. fold m in G', O'.
  pose proof (call_value D fwd bwd left n0 m data G' O') as V.
  destruct (call (Some data) m) as [m' r]. cbn [fst snd] in *. rewrite V. unfold transform.
  destruct (acts_lib D fwd bwd left hist (fresh LGpu forward)) as [A A']. fold m in A, A'. rewrite A, A'. cbn. destruct forward; reflexivity.
Qed.
(** The documented [fftObj.inputData = x; fftObj()]: right with fftpack ... *)
Theorem C133_bind_partial : forall forward hist data,
  let m := act D fwd bwd left (Bind data) (run hist (fresh LScipy forward)) in
  let '(m', r) := call None m in
  heap D m' r = (if forward then fwd else bwd) (heap D m data).
Proof.
  intros forward hist data m. destruct (acts_lib D fwd bwd left hist (fresh LScipy forward)) as [A A']. unfold fft_call.
  assert (L : f_lib (obj D m) = LScipy) by exact A. assert (F : f_forward (obj D m) = forward) by exact A'.
  rewrite L. cbn [heap]. rewrite set_same. unfold transform. rewrite L, F. reflexivity.
Qed.
(** ... but with pyfftw, the default, the data is ignored (a new object transforms its zeros), and the next
    fft(y) overwrites the array named with y and does not transform y either. *)
Theorem C133_bind_refuted : forall forward x y,
  let m := run [New x; New y; Bind (2 + n0)] (fresh LPyfftw forward) in
  let '(m1, r) := call None m in
  let '(m2, r2) := call (Some (3 + n0)%nat) m1 in
  heap D m1 r = (if forward then fwd else bwd) zero /\
  heap D m2 (2 + n0)%nat = y /\
  heap D m2 r2 = (if forward then fwd else bwd) (left zero).
Proof.
  intros forward x y.
  assert (E : forall a b : nat, (a <? b)%nat = true -> (a =? b)%nat = false /\ (b =? a)%nat = false).
  { intros a b H. apply Nat.ltb_lt in H. split; apply Nat.eqb_neq; lia. }
  assert (P : forall k, (k <? S k)%nat = true /\ (k <? S (S k))%nat = true /\ (k <? S (S (S k)))%nat = true).
  { intros k. rewrite !Nat.ltb_lt. lia. }
  destruct (P n0) as (A1 & A2 & A3). destruct (P (S n0)) as (B1 & B2 & _). destruct (P (S (S n0))) as (C1 & _ & _).
  apply E in A1. apply E in A2. apply E in A3. apply E in B1. apply E in B2. apply E in C1. destruct A1, A2, A3, B1, B2, C1.
  cbn -[Nat.eqb]. unfold set_at, transform. cbn -[Nat.eqb]. rewrite !Nat.eqb_refl.
  repeat (match goal with H : (_ =? _)%nat = false |- _ => rewrite ?H; clear H end).
  destruct forward; repeat split; reflexivity.
Qed.
End C133.
Print Assumptions C133_transform_partial.
Print Assumptions C133_no_data_partial.
Print Assumptions C133_gpu_refuted.
Print Assumptions C133_bind_partial.
Print Assumptions C133_bind_refuted.

(** ** C134: the array returned keeps its values *)
Theorem C134_result_partial : forall D fwd bwd left zero h0 n0 l forward hist data later,
  l <> LPyfftw ->
  let m := acts D fwd bwd left hist (new_fft D zero l forward h0 n0) in
  names_exist D fwd bwd left hist (new_fft D zero l forward h0 n0) -> never is_bind hist ->
  names_exist D fwd bwd left (Fft data :: later) m ->
  let '(m', r) := fft_call D fwd bwd left data m in
  never is_bind later -> never is_fill later -> never (writes r) later ->
  heap D (acts D fwd bwd left later m') r = heap D m' r.
Proof.
  intros D fwd bwd left zero h0 n0 l forward hist data later L m N B [N1 N2]. destruct (new_good D zero l forward h0 n0) as [G O].
  pose proof (good_acts D fwd bwd left n0 hist _ G N) as G'. pose proof (own_acts D fwd bwd left n0 hist _ O B) as O'. fold m in G', O'.
  destruct (acts_lib D fwd bwd left hist (new_fft D zero l forward h0 n0)) as [A A']. fold m in A, A'.
  assert (L' : f_lib (obj D m) <> LPyfftw) by (rewrite A; exact L).
  destruct (res_fresh D fwd bwd left n0 m data G' L') as [R R'].
  pose proof (good_act D fwd bwd left n0 (Fft data) m G' N1) as G2. pose proof (own_act D fwd bwd left n0 (Fft data) m O' (fun x => x)) as O2.
  cbn in G2, O2, N2. destruct (fft_call D fwd bwd left data m) as [m' r]. cbn [fst snd] in *. intros B2 F2 W2.
  pose proof (g_used D n0 m G'). apply (acts_frame D fwd bwd left n0 later m' r); auto; lia.
Qed.
(** With pyfftw, the default, every result is the same array: the second transform replaces the first result. *)
Theorem C134_result_refuted : forall D fwd bwd left zero h0 n0 forward hist x y,
  names_exist D fwd bwd left hist (new_fft D zero LPyfftw forward h0 n0) -> never is_bind hist ->
  let m := acts D fwd bwd left hist (new_fft D zero LPyfftw forward h0 n0) in
  let '(m1, r1) := fft_call D fwd bwd left (Some x) m in
  let '(m2, r2) := fft_call D fwd bwd left (Some y) m1 in
  r1 = r2 /\ heap D m2 r1 = (if forward then fwd else bwd) (heap D m1 y).
Proof.
  intros D fwd bwd left zero h0 n0 forward hist x y N B m. destruct (new_good D zero LPyfftw forward h0 n0) as [G O].
  pose proof (good_acts D fwd bwd left n0 hist _ G N) as G'. pose proof (own_acts D fwd bwd left n0 hist _ O B) as O'. fold m in G', O'.
  destruct (acts_lib D fwd bwd left hist (new_fft D zero LPyfftw forward h0 n0)) as [A A']. fold m in A, A'. cbn in A, A'.
  unfold fft_call. rewrite A. cbn -[Nat.eqb]. rewrite A. cbn -[Nat.eqb]. split; [reflexivity|]. rewrite set_same. unfold transform. rewrite A, A'.
  destruct (g_plan D n0 m G') as [P1 P2]. assert (I0 : f_in (obj D m) = n0) by (apply O'; rewrite A; discriminate).
  rewrite P1, I0, !set_same. reflexivity.
Qed.
Print Assumptions C134_result_partial.
Print Assumptions C134_result_refuted.

(** ** C135: arrays passed to an FFT object keep their values *)
Theorem C135_inputs_partial : forall D fwd bwd left zero h0 n0 l forward hist k,
  names_exist D fwd bwd left hist (new_fft D zero l forward h0 n0) -> (k < n0)%nat ->
  never is_bind hist -> never (writes k) hist -> (never is_fill hist \/ l <> LScipy) ->
  heap D (acts D fwd bwd left hist (new_fft D zero l forward h0 n0)) k = h0 k.
Proof.
  intros D fwd bwd left zero h0 n0 l forward hist k N K B W F. destruct (new_good D zero l forward h0 n0) as [G O].
  rewrite (acts_frame D fwd bwd left n0 hist (new_fft D zero l forward h0 n0) k); auto; try (cbn; lia).
  cbn. rewrite !set_other by lia. reflexivity.
Qed.
(** With fftpack: transform x, then put y into inputData for the next transform: x is now y. *)
Theorem C135_inputs_refuted : forall D fwd bwd left zero h0 n0 forward x y, (x < n0)%nat -> (y < n0)%nat ->
  heap D (acts D fwd bwd left [Fft (Some x); Fill y] (new_fft D zero LScipy forward h0 n0)) x = h0 y.
Proof.
  intros. unfold acts. cbn -[Nat.eqb set_at]. rewrite set_same. rewrite !set_other by lia. reflexivity.
Qed.
Print Assumptions C135_inputs_partial.
Print Assumptions C135_inputs_refuted.

(** Concrete histories meeting the hypotheses: three arrays exist, the object is used several times. *)
Example C133_instance :
  let m0 := new_fft Z 0%Z LPyfftw true (fun k => Z.of_nat k + 10)%Z 3 in
  let hist := [New 7%Z; Fft (Some 1%nat); Fill 2%nat; Fft None; Write 0 5%Z; Fft (Some 5%nat)] in
  let m := acts Z (fun d => 2 * d)%Z (fun d => d + 1)%Z (fun d => d - 1)%Z hist m0 in
  names_exist Z (fun d => 2 * d)%Z (fun d => d + 1)%Z (fun d => d - 1)%Z hist m0 /\ never is_bind hist /\
  let '(m', r) := fft_call Z (fun d => 2 * d)%Z (fun d => d + 1)%Z (fun d => d - 1)%Z (Some 0%nat) m in
  heap Z m' r = 10%Z /\ heap Z m' 1 = 11%Z.
Proof. cbn. repeat split; try lia. unfold never. repeat constructor; intros []. Qed.
Example C134_instance :
  let m0 := new_fft Z 0%Z LScipy true (fun k => Z.of_nat k + 10)%Z 3 in
  let m := acts Z (fun d => 2 * d)%Z (fun d => d + 1)%Z (fun d => d - 1)%Z [Fft (Some 1%nat)] m0 in
  let '(m', r) := fft_call Z (fun d => 2 * d)%Z (fun d => d + 1)%Z (fun d => d - 1)%Z (Some 2%nat) m in
  let later := [Fft (Some r); New 4%Z; Write 2 0%Z; Fft None] in
  names_exist Z (fun d => 2 * d)%Z (fun d => d + 1)%Z (fun d => d - 1)%Z (Fft (Some 2%nat) :: later) m /\
  never is_bind later /\ never is_fill later /\ never (writes r) later /\ heap Z m' r = 24%Z.
Proof. cbn. repeat split; try lia; unfold never; repeat constructor; cbn; intros H; try contradiction; try discriminate. Qed.
Example C135_instance :
  let m0 := new_fft Z 0%Z LPyfftw true (fun k => Z.of_nat k + 10)%Z 3 in
  let hist := [Fft (Some 1%nat); Fill 2%nat; Fft None; Write 0 5%Z; Fft (Some 4%nat)] in
  names_exist Z (fun d => 2 * d)%Z (fun d => d + 1)%Z (fun d => d - 1)%Z hist m0 /\ never is_bind hist /\ never (writes 1%nat) hist.
Proof. cbn. repeat split; try lia; unfold never; repeat constructor; cbn; intros H; try contradiction; try discriminate. Qed.

(** ** C136: which library transforms *)
Theorem C136_fallback_partial : forall a mode l,
  documented_mode mode -> fft_mode a mode = Some l ->
  (l = LGpu -> mode = "gpu"%string /\ has_reikna a = true) /\
  (l = LPyfftw -> mode <> "scipy"%string /\ has_pyfftw a = true) /\
  (l = LScipy -> has_scipy a = true /\ (mode = "scipy"%string \/ has_pyfftw a = false)).
Proof.
  intros [r o c p s] mode l [ -> |[ -> | -> ]]; rewrite ?mode_pyfftw, ?mode_scipy, ?mode_gpu; cbn; destruct r, o, c, p, s; cbn; intros E; inversion E; subst;
    repeat split; intros; try discriminate; auto.
Qed.
Theorem C136_always_partial : forall a mode,
  mode = "pyfftw"%string \/ mode = "gpu"%string -> has_pyfftw a = true \/ has_scipy a = true -> exists l, fft_mode a mode = Some l.
Proof.
  intros [r o c p s] mode [ -> | -> ] H; rewrite ?mode_pyfftw, ?mode_gpu; cbn in *; destruct r, o, c, p, s; cbn; try (eexists; reflexivity); destruct H; discriminate.
Qed.
(** Asking for fftpack where only pyfftw is installed, or for an unknown mode, ends in AttributeError. *)
Theorem C136_fallback_refuted :
  (forall a, has_scipy a = false -> fft_mode a "scipy" = None) /\
  (forall a, fft_mode a "fftw" = None).
Proof. split; intros a; [intros H; rewrite mode_scipy, H|]; reflexivity. Qed.
Print Assumptions C136_fallback_partial.
Print Assumptions C136_always_partial.
Print Assumptions C136_fallback_refuted.
Example C136_instance : let a := {| has_reikna := true; ocl_works := false; cuda_works := false; has_pyfftw := false; has_scipy := true |} in
  documented_mode "gpu" /\ fft_mode a "gpu" = Some LScipy.
Proof. split; [right; right; reflexivity | reflexivity]. Qed.

(** ** C137: smaller arrays are zero padded *)
Theorem C137_padding_partial : forall l P Q a b x,
  (0 < a <= P)%Z -> (0 < b <= Q)%Z -> l = LScipy \/ (a = P /\ b = Q) ->
  exists y, load_2d l P Q a b x = Some y /\
  forall i j, inside P Q i j -> y i j = if ((i <? a) && (j <? b))%Z%bool then x i j else RtoC 0.
Proof.
  intros l P Q a b x Ha Hb [ -> |[ -> -> ]]; cbn.
  - eexists. split; [reflexivity|]. reflexivity.
  - destruct l; cbn; rewrite ?Z.eqb_refl; cbn; (eexists; split; [reflexivity|]); intros i j [Hi Hj]; try reflexivity;
      (replace (i <? P)%Z with true by (symmetry; apply Z.ltb_lt; lia); replace (j <? Q)%Z with true by (symmetry; apply Z.ltb_lt; lia); cbn [andb];
       destruct (Z.eqb_spec P 1), (Z.eqb_spec Q 1); subst; f_equal; lia).
Qed.
(** pyfftw: an array smaller along an axis is refused, unless that axis has one element, which is then repeated
    all along the axis instead of being padded with zeros. *)
Theorem C137_padding_refuted :
  (forall P Q a b x, (1 < a < P)%Z -> load_2d LPyfftw P Q a b x = None) /\
  (forall P Q x, (0 < P)%Z -> (0 < Q)%Z -> exists y, load_2d LPyfftw P Q 1 Q x = Some y /\ forall i j, inside P Q i j -> y i j = x 0%Z j).
Proof.
  split.
  - intros P Q a b x H. cbn. replace (a =? P)%Z with false by (symmetry; apply Z.eqb_neq; lia). replace (a =? 1)%Z with false by (symmetry; apply Z.eqb_neq; lia). reflexivity.
  - intros P Q x HP HQ. cbn. rewrite Z.eqb_refl, orb_true_r. cbn. eexists. split; [reflexivity|]. intros i j [Hi Hj]. cbv beta.
    destruct (Z.eqb_spec Q 1); [subst; f_equal; lia | reflexivity].
Qed.
Print Assumptions C137_padding_partial.
Print Assumptions C137_padding_refuted.
Example C137_instance : exists y, load_2d LScipy 8 8 3 5 (fun i j => RtoC (IZR (i + j))) = Some y /\ y 2%Z 4%Z = RtoC 6 /\ y 3%Z 0%Z = RtoC 0.
Proof. eexists. split; [reflexivity|]. split; reflexivity. Qed.

(** ** C138: convolve *)
(** Even sizes: the circular convolution about the middle element, divided by the number of pixels. *)
Theorem C138_convolve_partial : forall P Q a b, (0 < P)%Z -> (0 < Q)%Z -> Z.even P = true -> Z.even Q = true ->
  exists r, convolve P Q P Q a b = Some r /\
  (forall i j, inside P Q i j -> r i j = conv_about P Q (P / 2) (Q / 2) a b i j / (IZR P * IZR Q)) /\
  total P Q r = total P Q a * total P Q b / (IZR P * IZR Q).
Proof.
  intros P Q a b HP HQ EP EQ. destruct (convolve_even P Q a b HP HQ EP EQ) as (r & E & H). exists r. split; [exact E|]. split; [auto|].
  rewrite <- (conv_about_total P Q (P / 2) (Q / 2) a b HP HQ). unfold total, Rdiv. rewrite Rmult_comm, <- rsum_scale. apply rsum_ext. intros i _.
  rewrite <- rsum_scale. apply rsum_ext. intros j _. rewrite H. unfold Rdiv. ring.
Qed.
(** The order of the images does not matter, and images of different shapes are refused. *)
Theorem C138_symmetric : forall P Q a b, (0 < P)%Z -> (0 < Q)%Z ->
  exists r s, convolve P Q P Q a b = Some r /\ convolve P Q P Q b a = Some s /\ forall i j, r i j = s i j.
Proof.
  intros P Q a b HP HQ. destruct (convolve_gen P Q a b HP HQ) as (r & E & H). destruct (convolve_gen P Q b a HP HQ) as (s & E' & H').
  exists r, s. repeat split; auto. intros i j. rewrite H, H', conv_about_comm by auto. reflexivity.
Qed.
Theorem C138_shapes : forall P Q P' Q' a b, convolve P Q P' Q' a b = None <-> (P, Q) <> (P', Q').
Proof.
  intros. unfold convolve. destruct (Z.eqb_spec P P'), (Z.eqb_spec Q Q'); cbn; split; intros H; try discriminate; try reflexivity; try (intros X; inversion X; contradiction).
  subst. contradiction (H eq_refl).
Qed.
(** Convolving with a star of unit light at the middle element should give the image back.  It is divided by the
    number of pixels, and for odd sizes it is also moved by one element along that axis. *)
Theorem C138_unit_refuted : forall P Q a, (0 < P)%Z -> (0 < Q)%Z ->
  exists r, convolve P Q P Q a (star (P / 2) (Q / 2)) = Some r /\
  forall i j, inside P Q i j -> r i j = a ((i + P mod 2) mod P)%Z ((j + Q mod 2) mod Q)%Z / (IZR P * IZR Q).
Proof.
  intros P Q a HP HQ. destruct (convolve_gen P Q a (star (P / 2) (Q / 2)) HP HQ) as (r & E & H). exists r. split; [exact E|]. intros i j [Hi Hj]. rewrite H. f_equal.
  rewrite conv_about_star; auto; try (split; [apply Z.div_pos; lia | apply Z.div_lt_upper_bound; lia]).
  f_equal.
  - pose proof (Z.div_mod P 2 ltac:(lia)). replace (i + - (P / 2) - P / 2)%Z with (i + P mod 2 + (-1) * P)%Z by lia. apply Z.mod_add. lia.
  - pose proof (Z.div_mod Q 2 ltac:(lia)). replace (j + - (Q / 2) - Q / 2)%Z with (j + Q mod 2 + (-1) * Q)%Z by lia. apply Z.mod_add. lia.
Qed.
Print Assumptions C138_convolve_partial.
Print Assumptions C138_symmetric.
Print Assumptions C138_shapes.
Print Assumptions C138_unit_refuted.
Example C138_instance : exists r, convolve 4 6 4 6 (fun i j => IZR (i + j)) (star 2 3) = Some r /\ r 1%Z 2%Z = 3 / 24.
Proof.
  destruct (C138_unit_refuted 4 6 (fun i j => IZR (i + j)) ltac:(lia) ltac:(lia)) as (r & E & H). exists r. split; [exact E|].
  rewrite (H 1%Z 2%Z) by (split; lia). cbn. lra.
Qed.

(** ** C139: Convolve *)
(** Sizes the shift handles (even, or 3 modulo 4): the real image convolve gives, turned half a turn. *)
Theorem C139_object_partial : forall P Q a b, (0 < P)%Z -> (0 < Q)%Z -> shiftable P -> shiftable Q ->
  exists r s, convolve_object P Q P Q a b = Some r /\ convolve P Q P Q a b = Some s /\
  forall i j, inside P Q i j -> r i j = RtoC (s (P - 1 - i)%Z (Q - 1 - j)%Z).
Proof.
  intros P Q a b HP HQ SP SQ. destruct (object_gen P Q a b HP HQ SP SQ) as (r & E & H). destruct (convolve_gen P Q a b HP HQ) as (s & E' & H').
  exists r, s. repeat split; auto. intros i j I. rewrite H by exact I. rewrite H'. reflexivity.
Qed.
Theorem C139_shapes : forall P Q P' Q' a b, convolve_object P Q P' Q' a b = None <-> (P, Q) <> (P', Q').
Proof.
  intros. unfold convolve_object. destruct (Z.eqb_spec P P'), (Z.eqb_spec Q Q'); cbn; split; intros H; try discriminate; try reflexivity; try (intros X; inversion X; contradiction).
  subst. contradiction (H eq_refl).
Qed.
(** The image formed of an object that is a star in the middle is upside down. *)
Theorem C139_unit_refuted : forall P Q a, (0 < P)%Z -> (0 < Q)%Z -> Z.even P = true -> Z.even Q = true ->
  exists r, convolve_object P Q P Q a (star (P / 2) (Q / 2)) = Some r /\
  forall i j, inside P Q i j -> r i j = RtoC (a (P - 1 - i)%Z (Q - 1 - j)%Z / (IZR P * IZR Q)).
Proof.
  intros P Q a HP HQ EP EQ. destruct (object_gen P Q a (star (P / 2) (Q / 2)) HP HQ (or_introl EP) (or_introl EQ)) as (r & E & H). exists r. split; [exact E|].
  intros i j I. rewrite H by exact I. destruct I as [Hi Hj]. do 2 f_equal.
  rewrite conv_about_star; auto; try (split; [apply Z.div_pos; lia | apply Z.div_lt_upper_bound; lia]).
  apply Z.even_spec in EP, EQ. destruct EP as (p & ->), EQ as (q & ->). rewrite (Z.mul_comm 2 p), (Z.mul_comm 2 q), !Z.div_mul by lia. f_equal.
  - replace (p * 2 - 1 - i + - p - p)%Z with (p * 2 - 1 - i + (-1) * (p * 2))%Z by lia. rewrite Z.mod_add by lia. apply Z.mod_small. lia.
  - replace (q * 2 - 1 - j + - q - q)%Z with (q * 2 - 1 - j + (-1) * (q * 2))%Z by lia. rewrite Z.mod_add by lia. apply Z.mod_small. lia.
Qed.
Print Assumptions C139_object_partial.
Print Assumptions C139_shapes.
Print Assumptions C139_unit_refuted.
Example C139_instance : exists r, convolve_object 4 6 4 6 (fun i j => IZR (i + 2 * j)) (star 2 3) = Some r /\ r 1%Z 2%Z = RtoC (8 / 24).
Proof.
  destruct (C139_unit_refuted 4 6 (fun i j => IZR (i + 2 * j)) ltac:(lia) ltac:(lia) eq_refl eq_refl) as (r & E & H). exists r. split; [exact E|].
  rewrite (H 1%Z 2%Z) by (split; lia). cbn. f_equal. lra.
Qed.

(** ** C140: correlation images of the extended-source sensor *)
(** A single sub-aperture and a reference image symmetric about its middle element: the correlation, brightest at
    the displacement of the image. *)
Theorem C140_correlation_partial : forall P s r, (0 < P)%Z -> Z.even P = true -> half_turn_symmetric P P (r 0%Z) ->
  (forall i j, corr_imgs 1 P s r 0 i j = corr_about P P (P / 2) (P / 2) (s 0%Z) (r 0%Z) i j) /\
  forall x y i j, s 0%Z = displaced P P x y (r 0%Z) -> corr_imgs 1 P s r 0 i j <= corr_imgs 1 P s r 0 (P / 2 + x) (P / 2 + y).
Proof.
  intros P s r HP EP HS. assert (A : forall i j, corr_imgs 1 P s r 0 i j = corr_about P P (P / 2) (P / 2) (s 0%Z) (r 0%Z) i j).
  { intros i j. rewrite corr_gen by exact HP. change (fftshift_ix 1 0) with 0%Z. apply corr_sym; auto. }
  split; [exact A|]. intros x y i j E. rewrite !A, E. apply corr_peak; auto.
Qed.
(** With more sub-apertures, image k is that of sub-aperture k - n//2: for n >= 2 not sub-aperture k's. *)
Theorem C140_order_refuted : forall n P s r k, (1 < n)%Z -> (0 < P)%Z -> (0 <= k < n)%Z ->
  exists k', (0 <= k' < n)%Z /\ k' <> k /\ forall s' r', s' k' = s k' -> r' k' = r k' -> forall i j, corr_imgs n P s' r' k i j = corr_imgs n P s r k i j.
Proof.
  intros n P s r k Hn HP Hk. exists (fftshift_ix n k). assert (B : (0 <= fftshift_ix n k < n)%Z) by (apply Z.mod_pos_bound; lia). split; [exact B|]. split.
  - unfold fftshift_ix in *. assert (H : (0 < n / 2 < n)%Z) by (split; [apply Z.div_str_pos; lia | apply Z.div_lt; lia]). intros E.
    pose proof (Z.div_mod (k - n / 2) n ltac:(lia)) as D. rewrite E in D. set (q := ((k - n / 2) / n)%Z) in *. set (h := (n / 2)%Z) in *. assert (n * q = - h)%Z by lia. destruct (Z_lt_le_dec q 0); [assert (n * q <= n * (-1))%Z by (apply Z.mul_le_mono_nonneg_l; lia); lia | assert (0 <= n * q)%Z by (apply Z.mul_nonneg_nonneg; lia); lia].
  - intros s' r' Es Er i j. rewrite !corr_gen by exact HP. rewrite Es, Er. reflexivity.
Qed.
(** With a reference that is not symmetric, an image equal to its reference does not peak in the middle: it is a
    convolution, not a correlation. *)
Theorem C140_convolution_refuted : exists P s, (0 < P)%Z /\ Z.even P = true /\
  exists i j, inside P P i j /\ corr_imgs 1 P s s 0 (P / 2) (P / 2) < corr_imgs 1 P s s 0 i j.
Proof.
  exists 4%Z, (fun _ => star 1 2). split; [lia|]. split; [reflexivity|]. exists 0%Z, 2%Z. split; [split; lia|].
  rewrite !corr_gen by lia. rewrite !conv_about_star by lia. change ((4 / 2 + - (4 / 2) - 1) mod 4)%Z with 3%Z. change ((0 + - (4 / 2) - 1) mod 4)%Z with 1%Z.
  change ((4 / 2 + - (4 / 2) - 2) mod 4)%Z with 2%Z. change ((2 + - (4 / 2) - 2) mod 4)%Z with 2%Z. unfold star. cbn. lra.
Qed.
Print Assumptions C140_correlation_partial.
Print Assumptions C140_order_refuted.
Print Assumptions C140_convolution_refuted.
Example C140_instance : half_turn_symmetric 4 4 (star 2 2).
Proof.
  intros i j [Hi Hj]. assert (I : (i = 0 \/ i = 1 \/ i = 2 \/ i = 3)%Z) by lia. assert (J : (j = 0 \/ j = 1 \/ j = 2 \/ j = 3)%Z) by lia.
  destruct I as [ -> |[ -> |[ -> | -> ]]], J as [ -> |[ -> |[ -> | -> ]]]; reflexivity.
Qed.

(** ** C141: the reference image assigned *)
Theorem C141_reference_partial : forall n p d co,
  (forall x k i j, set_reference n p d co (Stack n p p x) k i j = x k i j) /\
  (forall x k i j, set_reference n p d co (Image p p x) k i j = x i j) /\
  (d <> p -> forall x k i j, set_reference n p d co (Image d d x) k i j = x (fst (co k) + i)%Z (snd (co k) + j)%Z).
Proof.
  intros n p d co. split; [|split]; intros; unfold set_reference.
  - rewrite !Z.eqb_refl. reflexivity.
  - rewrite !Z.eqb_refl. reflexivity.
  - rewrite !Z.eqb_refl. replace (d =? p)%Z with false by (symmetry; apply Z.eqb_neq; assumption). reflexivity.
Qed.
(** Any other shape is accepted, the references become zero, and so does every correlation image. *)
Theorem C141_reference_refuted : forall n p d co p' q' x s k i j, (0 < p)%Z -> (p', q') <> (p, p) -> (p', q') <> (d, d) ->
  corr_imgs n p s (set_reference n p d co (Image p' q' x)) k i j = 0.
Proof.
  intros n p d co p' q' x s k i j Hp N1 N2. rewrite corr_gen by exact Hp. unfold conv_about.
  transitivity (rsum p (fun _ => rsum p (fun _ => 0))).
  - apply rsum_ext. intros u _. apply rsum_ext. intros v _. unfold set_reference.
    destruct (Z.eqb_spec p' p), (Z.eqb_spec q' p), (Z.eqb_spec p' d), (Z.eqb_spec q' d); subst; cbn; try ring; try contradiction (N1 eq_refl); contradiction (N2 eq_refl).
  - unfold rsum. rewrite rsumn_zero. apply rsumn_zero.
Qed.
Print Assumptions C141_reference_partial.
Print Assumptions C141_reference_refuted.
Example C141_instance : set_reference 5 8 24 (fun k => (8 * k, 0)%Z) (Image 24 24 (fun i j => IZR (i + j))) 2 1 3 = 20.
Proof. unfold set_reference. cbn. lra. Qed.

(** IEEE-754 binary64, the floats of Python, with rounding to nearest-even (Flocq).  The operations compute; [B2R] is the real
    number a float stands for. *)
From Coq Require Import ZArith Reals Lia Lra.
From Flocq Require Import Core Relative BinarySingleNaN.
Open Scope R_scope.

Definition b64 := binary_float 53 1024.
Lemma prec64 : Prec_gt_0 53. Proof. reflexivity. Qed.
Lemma emax64 : Prec_lt_emax 53 1024. Proof. reflexivity. Qed.
Definition mul64 : b64 -> b64 -> b64 := @Bmult 53 1024 prec64 emax64 mode_NE.
Definition div64 : b64 -> b64 -> b64 := @Bdiv 53 1024 prec64 emax64 mode_NE.
Definition add64 : b64 -> b64 -> b64 := @Bplus 53 1024 prec64 emax64 mode_NE.
Definition sub64 : b64 -> b64 -> b64 := @Bminus 53 1024 prec64 emax64 mode_NE.
(** the float nearest to m * 2^e *)
Definition lit64 (m e : Z) : b64 := @binary_normalize 53 1024 prec64 emax64 mode_NE m e false.
(** float(k) *)
Definition ofZ64 (k : Z) : b64 := lit64 k 0.
(** int(x): None for infinities and NaN (OverflowError, ValueError) *)
Definition int64 (x : b64) : option Z := if is_finite x then Some (Btrunc x) else None.
(** x >= y, x < y *)
Definition ge64 (x y : b64) : bool := match Bcompare x y with Some Gt | Some Eq => true | _ => false end.
Definition lt64 (x y : b64) : bool := match Bcompare x y with Some Lt => true | _ => false end.

(** Rounding of a real number to binary64 without overflow. *)
Definition rnd64 : R -> R := round radix2 (SpecFloat.fexp 53 1024) ZnearestE.
Definition rep64 : R -> Prop := generic_format radix2 (SpecFloat.fexp 53 1024).

Lemma fexp_FLT : SpecFloat.fexp 53 1024 = FLT_exp (-1074) 53.
Proof. reflexivity. Qed.
Global Instance valid64 : Valid_exp (SpecFloat.fexp 53 1024).
Proof. rewrite fexp_FLT. apply FLT_exp_valid. reflexivity. Qed.
Lemma rnd_le x y : x <= y -> rnd64 x <= rnd64 y.
Proof. apply round_le; [apply valid64|apply valid_rnd_N]. Qed.
Lemma rnd_rep x : rep64 x -> rnd64 x = x.
Proof. apply round_generic. apply valid_rnd_N. Qed.
Lemma rnd_is_rep x : rep64 (rnd64 x).
Proof. apply generic_format_round; [apply valid64|apply valid_rnd_N]. Qed.
(** Numbers m * 2^e with a mantissa of 53 bits and an exponent not too small are floats. *)
Lemma rep_F2R m e : (Z.abs m <= 2 ^ 53)%Z -> (-1074 <= e)%Z -> rep64 (IZR m * bpow radix2 e).
Proof.
  intros H1 H2. destruct (Z.eq_dec (Z.abs m) (2 ^ 53)) as [E|N].
  - assert (M : m = (2 ^ 53)%Z \/ m = (- 2 ^ 53)%Z) by lia.
    assert (X : rep64 (bpow radix2 (53 + e))). { apply generic_format_bpow. rewrite fexp_FLT. unfold FLT_exp. lia. }
    rewrite bpow_plus in X. change (bpow radix2 53) with (IZR (2 ^ 53)) in X.
    destruct M as [-> | ->]; [exact X|]. rewrite opp_IZR, Ropp_mult_distr_l_reverse. apply generic_format_opp. exact X.
  - unfold rep64. rewrite fexp_FLT. apply generic_format_FLT. apply (FLT_spec radix2 (-1074) 53 _ (Float radix2 m e)); cbn; try lia. reflexivity.
Qed.
Lemma rep_Z m : (Z.abs m <= 2 ^ 53)%Z -> rep64 (IZR m).
Proof. intro H. replace (IZR m) with (IZR m * bpow radix2 0) by (cbn; lra). apply rep_F2R; auto; lia. Qed.
Lemma rep_half m : (Z.abs m <= 2 ^ 53)%Z -> rep64 (IZR m / 2).
Proof. intro H. replace (IZR m / 2) with (IZR m * bpow radix2 (-1)) by (cbn; lra). apply rep_F2R; auto; lia. Qed.
(** Relative error of rounding, away from the smallest numbers. *)
Lemma rnd_error x : bpow radix2 (-1022) <= Rabs x -> Rabs (rnd64 x - x) <= bpow radix2 (-53) * Rabs x.
Proof.
  intro H. unfold rnd64. rewrite fexp_FLT. pose proof (relative_error_N_FLT radix2 (-1074) 53 eq_refl (fun x => negb (Z.even x)) x H) as E.
  rewrite bpow_plus in E. change (bpow radix2 1) with 2 in E. change (- (53))%Z with (-53)%Z in E. eapply Rle_trans; [exact E|]. apply Req_le. field.
Qed.
Lemma small_ok x : Rabs x <= bpow radix2 1000 -> Rlt_bool (Rabs (rnd64 x)) (bpow radix2 1024) = true.
Proof.
  intro H. apply Rlt_bool_true. apply Rle_lt_trans with (bpow radix2 1000); [|apply bpow_lt; lia].
  apply abs_round_le_generic; auto; [apply valid64|apply valid_rnd_N|]. apply generic_format_bpow. rewrite fexp_FLT. unfold FLT_exp. lia.
Qed.
Lemma mul_correct x y : is_finite x = true -> is_finite y = true -> Rabs (B2R x * B2R y) <= bpow radix2 1000 ->
  is_finite (mul64 x y) = true /\ B2R (mul64 x y) = rnd64 (B2R x * B2R y).
Proof.
  intros Fx Fy H. pose proof (@Bmult_correct 53 1024 prec64 emax64 mode_NE x y) as C.
  change (round_mode mode_NE) with ZnearestE in C. fold (rnd64 (B2R x * B2R y)) in C. rewrite (small_ok _ H) in C.
  destruct C as (C1 & C2 & _). rewrite Fx, Fy in C2. auto.
Qed.
Lemma div_correct x y : is_finite x = true -> B2R y <> 0 -> Rabs (B2R x / B2R y) <= bpow radix2 1000 ->
  is_finite (div64 x y) = true /\ B2R (div64 x y) = rnd64 (B2R x / B2R y).
Proof.
  intros Fx Ny H. pose proof (@Bdiv_correct 53 1024 prec64 emax64 mode_NE x y Ny) as C.
  change (round_mode mode_NE) with ZnearestE in C. fold (rnd64 (B2R x / B2R y)) in C. rewrite (small_ok _ H) in C.
  destruct C as (C1 & C2 & _). rewrite Fx in C2. auto.
Qed.
Lemma add_correct x y : is_finite x = true -> is_finite y = true -> Rabs (B2R x + B2R y) <= bpow radix2 1000 ->
  is_finite (add64 x y) = true /\ B2R (add64 x y) = rnd64 (B2R x + B2R y).
Proof.
  intros Fx Fy H. pose proof (@Bplus_correct 53 1024 prec64 emax64 mode_NE x y Fx Fy) as C.
  change (round_mode mode_NE) with ZnearestE in C. fold (rnd64 (B2R x + B2R y)) in C. rewrite (small_ok _ H) in C.
  destruct C as (C1 & C2 & _). auto.
Qed.
Lemma sub_correct x y : is_finite x = true -> is_finite y = true -> Rabs (B2R x - B2R y) <= bpow radix2 1000 ->
  is_finite (sub64 x y) = true /\ B2R (sub64 x y) = rnd64 (B2R x - B2R y).
Proof.
  intros Fx Fy H. pose proof (@Bminus_correct 53 1024 prec64 emax64 mode_NE x y Fx Fy) as C.
  change (round_mode mode_NE) with ZnearestE in C. fold (rnd64 (B2R x - B2R y)) in C. rewrite (small_ok _ H) in C.
  destruct C as (C1 & C2 & _). auto.
Qed.
Lemma lit_correct m e : Rabs (IZR m * bpow radix2 e) <= bpow radix2 1000 ->
  is_finite (lit64 m e) = true /\ B2R (lit64 m e) = rnd64 (IZR m * bpow radix2 e).
Proof.
  intro H. pose proof (@binary_normalize_correct 53 1024 prec64 emax64 mode_NE m e false) as C.
  change (round_mode mode_NE) with ZnearestE in C. cbn zeta in C. unfold F2R in C. cbn [Fnum Fexp] in C. fold (rnd64 (IZR m * bpow radix2 e)) in C.
  rewrite (small_ok _ H) in C. destruct C as (C1 & C2 & _). auto.
Qed.
Lemma ofZ_correct k : (Z.abs k <= 2 ^ 53)%Z -> is_finite (ofZ64 k) = true /\ B2R (ofZ64 k) = IZR k.
Proof.
  intro H. assert (X : IZR k * bpow radix2 0 = IZR k) by (cbn; lra).
  destruct (lit_correct k 0) as [F E].
  - rewrite X. rewrite <- abs_IZR. apply Rle_trans with (IZR (2 ^ 53)); [apply IZR_le; auto|].
    change (IZR (2 ^ 53)) with (bpow radix2 53). apply bpow_le. lia.
  - rewrite X in E. rewrite rnd_rep in E by (apply rep_Z; auto). auto.
Qed.
(** int() of a finite float that is not negative *)
Lemma int_correct x : is_finite x = true -> 0 <= B2R x -> exists n, int64 x = Some n /\ IZR n <= B2R x < IZR n + 1 /\ (0 <= n)%Z.
Proof.
  intros F P. unfold int64. rewrite F. exists (Btrunc x). split; auto. pose proof (Btrunc_correct 53 1024 emax64 x) as T.
  assert (Z : round radix2 (FIX_exp 0) Ztrunc (B2R x) = IZR (Zfloor (B2R x))).
  { unfold round, F2R, scaled_mantissa, cexp, FIX_exp. cbn [Fnum Fexp]. change (bpow radix2 (- 0)) with 1. change (bpow radix2 0) with 1.
    rewrite !Rmult_1_r. rewrite Ztrunc_floor; auto. }
  rewrite Z in T. apply eq_IZR in T. rewrite T. pose proof (Zfloor_lb (B2R x)). pose proof (Zfloor_ub (B2R x)).
  repeat split; auto. apply Zfloor_lub. exact P.
Qed.
Lemma ge_correct x y : is_finite x = true -> is_finite y = true -> ge64 x y = true <-> B2R y <= B2R x.
Proof.
  intros Fx Fy. unfold ge64. rewrite Bcompare_correct by auto. destruct (Rcompare_spec (B2R x) (B2R y)); split; intros; try discriminate; auto; lra.
Qed.
Lemma lt_correct x y : is_finite x = true -> is_finite y = true -> lt64 x y = true <-> B2R x < B2R y.
Proof.
  intros Fx Fy. unfold lt64. rewrite Bcompare_correct by auto. destruct (Rcompare_spec (B2R x) (B2R y)); split; intros; try discriminate; auto; lra.
Qed.

(** Numbers that may be missing: what the Shack-Hartmann sensors and the reconstructor do with NaN.
    A float is a number or NaN; infinities and rounding are left out. *)
From Verif.Base Require Import Vec.
From Verif.Model Require Import Recon Sh.

Inductive fl := Num (q : Qc) | NaN.
Definition fvec := list fl.
(** IEEE arithmetic: NaN if an operand is; in particular 0 * NaN. *)
Definition fl2 (f : Qc -> Qc -> Qc) (a b : fl) : fl := match a, b with Num x, Num y => Num (f x y) | _, _ => NaN end.
Definition fadd := fl2 Qcplus.
Definition fsub := fl2 Qcminus.
Definition fmul := fl2 Qcmult.
(** a / b with b = 0: NaN (infinite when a is not 0, which is left out) *)
Definition fdiv (a b : fl) : fl :=
  match a, b with Num x, Num y => if qc_eqb y 0 then NaN else Num (x / y) | _, _ => NaN end.
(** numpy.isnan, numpy.nan_to_num *)
Definition isnan (a : fl) : bool := match a with NaN => true | Num _ => false end.
Definition nan_to_num (a : fl) : fl := match a with NaN => Num 0 | Num q => Num q end.
Definition fzip (f : fl -> fl -> fl) (a b : fvec) : fvec := map (fun p => f (fst p) (snd p)) (combine a b).
Definition fsum (v : fvec) : fl := fold_right fadd (Num 0) v.
Definition fmean (v : fvec) : fl := fdiv (fsum v) (Num (qz (Z.of_nat (length v)))).

(** numpy.any(staticData): NaN counts as true; None is falsy *)
Definition any_true (l : fvec) : bool := existsb (fun v => match v with NaN => true | Num q => negb (qc_eqb q 0) end) l.
Definition fsub_mean (l : fvec) : fvec := map (fun v => fsub v (fmean l)) l.

(** soapy/wfs/shackhartmann_legacy.py:453-463 (and shackhartmann.py:441-451): from the centroids, flattened, to the slopes;
    without angleEquivNoise.  [n]: the sub-apertures. *)
Definition slopes_from (p : Z) (static : option fvec) (n : nat) (removeTT : bool) (cents : fvec) : fvec :=
  let s := map (fun v => fsub v (Num (qz p / qz 2)%Qc)) cents in
  let s := match static with Some st => if any_true st then fzip fsub s st else s | None => s end in
  if removeTT then fsub_mean (firstn n s) ++ fsub_mean (skipn n s) else s.

(** soapy/wfs/wfs.py:457-461 (and 509-513): numpy.nan_to_num returns a copy, which is dropped *)
Definition check_slopes (s : fvec) : fvec :=
  if existsb isnan s then let _ := map nan_to_num s in s else s.

(** The measurements a read frame returns, from the centroids of its sub-apertures.
    soapy/wfs/shackhartmann.py:438-460 calculateSlopes: NaN are replaced before the shift to the centre *)
Definition sh_measure (p : Z) (static : option fvec) (n : nat) (removeTT : bool) (cents : fvec) : fvec :=
  check_slopes (slopes_from p static n removeTT (map nan_to_num cents)).
(** soapy/wfs/shackhartmann_legacy.py:446-472: they are not *)
Definition legacy_measure (p : Z) (static : option fvec) (n : nat) (removeTT : bool) (cents : fvec) : fvec :=
  check_slopes (slopes_from p static n removeTT cents).

(** ** The reconstructor, as in Model/Recon.v *)
(** soapy/reconstruction.py:409-428 *)
Fixpoint fapply_gain (n1 : nat) (ds : list dm) (a new : fvec) : result fvec :=
  match ds with
  | [] => Ok a
  | d :: r =>
      match n_valid d with
      | None => Err AttributeError
      | Some nv =>
          let sa := firstn nv (skipn n1 a) in
          let sn := firstn nv (skipn n1 new) in
          let* b := (if (length sn =? length sa)%nat then Ok sn
                     else match sn with [x] => Ok (repeat x (length sa)) | _ => Err ValueError end) in
          let g := gain d in
          let sa' := if closed d then fzip fadd sa (map (fmul (Num g)) b)
                     else fzip fadd (map (fmul (Num g)) b) (map (fmul (Num (1 - g)%Qc)) sa) in
          fapply_gain (n1 + nv) r (splice a n1 sa') new
      end
  end.
(** numpy.dot of a row of the control matrix with the measurements *)
Definition fdot (row : vec) (m : fvec) : fl := fsum (map (fun p => fmul (Num (fst p)) (snd p)) (combine row m)).
(** soapy/reconstruction.py:431-442 *)
Definition freconstruct (ds : list dm) (nmeas total : nat) (ctrl : mat) (s : option fvec) (m : fvec) : result fvec :=
  let a := match s with None => repeat (Num 0) total | Some a => a end in
  if (length m =? nmeas)%nat then fapply_gain 0 ds a (map (fun row => fdot row m) ctrl) else Err ValueError.
(** soapy/reconstruction.py:444-446 *)
Definition freset (s : option fvec) : option fvec := option_map (fun a => repeat (Num 0) (length a)) s.
Inductive frecon_op := FFrame (m : fvec) | FReset.
Fixpoint frecon_run (ds : list dm) (nmeas total : nat) (ctrl : mat) (s : option fvec) (ops : list frecon_op)
  : result (option fvec) :=
  match ops with
  | [] => Ok s
  | FFrame m :: r => let* a := freconstruct ds nmeas total ctrl s m in frecon_run ds nmeas total ctrl (Some a) r
  | FReset :: r => frecon_run ds nmeas total ctrl (freset s) r
  end.

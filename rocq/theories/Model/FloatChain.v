(** From infinite screens through a line of sight in binary64: moveScrns and frame, one after the other. *)
From Coq Require Import ZArith List.
From Flocq Require Import BinarySingleNaN.
From Verif.Base Require Import Float64.
From Verif.Model Require Import Rounding64 FloatInterp FloatFlow FloatLos FloatFootprint.
Import ListNotations.
Local Open Scope Z_scope.

(** soapy/atmosphere.py:528-552  the wind directions: those (in degrees) handled without interpolation, and others, with the cosine and sine of theirs (numpy.cos and numpy.sin) *)
Inductive heading := H0 | H90 | H180 | H270 | Oblique (c s : b64).
(** soapy/atmosphere.py:479  int(numpy.ceil(2 * 2**0.5 * nx_size)) *)
Definition grid64 (nx : Z) : option Z := int64 (@Bnearbyint 53 1024 emax64 mode_UP (mul64 (mul64 (ofZ64 2) (lit64 6369051672525773 (-52))) (ofZ64 nx))).
(** soapy/atmosphere.py:476-481  nx_size of a layer *)
Definition nx_size64 (d : heading) (nx : Z) : option Z := match d with Oblique _ _ => grid64 nx | _ => Some nx end.
(** A layer: the rows get_new_row (aotools) returns, n_move_pixels, the first screen, nx_size, the wind direction and the altitude. *)
Record flayer := mkFlayer { ly_row : nat -> frow; ly_v : b64; ly_init : list frow; ly_nx : Z; ly_dir : heading; ly_alt : b64 }.
(** numpy.pi *)
Definition pi64 : b64 := lit64 884279719003555 (-48).
(** soapy/atmosphere.py:308  500/(2*numpy.pi) *)
Definition nm64 : b64 := div64 (ofZ64 500) (mul64 (ofZ64 2) pi64).
(** soapy/atmosphere.py:521-522  output_screen.  An element that could not be interpolated would keep its old value; 0 stands for it. *)
Definition output64 (nx : Z) (t : finf) : farr := mkFarr nx nx (fun i j => match inf_output64 nx t i j with Some r => r | None => ofZ64 0 end).
(** soapy/numbalib/numbalib.py:122-123, 127-128  shape / 2. - 0.5 *)
Definition middle64 (n : Z) : b64 := sub64 (div64 (ofZ64 n) (ofZ64 2)) (lit64 1 (-1)).
(** soapy/numbalib/numbalib.py:122-128  x and y, for an output of m by m and data of n by n *)
Definition rotx64 (n m : Z) (c s : b64) (i j : Z) : b64 :=
  let i1 := sub64 (ofZ64 i) (middle64 m) in let j1 := sub64 (ofZ64 j) (middle64 m) in add64 (sub64 (mul64 i1 c) (mul64 j1 s)) (middle64 n).
Definition roty64 (n m : Z) (c s : b64) (i j : Z) : b64 :=
  let i1 := sub64 (ofZ64 i) (middle64 m) in let j1 := sub64 (ofZ64 j) (middle64 m) in add64 (add64 (mul64 i1 s) (mul64 j1 c)) (middle64 n).
(** soapy/numbalib/numbalib.py:130-136  if x >= data.shape[0] - 1: x = data.shape[0] - 1.1 *)
Definition stop64 (n : Z) (x : b64) : b64 := if ge64 x (ofZ64 (n - 1)) then sub64 (ofZ64 n) (dec64 11 10) else x.
(** soapy/numbalib/numbalib.py:118-145  element (i, j) of rotate *)
Definition rotate64 (a : farr) (m : Z) (c s : b64) (i j : Z) : option b64 :=
  kernel64 a (stop64 (fa_rows a) (rotx64 (fa_rows a) m c s i j)) (stop64 (fa_cols a) (roty64 (fa_cols a) m c s i j)).
(** soapy/atmosphere.py:528-552  element (i, j) of rotate_screen: as it is, rot90, flipud, rot90 with k=3, rotate *)
Definition turned64 (d : heading) (o : farr) (nx i j : Z) : b64 :=
  match d with
  | H0 => fa_at o i j
  | H90 => fa_at o j (nx - 1 - i)
  | H180 => fa_at o (nx - 1 - i) j
  | H270 => fa_at o (nx - 1 - j) i
  | Oblique c s => match rotate64 o nx c s i j with Some r => r | None => ofZ64 0 end
  end.
(** soapy/atmosphere.py:302-309, 503-526  scrns[layer_n] after the n-th call of moveScrns (nx_output_size = scrn_size = nx).  None: move_screen raises *)
Definition moved64 (nx : Z) (l : flayer) (n : nat) : option farr :=
  match inf_run64 (ly_row l) (ly_v l) (length (ly_init l)) (ly_init l) n with
  | Some t => let o := output64 (ly_nx l) t in Some (mkFarr nx nx (fun i j => mul64 (turned64 (ly_dir l) o nx i j) nm64))
  | None => None
  end.
(** soapy/atmosphere.py:302-309  all layers, each with its altitude *)
Fixpoint screens64 (nx : Z) (ls : list flayer) (n : nat) : option (list (farr * b64)) :=
  match ls with
  | [] => Some []
  | l :: r => match moved64 nx l n, screens64 nx r n with Some a, Some s => Some ((a, ly_alt l) :: s) | _, _ => None end
  end.
(** soapy/simulation.py:538-568  the screens and the corrections of the frames from the n-th on *)
Fixpoint skies64 (nx : Z) (ls : list flayer) (n : nat) (corr : list (list (farr * b64))) : option (list (list (farr * b64) * list (farr * b64))) :=
  match corr with
  | [] => Some []
  | k :: r => match screens64 nx ls n, skies64 nx ls (S n) r with Some s, Some fs => Some ((s, k) :: fs) | _, _ => None end
  end.
(** soapy/simulation.py:538-568, soapy/lineofsight.py:353-398  pixel (p, q) of the residual on every frame of a run with the given corrections, for a line of sight in the direction (posx, posy) *)
Definition chain64 (g : geometry64) (posx posy : b64) (p q : Z) (c : b64) (ls : list flayer) (corr : list (list (farr * b64))) : option (list b64) :=
  match skies64 (g_scrn g) ls 1 corr with
  | Some fs => los_run64 Single c (map (fun f => (cross64 g posx posy p q (fst f), cross64 g posx posy p q (snd f))) fs)
  | None => None
  end.

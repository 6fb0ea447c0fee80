(** Specification of what is seen through frozen flow. *)
From Coq Require Import ZArith List Reals.
From Flocq Require Import Core BinarySingleNaN.
From Verif.Base Require Import Float64.
From Verif.Model Require Import FloatInterp FloatFlow FloatLos FloatFootprint.
From Verif.Spec Require Import FloatLoopSpec FloatInterpSpec FloatFlowSpec FloatLosSpec FloatFootprintSpec.
From Verif.Model Require Import FloatChain.
Import ListNotations.
Local Open Scope R_scope.

(** The turbulence of a layer over pixel (i, j) of its own grid, whose rows the wind blows across, after n moves: the wind has taken it n v pixels. *)
Definition drifted (l : flayer) (n : nat) (i j : Z) : R := straight (turbulence (ly_row l) (ly_init l) (j + 1)) (INR n * B2R (ly_v l) - IZR (i + 2)).
(** Pixel (i, j) of the screen of m pixels, turned about its centre by the angle of cosine c and sine s, on the grid of n pixels about the same centre. *)
Definition turn_x (n m : Z) (c s : R) (i j : Z) : R := (IZR i - IZR (m - 1) / 2) * c - (IZR j - IZR (m - 1) / 2) * s + IZR (n - 1) / 2.
Definition turn_y (n m : Z) (c s : R) (i j : Z) : R := (IZR i - IZR (m - 1) / 2) * s + (IZR j - IZR (m - 1) / 2) * c + IZR (n - 1) / 2.
(** The turbulence over pixel (i, j) of the screen.  Winds along an axis: turbulence enters at row 0, column 0, the last row or the last column; the second index on the layer's own grid is the
    column of turbulence.  Oblique winds: the layer's grid is turned and interpolated. *)
Definition air (nx : Z) (l : flayer) (n : nat) (i j : Z) : R :=
  match ly_dir l with
  | H0 => drifted l n i j
  | H90 => drifted l n j (nx - 1 - i)
  | H180 => drifted l n (nx - 1 - i) j
  | H270 => drifted l n (nx - 1 - j) i
  | Oblique c s => bilinear (drifted l n) (turn_x (ly_nx l) nx (B2R c) (B2R s) i j) (turn_y (ly_nx l) nx (B2R c) (B2R s) i j)
  end.
(** The sum over layers of the turbulence where the line of sight crosses them, in nanometres. *)
Definition sky (g : geometry64) (posx posy : b64) (p q : Z) (ls : list flayer) (n : nat) : R :=
  fold_right Rplus 0 (map (fun l => B2R nm64 * bilinear (air (g_scrn g) l n) (footprint g (B2R posx) (B2R (ly_alt l)) p) (footprint g (B2R posy) (B2R (ly_alt l)) q)) ls).
(** The cosine and sine of an oblique wind are those of an angle, to 2^-45. *)
Definition directed (d : heading) : Prop :=
  match d with Oblique c s => is_finite c = true /\ is_finite s = true /\ B2R c * B2R c + B2R s * B2R s <= 1 + bpow radix2 (-45) | _ => True end.
(** Layers that are calm (phases up to A, neighbouring rows differing by up to D), blown forward, at altitudes within the limits, and crossed at least two pixels from the edges of the screen. *)
Definition blown (g : geometry64) (theta h : R) (posx posy : b64) (p q : Z) (l : flayer) (AD : R * R) : Prop :=
  is_finite (ly_v l) = true /\ 0 <= B2R (ly_v l) <= bpow radix2 52 /\ calm (ly_row l) (ly_init l) (ly_nx l) (fst AD) (snd AD) /\ bpow radix2 (-900) <= fst AD /\ (ly_nx l <= Z.of_nat (length (ly_init l)) <= 2 ^ 20)%Z /\ nx_size64 (ly_dir l) (g_scrn g) = Some (ly_nx l) /\ directed (ly_dir l) /\ within g theta h posx (ly_alt l) /\ within g theta h posy (ly_alt l) /\ 2 <= footprint g (B2R posx) (B2R (ly_alt l)) p <= IZR (g_scrn g - 3) /\ 2 <= footprint g (B2R posy) (B2R (ly_alt l)) q <= IZR (g_scrn g - 3).
(** What rounding may have done to the screens after n moves: a part of the difference of neighbouring rows for every move and pixel, and a part of the largest phase for every pixel. *)
Definition slack (n : nat) (ls : list flayer) (ADs : list (R * R)) : R :=
  total (map (fun lAD => snd (snd lAD) * (INR n + IZR (ly_nx (fst lAD))) + (45 + 100 * IZR (ly_nx (fst lAD))) * fst (snd lAD)) (combine ls ADs)).

(** soapy/atmosphere.py: making, saving and loading whole phase screens, and their strength.  Real numbers;
    a file's float32 data is exact. *)
From Coq Require Import Reals.
From Verif.Base Require Import Py.
From Verif.Model Require AtmosReal.
Open Scope R_scope.
Open Scope Z_scope.

(** A FITS file holding one image: its shape, the header card R0 if there is one, the image. *)
Record sfile := mkFile { sf_rows : Z; sf_cols : Z; sf_R0 : option R; sf_data : Z -> Z -> R }.
(** A phase screen kept by the atmosphere (self.wholeScrns[i]). *)
Record wscreen := mkScr { ws_rows : Z; ws_cols : Z; ws_data : Z -> Z -> R }.

(** soapy/atmosphere.py:198-205  header R0 is in pixels: the screen is brought to r0 = wholeScrnR0 = 1 m (line 151);
    without the card (KeyError, 207-208) it is kept as it is.  [ps] is self.pixel_scale, metres per pixel. *)
Definition rescale (ps : R) (f : sfile) : wscreen :=
  mkScr (sf_rows f) (sf_cols f)
    (match sf_R0 f with
     | Some r0 => let r0_metres := (r0 * ps)%R in fun i j => (sf_data f i j * Rpower (1 / r0_metres) (-5/6))%R
     | None => sf_data f
     end).
(** Whether an axis of n elements can be assigned into one of m: equal, or a single element repeated. *)
Definition fits_axis (n m : Z) : bool := (n =? m) || (n =? 1).
(** soapy/atmosphere.py:187-211  the loop over the screens; [files] are the contents of the files named by scrnNames,
    None where there is no such file.  Line 193 assigns the corner of the image into self.scrns[i], s x s. *)
Fixpoint load_loop (s : Z) (ps : R) (scrnNo : nat) (files : list (option sfile)) : result (list wscreen) :=
  match scrnNo with
  | O => Ok []
  | S n => match files with
           | [] => Err IndexError
           | None :: _ => Err OSError
           | Some f :: r =>
               if fits_axis (Z.min (sf_rows f) s) s && fits_axis (Z.min (sf_cols f) s) s then
                 let* l := load_loop s ps n r in Ok (rescale ps f :: l)
               else Err ValueError
           end
  end.
(** soapy/atmosphere.py:258-262  RectBivariateSpline(arange(W), arange(W), screen), cubic: W at least 4. *)
Definition spline_ok (W : Z) (w : wscreen) : bool := (ws_rows w =? W) && (ws_cols w =? W) && (4 <=? W).
(** soapy/atmosphere.py:183-220 and 258-262: the screens kept and wholeScrnSize.  The bare [Exception] of 220 is
    represented by ConfigurationError.  scrnNo = 0 (NameError at 214) likewise raises. *)
Definition load_screens (s : Z) (ps : R) (scrnNo : nat) (files : list (option sfile)) : result (list wscreen * Z) :=
  let* l := load_loop s ps scrnNo files in
  match rev l with
  | [] => Err NameError
  | w :: _ =>
      let W := ws_rows w in
      if W <? s then Err ConfigurationError
      else if forallb (spline_ok W) l then Ok (l, W) else Err ValueError
  end.

(** ** Saving.  A directory: the file scrn{i}.fits for each i. *)
Definition sdir := Z -> option sfile.
Definition put_file (d : sdir) (i : Z) (f : sfile) : sdir := fun k => if k =? i then Some f else d k.
(** astropy's writeto without overwrite: an existing file is an OSError. *)
Fixpoint write_all (i : Z) (l : list sfile) (d : sdir) : sdir * option exn :=
  match l with
  | [] => (d, None)
  | f :: r => match d i with Some _ => (d, Some OSError) | None => write_all (i + 1) r (put_file d i f) end
  end.
(** soapy/atmosphere.py:268-287  saveScrns; [whole] is self.wholeScrns, which is empty for infinite screens. *)
Definition save_screens (ps : R) (scrnNo : nat) (whole : list wscreen) (d : sdir) : sdir * option exn :=
  let fs := map (fun w => mkFile (ws_rows w) (ws_cols w) (Some (1 / ps)%R) (ws_data w)) (firstn scrnNo whole) in
  let '(d', e) := write_all 0 fs d in
  (d', match e with Some x => Some x | None => if Nat.ltb (length whole) scrnNo then Some KeyError else None end).

Section Make.
  (** aotools ft_phase_screen / ft_sh_phase_screen(r0, N, delta, L0, l0): for one fixed sequence of random numbers
      per screen number. *)
  Variable gen : nat -> R -> Z -> R -> R -> R -> Z -> Z -> R.
  (** soapy/atmosphere.py:416-470  makePhaseScreens with DIR: the files; header R0 = r0/pxlScale *)
  Definition make_screens (n : nat) (r0 : R) (N : Z) (ps L0 l0 : R) (d : sdir) : sdir * option exn :=
    write_all 0 (map (fun k => mkFile N N (Some (r0 / ps)%R) (gen k r0 N ps L0 l0)) (seq 0 n)) d.
  (** soapy/atmosphere.py:164-181  screens made by the atmosphere itself, with r0 = wholeScrnR0 = 1 and l0 = 0.001 *)
  Definition own_screens (n : nat) (W : Z) (ps : R) (L0 : nat -> R) : list wscreen :=
    map (fun k => mkScr W W (gen k 1%R W ps (L0 k) (1/1000)%R)) (seq 0 n).
  (** soapy/atmosphere.py:371-378  a sample of a moved finite screen, given the sample of the whole screen, in nm *)
  Definition moved_value (r0 norm x : R) : R := (x * AtmosReal.layer_scale r0 norm * (500 / (2 * PI)))%R.
  (** soapy/atmosphere.py:380-406 as called from 303 (l0 stays 0.01): an independent screen on every frame, in nm *)
  Definition random_value (k : nat) (s : Z) (ps L0 r0 norm : R) (i j : Z) : R :=
    (gen k (AtmosReal.layer_r0 r0 norm) s ps L0 (1/100) i j * (500 / (2 * PI)))%R.
End Make.

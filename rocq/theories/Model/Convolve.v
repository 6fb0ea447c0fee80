(** soapy/AOFFT.py 325-408 and soapy/wfs/extendedshackhartmann.py 104-140: convolution and correlation.
    Exact arithmetic; every transform is the exact discrete Fourier transform. *)
From Coq Require Import ZArith Reals.
From Coquelicot Require Import Complex.
From Verif.Base Require Import CSum.
From Verif.Model Require Import Numerics.
Open Scope R_scope.

(** The transform of a P x Q array over both axes, and its inverse with the factor 1/(P Q): what
    fftpack.fftn / ifftn, pyfftw (normalise_idft defaults to True) and numpy.fft.fft2 / ifft2 compute. *)
Definition dftr (P Q : Z) (f : Z -> Z -> C) (u v : Z) : C :=
  csum P (fun i => csum Q (fun j => f i j * cis (- (2 * PI * IZR (v * j) / IZR Q))) * cis (- (2 * PI * IZR (u * i) / IZR P)))%C.
Definition idftr (P Q : Z) (f : Z -> Z -> C) (i j : Z) : C :=
  (RtoC (/ (IZR P * IZR Q)) *
   csum P (fun u => csum Q (fun v => f u v * cis (2 * PI * IZR (v * j) / IZR Q)) * cis (2 * PI * IZR (u * i) / IZR P)))%C.
(** numpy.fft.fftshift along an axis of length n: output element i is input element (i - n//2) mod n. *)
Definition fftshift_ix (n i : Z) : Z := ((i - n / 2) mod n)%Z.

(** soapy/AOFFT.py:378-408.  None: ValueError, 395-396.  The images are complex-valued in general; real here. *)
Definition convolve (P Q P' Q' : Z) (img1 img2 : Z -> Z -> R) : option (Z -> Z -> R) :=
  if ((P =? P') && (Q =? Q'))%Z%bool then
    let iimg1 := idftr P Q (fun i j => RtoC (img1 i j)) in
    let iimg2 := idftr P Q (fun i j => RtoC (img2 i j)) in
    let out := dftr P Q (fun i j => iimg1 i j * iimg2 i j)%C in
    Some (fun i j => fst (out (fftshift_ix P i) (fftshift_ix Q j)))
  else None.

(** soapy/AOFFT.py:325-375: a Convolve object for a stack of P x Q images (shape1) and one or a stack of P' x Q' ones
    (shape2, broadcast over the stack), on one image of the stack.  None: ValueError, 336-340. *)
Definition convolve_object (P Q P' Q' : Z) (img1 img2 : Z -> Z -> R) : option (Z -> Z -> C) :=
  if ((P =? P') && (Q =? Q'))%Z%bool then
    let iimg1 := idftr P Q (fun i j => RtoC (img1 i j)) in
    let iimg2 := idftr P Q (fun i j => RtoC (img2 i j)) in
    let out := dftr P Q (fun i j => iimg1 i j * iimg2 i j)%C in
    Some (fun i j => out (quad_ix P i) (quad_ix Q j))
  else None.

(** soapy/wfs/extendedshackhartmann.py:138-140, on n (padded) sub-aperture images of P x P with their reference images:
    fftshift with no axes argument shifts all three axes, the first one too. *)
Definition corr_imgs (n P : Z) (subap ref : Z -> Z -> Z -> R) (k i j : Z) : R :=
  let k' := fftshift_ix n k in
  let F := dftr P P (fun i j => RtoC (subap k' i j)) in
  let G := dftr P P (fun i j => RtoC (ref k' i j)) in
  fst (idftr P P (fun i j => F i j * G i j)%C (fftshift_ix P i) (fftshift_ix P j)).

(** soapy/wfs/extendedshackhartmann.py:197-230: the reference images kept for n sub-apertures of p x p on a d x d
    detector whose sub-apertures start at [co], when an array of the given shape is assigned. *)
Inductive ref_given := Stack (n' p' q' : Z) (x : Z -> Z -> Z -> R) | Image (p' q' : Z) (x : Z -> Z -> R).
Definition set_reference (n p d : Z) (co : Z -> Z * Z) (g : ref_given) (k i j : Z) : R :=
  match g with
  | Stack n' p' q' x => if ((n' =? n) && (p' =? p) && (q' =? p))%Z%bool then x k i j else 0
  | Image p' q' x => if ((p' =? p) && (q' =? p))%Z%bool then x i j
                     else if ((p' =? d) && (q' =? d))%Z%bool then x (fst (co k) + i)%Z (snd (co k) + j)%Z else 0
  end.

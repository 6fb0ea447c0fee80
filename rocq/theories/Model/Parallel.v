(** The numba loops as parallel programs: the iterations of a prange loop run interleaved, one read or write of an array
    element at a time.  (numba gives every thread a run of consecutive iterations; those executions are among these.)
    Values and arithmetic are arbitrary, so that what is proved holds for floats, rounding included. *)
From Coq Require Import List ZArith Bool.
From Verif.Model Require Import Numerics.
Import ListNotations.
Open Scope Z_scope.

(** An element of an array: which array, and three indices (0 for those it does not have). *)
Definition addr := (nat * Z * Z * Z)%type.
Definition addr_eqb (a b : addr) : bool :=
  let '(n, i, j, k) := a in let '(n', i', j', k') := b in Nat.eqb n n' && (i =? i') && (j =? j') && (k =? k').

Section Programs.
  Context {V : Type}.
  Definition memory := addr -> V.
  Definition upd (m : memory) (a : addr) (v : V) : memory := fun b => if addr_eqb a b then v else m b.
  (** What one iteration still has to do. *)
  Inductive prog := Done | Read (a : addr) (k : V -> prog) | Write (a : addr) (v : V) (p : prog).
  (** for i in range(lo, lo + n): body *)
  Fixpoint for_ (n : nat) (lo : Z) (body : Z -> prog -> prog) (k : prog) : prog :=
    match n with O => k | S n' => body lo (for_ n' (lo + 1) body k) end.
  (** One step: one of the iterations does its next access. *)
  Inductive step : memory * list prog -> memory * list prog -> Prop :=
  | step_read m l a k r : step (m, l ++ Read a k :: r) (m, l ++ k (m a) :: r)
  | step_write m l a v p r : step (m, l ++ Write a v p :: r) (upd m a v, l ++ p :: r).
  (** numba.prange(n): the iterations, all started *)
  Definition prange (n : nat) (body : Z -> prog) : list prog := map (fun i => body (Z.of_nat i)) (seq 0 n).
  (** An iteration on its own; and the iterations one after the other, as with range(n) in place of prange(n), which is all
      that bin_img_slow, bin_imgs_slow, chop_subaps_slow and chop_subaps_mask_slow change. *)
  Fixpoint run (p : prog) (m : memory) : memory :=
    match p with Done => m | Read a k => run (k (m a)) m | Write a v p => run p (upd m a v) end.
  Definition in_order (l : list prog) (m : memory) : memory := fold_left (fun m p => run p m) l m.
End Programs.
Arguments prog : clear implicits.
Arguments memory : clear implicits.

Section Kernels.
  Context {V : Type}.
  (** float arithmetic, float of an int, numba.int32, >=, exp(1j * x), 1e-9 *)
  Variables (add sub mul : V -> V -> V) (ofZ : Z -> V) (int32 : V -> Z) (ge : V -> V -> bool) (cis : V -> V) (eps : V).
  (** a[i, j] of a 2-d array of the given shape: negative indices count from the end *)
  Definition el (a : nat) (n0 n1 i j : Z) : addr := (a, nb_index n0 i, nb_index n1 j, 0).
  (** soapy/numbalib/numbalib.py:69-76 (and 108-115, 205-212), wfslib.py:32-39 *)
  Definition interp_body (data : nat) (n0 n1 : Z) (x : V) (x1 : Z) (y : V) (y1 : Z) (k : V -> prog V) : prog V :=
    Read (el data n0 n1 (x1 + 1) y1) (fun d10 => Read (el data n0 n1 x1 y1) (fun d00 => let xGrad1 := sub d10 d00 in
    Read (el data n0 n1 x1 y1) (fun d00' => let a1 := add d00' (mul xGrad1 (sub x (ofZ x1))) in
    Read (el data n0 n1 (x1 + 1) (y1 + 1)) (fun d11 => Read (el data n0 n1 x1 (y1 + 1)) (fun d01 => let xGrad2 := sub d11 d01 in
    Read (el data n0 n1 x1 (y1 + 1)) (fun d01' => let a2 := add d01' (mul xGrad2 (sub x (ofZ x1))) in
    let yGrad := sub a2 a1 in k (add a1 (mul yGrad (sub y (ofZ y1)))))))))).
  (** soapy/numbalib/numbalib.py:59-60, 65-66 *)
  Definition clamp_to (n : Z) (x : V) : V := if ge x (ofZ (n - 1)) then sub (ofZ (n - 1)) eps else x.
  (** soapy/numbalib/numbalib.py:57-76  one iteration of the prange loop of bilinear_interp_numba; data is n0 x n1, yCoords has ny elements *)
  Definition bilinear_iter (data xc yc out : nat) (n0 n1 : Z) (ny : nat) (i : Z) : prog V :=
    Read (xc, i, 0, 0) (fun x => let x := clamp_to n0 x in let x1 := int32 x in
    for_ ny 0 (fun j k => Read (yc, j, 0, 0) (fun y => let y := clamp_to n1 y in let y1 := int32 y in
      interp_body data n0 n1 x x1 y y1 (fun v => Write (out, i, j, 0) v k))) Done).
  (** soapy/numbalib/numbalib.py:198-212  zoom; wfslib.py:25-39 zoomtoefield with [post] = exp(1j * .).  [cx], [cy]: the
      coordinates computed at 199 and 202. *)
  Definition zoom_iter (post : V -> V) (data out : nat) (n0 n1 : Z) (mc : nat) (cx cy : Z -> V) (i : Z) : prog V :=
    let x := cx i in let x1 := int32 x in
    for_ mc 0 (fun j k => let y := cy j in let y1 := int32 y in
      interp_body data n0 n1 x x1 y y1 (fun v => Write (out, i, j, 0) (post v) k)) Done.
  (** soapy/numbalib/wfslib.py:144-151 for image n of a stack; numbalib.py:160-166, of a single image, has no first index and runs over i (157).
      The loops of 148-151. *)
  Definition bin_pixel (dst : addr) (src : Z -> Z -> addr) (b : nat) (k : prog V) : prog V :=
    Write dst (ofZ 0) (for_ b 0 (fun x k => for_ b 0 (fun y k =>
      Read dst (fun s => Read (src x y) (fun v => Write dst (add s v) k))) k) k).
  (** soapy/numbalib/numbalib.py:157-166  one iteration of bin_img *)
  Definition bin_iter (img out : nat) (b : Z) (nc : nat) (i : Z) : prog V :=
    let x1 := i * b in
    for_ nc 0 (fun j k => let y1 := j * b in bin_pixel (out, i, j, 0) (fun x y => (img, x1 + x, y1 + y, 0)) (Z.to_nat b) k) Done.
  (** soapy/numbalib/wfslib.py:142-151  one iteration of bin_imgs *)
  Definition bins_iter (imgs out : nat) (b : Z) (nr nc : nat) (n : Z) : prog V :=
    for_ nr 0 (fun i k => let x1 := i * b in
      for_ nc 0 (fun j k => let y1 := j * b in bin_pixel (out, n, i, j) (fun x y => (imgs, n, x + x1, y + y1)) (Z.to_nat b) k) k) Done.
  (** soapy/numbalib/wfslib.py:47-53 and 70-74  one iteration of chop_subaps_mask and, without a mask, chop_subaps; inside the arrays.  [x], [y]: the
      sub-aperture's coordinates. *)
  Definition chop_iter (phase : nat) (mask : option nat) (out : nat) (s : nat) (cx cy : Z -> Z) (n : Z) : prog V :=
    let x := cx n in let y := cy n in
    for_ s 0 (fun u k => for_ s 0 (fun v k =>
      Read (phase, x + u, y + v, 0) (fun p =>
        match mask with
        | Some mk => Read (mk, x + u, y + v, 0) (fun q => Write (out, n, u, v) (mul p q) k)
        | None => Write (out, n, u, v) p k
        end)) k) Done.
  (** soapy/numbalib/numbalib.py:220-229  one iteration of fftshift_2d_inplace on an n0 x n1 array *)
  Definition shift_iter (a : nat) (n0 n1 : Z) (x : Z) : prog V :=
    let h := n0 / 2 in let w := n1 / 2 in
    for_ (Z.to_nat w) 0 (fun y k =>
      Read (a, x, y, 0) (fun tmp => Read (a, x + h, y + w, 0) (fun v => Write (a, x, y, 0) v (Write (a, x + h, y + w, 0) tmp
      (Read (a, x + h, y, 0) (fun tmp2 => Read (a, x, y + w, 0) (fun v2 => Write (a, x + h, y, 0) v2 (Write (a, x, y + w, 0) tmp2 k)))))))) Done.
End Kernels.

(** soapy/AOFFT.py 27-268: the FFT wrapper object, with the arrays it and its caller share. *)
From Coq Require Import String List Bool ZArith Reals.
From Coquelicot Require Import Complex.
Import ListNotations.
Open Scope string_scope.

(** ** Which library is used.  soapy/AOFFT.py:31-48 (what could be imported) and 94-132 (the fall back). *)
Inductive lib := LGpu | LPyfftw | LScipy.
Record libs := { has_reikna : bool; ocl_works : bool; cuda_works : bool; has_pyfftw : bool; has_scipy : bool }.
(** soapy/AOFFT.py:96-118: the value of self.FFTMODE set by this block, if any, and [mode] after it. *)
Definition gpu_block (a : libs) (mode : string) : option lib * string :=
  if (mode =? "gpu") || (mode =? "gpu_ocl") || (mode =? "gpu_cuda") then
    let mode := if mode =? "gpu" then "gpu_ocl" else mode in
    if has_reikna a then
      let '(f, mode) := if mode =? "gpu_ocl" then (if ocl_works a then (Some LGpu, mode) else (None, "gpu_cuda")) else (None, mode) in
      if mode =? "gpu_cuda" then (if cuda_works a then (Some LGpu, mode) else (f, "pyfftw")) else (f, mode)
    else (None, "pyfftw")
  else (None, mode).
(** soapy/AOFFT.py:94-132.  None: self.FFTMODE was never set, and reading it at 135 raises AttributeError. *)
Definition fft_mode (a : libs) (mode : string) : option lib :=
  let '(f, mode) := gpu_block a mode in
  let '(f, mode) := if mode =? "pyfftw" then (if has_pyfftw a then (Some LPyfftw, mode) else (f, "scipy")) else (f, mode) in
  if mode =? "scipy" then (if has_scipy a then Some LScipy else f) else f.

(** ** The object and the arrays.
    An array is a number, its contents are looked up in [heap].  [D] is the contents of an array of the
    object's inputSize: differently shaped data is the matter of [load_2d] below.
    Simplified: dtype conversion on assignment is exact. *)
Section Object.
Variable D : Type.
(** The forward transform, the inverse transform, and what the FFTW plan leaves in its input (flag
    FFTW_DESTROY_INPUT, which is the default, allows it to leave anything). *)
Variable fwd bwd left : D -> D.

Record fobj := { f_lib : lib; f_forward : bool;
                 f_in : nat;      (* the array the attribute inputData names *)
                 f_plan_in : nat; (* the arrays the plan was made with, 158-172 *)
                 f_plan_out : nat }.
Record mem := { heap : nat -> D; used : nat; obj : fobj }.
Definition set_at (h : nat -> D) (l : nat) (d : D) : nat -> D := fun k => if Nat.eqb k l then d else h k.

(** soapy/AOFFT.py:84-192: inputData and outputData are arrays of zeros (the fftpack object has no outputData; an unused
    array stands for it). *)
Definition new_fft (zero : D) (l : lib) (forward : bool) (h : nat -> D) (n : nat) : mem :=
  {| heap := set_at (set_at h n zero) (S n) zero; used := S (S n);
     obj := {| f_lib := l; f_forward := forward; f_in := n; f_plan_in := n; f_plan_out := S n |} |}.

(** soapy/AOFFT.py:135-139, 165-172, 223-224, 253-260.  For reikna, self.inverse is 1 for FORWARD and 0 for BACKWARD, and
    the compiled FFT computes the inverse transform when that argument is not 0. *)
Definition transform (o : fobj) : D -> D :=
  match f_lib o with
  | LGpu => let inverse := if f_forward o then 1%nat else 0%nat in if Nat.eqb inverse 0 then fwd else bwd
  | _ => if f_forward o then fwd else bwd
  end.

(** soapy/AOFFT.py:195-260: fft(data); the array returned. *)
Definition fft_call (data : option nat) (m : mem) : mem * nat :=
  let o := obj m in
  match f_lib o with
  | LPyfftw =>
      let h1 := match data with Some l => set_at (heap m) (f_in o) (heap m l) | None => heap m end in
      let d := h1 (f_plan_in o) in
      ({| heap := set_at (set_at h1 (f_plan_in o) (left d)) (f_plan_out o) (transform o d); used := used m; obj := o |}, f_plan_out o)
  | LGpu =>
      let h1 := match data with Some l => set_at (heap m) (f_in o) (heap m l) | None => heap m end in
      ({| heap := set_at h1 (used m) (transform o (h1 (f_in o))); used := S (used m); obj := o |}, used m)
  | LScipy =>
      let i := match data with Some l => l | None => f_in o end in
      ({| heap := set_at (heap m) (used m) (transform o (heap m i)); used := S (used m);
          obj := {| f_lib := f_lib o; f_forward := f_forward o; f_in := i; f_plan_in := f_plan_in o; f_plan_out := f_plan_out o |} |}, used m)
  end.

(** What a user of the object does: make an array, write into one of theirs, write into the object's
    inputData, name one of theirs as the object's inputData, transform. *)
Inductive action := New (d : D) | Write (l : nat) (d : D) | Fill (l : nat) | Bind (l : nat) | Fft (data : option nat).
Definition act (a : action) (m : mem) : mem :=
  match a with
  | New d => {| heap := set_at (heap m) (used m) d; used := S (used m); obj := obj m |}
  | Write l d => {| heap := set_at (heap m) l d; used := used m; obj := obj m |}
  | Fill l => {| heap := set_at (heap m) (f_in (obj m)) (heap m l); used := used m; obj := obj m |}
  | Bind l => {| heap := heap m; used := used m;
                 obj := {| f_lib := f_lib (obj m); f_forward := f_forward (obj m); f_in := l; f_plan_in := f_plan_in (obj m); f_plan_out := f_plan_out (obj m) |} |}
  | Fft d => fst (fft_call d m)
  end.
Definition acts (l : list action) (m : mem) : mem := fold_left (fun m a => act a m) l m.
End Object.
Arguments New {D}. Arguments Write {D}. Arguments Fill {D}. Arguments Bind {D}. Arguments Fft {D}.

(** ** Data of another shape.  A two dimensional object transforming both axes, inputSize (P, Q), given an
    (a, b) array: what is transformed.  219-221 and 233-235 assign into inputData, by the broadcasting rules;
    252-260 pass [shape=self.size] to fftpack, which cuts or zero pads every axis.  None: ValueError. *)
Open Scope Z_scope.
Definition load_2d (l : lib) (P Q a b : Z) (x : Z -> Z -> C) : option (Z -> Z -> C) :=
  match l with
  | LScipy => Some (fun i j => if (i <? a) && (j <? b) then x i j else RtoC 0)
  | _ => if ((a =? P) || (a =? 1)) && ((b =? Q) || (b =? 1))
         then Some (fun i j => x (if a =? 1 then 0 else i) (if b =? 1 then 0 else j)) else None
  end.

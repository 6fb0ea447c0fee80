(** Specification of linear interpolation between scattered points. *)
From Verif.Base Require Import Vec.
From Verif.Model Require Import ZoomMissing.
Local Open Scope Qc_scope.

(** A sample with a weight *)
Definition wsample := (Qc * (Qc * Qc * Qc))%type.
Definition w_of (s : wsample) : Qc := fst s.
Definition x_of (s : wsample) : Qc := fst (fst (snd s)).
Definition y_of (s : wsample) : Qc := snd (fst (snd s)).
Definition v_of (s : wsample) : Qc := snd (snd s).
Definition total (f : wsample -> Qc) (l : list wsample) : Qc := lsum (map f l).
(** Value v at (x, y) is a weighted mean of samples whose weighted mean place is (x, y). *)
Definition mean_of (samples : list (Qc * Qc * fl)) (x y v : Qc) : Prop :=
  exists l : list wsample,
    Forall (fun s => 0 <= w_of s /\ In (fst (snd s), Some (v_of s)) samples) l /\
    total w_of l = 1 /\ total (fun s => w_of s * x_of s) l = x /\ total (fun s => w_of s * y_of s) l = y /\ total (fun s => w_of s * v_of s) l = v.
(** What is used of scipy.interpolate.griddata(method='linear'), for whatever triangulation: its values are such means, and it has a value inside any
    rectangle of samples, unless samples are NaN. *)
Record linear_griddata (gd : list (Qc * Qc * fl) -> Qc -> Qc -> fl) : Prop := mkLg {
  lg_mean : forall samples x y v, gd samples x y = Some v -> mean_of samples x y v;
  lg_some : forall samples x y x1 x2 y1 y2 a b c d, (forall p, In p samples -> snd p <> None) ->
    In (x1, y1, a) samples -> In (x1, y2, b) samples -> In (x2, y1, c) samples -> In (x2, y2, d) samples ->
    x1 < x2 -> y1 < y2 -> x1 <= x <= x2 -> y1 <= y <= y2 -> gd samples x y <> None }.
(** The file has no zero and no missing element. *)
Definition full (n : Z) (file : Z -> Z -> Z -> fl) : Prop := forall a i j, (0 <= i < n)%Z -> (0 <= j < n)%Z -> exists v, file a i j = Some v /\ v <> 0.
(** Where the middle of element i is, for n elements side by side from -1 to 1 *)
Definition middle (n i : Z) : Qc := qz (2 * i + 1 - n) / qz n.
(** The middle of element i of p is between those of the first and last elements of n. *)
Definition inside (n p i : Z) : Prop := middle n 0 <= middle p i <= middle n (n - 1).
(** A plane over the elements *)
Definition plane_file (n : Z) (A B C : Z -> Qc) (file : Z -> Z -> Z -> fl) : Prop :=
  forall a i j, (0 <= i < n)%Z -> (0 <= j < n)%Z -> file a i j = Some (A a + B a * middle n i + C a * middle n j).

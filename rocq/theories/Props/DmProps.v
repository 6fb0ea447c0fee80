(** Property theorems C23-C25, C69: deformable mirrors. *)
From Verif.Base Require Import Vec.
From Verif.Model Require Import Recon Dm.
From Verif.Spec Require Import DmSpec.
From Verif.Proofs Require Import DmProofs.

(** C23, the part that holds: when the surface and the screen have sizes of the same parity, every frame of
    every history is an array of the screen's size showing the surface in its middle. *)
Theorem C23_frame_size_partial :
  forall (m n : Z) (sh : list (arr Qc)) (css : list vec),
    0 <= m -> 0 <= n -> Z.even (m - n) = true -> square_shapes m sh -> sh <> [] ->
    Forall (fun cs => length cs = length sh) css ->
    Forall2 (fun cs out => exists r, out = Ok r /\ arr_eq r (centred m n (piston_free m cs sh)))
            css (dm_history n 0 sh (arr_zero n) css).
Proof. exact dm_history_ok. Qed.
Print Assumptions C23_frame_size_partial.

(** C23: this covers every class of mirror with an even number of phase elements (the screen size is made
    even by the configuration), except a Piezo stack that exactly fills the screen. *)
Theorem C23_even_elements_partial :
  forall (k : dm_kind) (nx xacts simpad scrn : Z) (sh : list (arr Qc)),
    0 <= nx -> 0 < xacts -> 0 <= simpad -> 0 <= scrn -> Z.even nx = true -> Z.even scrn = true ->
    (k = PiezoStack -> nx + 2 * round_div nx xacts <> scrn) ->
    exists m, surface_size k nx xacts simpad scrn = Ok m /\
      (square_shapes m sh -> sh <> [] -> forall css, Forall (fun cs => length cs = length sh) css ->
       Forall (fun out => exists r, out = Ok r /\ nrow r = scrn /\ ncol r = scrn) (dm_history scrn 0 sh (arr_zero scrn) css)).
Proof. exact config_even. Qed.
Print Assumptions C23_even_elements_partial.

(** C23 is FALSE of the code: with an odd number of phase elements every frame raises, or (Piezo stack one
    element larger than the screen) the mirror stays flat whatever the commands. *)
Theorem C23_odd_elements_refuted :
  forall (k : dm_kind) (nx xacts simpad scrn : Z) (sh : list (arr Qc)) (m : Z) (css : list vec),
    2 <= nx -> 0 < xacts -> 0 <= simpad -> 4 <= scrn -> Z.odd nx = true -> Z.even scrn = true ->
    surface_size k nx xacts simpad scrn = Ok m ->
    square_shapes m sh -> sh <> [] -> Forall (fun cs => length cs = length sh) css ->
    Forall (fun out => out = Err ValueError) (dm_history scrn 0 sh (arr_zero scrn) css) \/
    (k = PiezoStack /\ Forall (fun out => exists r, out = Ok r /\ arr_eq r (arr_zero scrn)) (dm_history scrn 0 sh (arr_zero scrn) css)).
Proof. exact config_odd. Qed.
Print Assumptions C23_odd_elements_refuted.

(** C23 is FALSE of the code: a Piezo stack that exactly fills the screen cannot be built. *)
Theorem C23_piezo_fills_screen_refuted :
  forall nx xacts simpad : Z, surface_size PiezoStack nx xacts simpad (nx + 2 * round_div nx xacts) = Err AttributeError.
Proof. intros. cbn [surface_size]. unfold piezo_shape_size, piezo_size. rewrite Z.eqb_refl. reflexivity. Qed.
Print Assumptions C23_piezo_fills_screen_refuted.

Definition ex_shape (m : Z) (a b : Z) : arr Qc := mkArr m m (fun i j => qz (a * i + b * j)).
Definition ex_rows (n : Z) (r : result (arr Qc)) : list (list Qc) :=
  match r with
  | Ok a => map (fun i => map (fun j => at2 a (Z.of_nat i) (Z.of_nat j)) (seq 0 (Z.to_nat n))) (seq 0 (Z.to_nat n))
  | Err _ => []
  end.
Example C23_instance :
  nx_dm_elements 64 (qz 8) (qz 8) = 64 /\ nx_dm_elements 63 (qz 8) (qz 8) = 63 /\
  surface_size PiezoStack 64 8 2 68 = Ok 68 /\ surface_size PiezoStack 63 8 2 68 = Ok 67 /\ surface_size PiezoStack 63 10 2 74 = Ok 0 /\
  ex_rows 4 (dm_frame2 4 0 [ex_shape 2 1 0; ex_shape 2 0 1] (arr_zero 4) [qz 2; qz 4])
  = [[0; 0; 0; 0]; [0; qz (-3); qz 1; 0]; [0; qz (-1); qz 3; 0]; [0; 0; 0; 0]]%Qc /\
  dm_frame2 4 0 [ex_shape 3 1 0; ex_shape 3 0 1] (arr_zero 4) [qz 2; qz 4] = Err ValueError.
Proof. qc_compute; repeat constructor. Qed.

(** C24: the surface is the sum of command times influence function, minus its mean (shown here without
    cropping or padding; C23_frame_size_partial has the other cases)... *)
Theorem C24_superposition :
  forall (n : Z) (sh : list (arr Qc)) (css : list vec) (t : nat) (cs : vec) (out : result (arr Qc)),
    0 <= n -> square_shapes n sh -> sh <> [] -> Forall (fun cs => length cs = length sh) css ->
    nth_error css t = Some cs -> nth_error (dm_history n 0 sh (arr_zero n) css) t = Some out ->
    exists r, out = Ok r /\
      forall i j, 0 <= i < n -> 0 <= j < n ->
        at2 r i j = (superposition cs sh i j - average n (superposition cs sh))%Qc.
Proof. exact history_superposition. Qed.
Print Assumptions C24_superposition.

(** ... linear in the commands, whatever came before... *)
Theorem C24_linear :
  forall (m n : Z) (sh : list (arr Qc)) (css1 css2 css3 : list vec) (t1 t2 t3 : nat) (c1 c2 : vec) (al be : Qc) (r1 r2 r3 : arr Qc),
    0 <= m -> 0 <= n -> Z.even (m - n) = true -> square_shapes m sh -> sh <> [] ->
    Forall (fun cs => length cs = length sh) css1 -> Forall (fun cs => length cs = length sh) css2 ->
    Forall (fun cs => length cs = length sh) css3 ->
    nth_error css1 t1 = Some c1 -> nth_error css2 t2 = Some c2 -> nth_error css3 t3 = Some (vadd (vscale al c1) (vscale be c2)) ->
    nth_error (dm_history n 0 sh (arr_zero n) css1) t1 = Some (Ok r1) ->
    nth_error (dm_history n 0 sh (arr_zero n) css2) t2 = Some (Ok r2) ->
    nth_error (dm_history n 0 sh (arr_zero n) css3) t3 = Some (Ok r3) ->
    forall i j, 0 <= i < n -> 0 <= j < n -> at2 r3 i j = (al * at2 r1 i j + be * at2 r2 i j)%Qc.
Proof. exact history_linear. Qed.
Print Assumptions C24_linear.

(** ... with no piston left when the whole surface is inside the screen... *)
Theorem C24_zero_mean :
  forall (m n : Z) (sh : list (arr Qc)) (css : list vec),
    0 < m -> m <= n -> Z.even (m - n) = true -> square_shapes m sh -> sh <> [] ->
    Forall (fun cs => length cs = length sh) css ->
    forall r, In (Ok r) (dm_history n 0 sh (arr_zero n) css) -> zsum n (fun i => zsum n (fun j => at2 r i j)) = 0%Qc.
Proof. exact history_zero_mean. Qed.
Print Assumptions C24_zero_mean.

(** Only the piston over the whole mirror is removed, not the piston over a cropped part: *)
Example C24_instance :
  ex_rows 2 (dm_frame2 2 0 [mkArr 4 4 (fun i j => if (i =? 0) && (j =? 0) then qz 16 else 0%Qc)] (arr_zero 2) [qz 1])
  = [[qz (-1); qz (-1)]; [qz (-1); qz (-1)]] /\
  ex_rows 2 (dm_frame2 2 0 [ex_shape 4 1 0; ex_shape 4 0 1] (arr_zero 2) [qz 2; qz 4]) = [[qz (-3); qz 1]; [qz (-1); qz 3]].
Proof. qc_compute; repeat constructor. Qed.

(** C25, the part that holds: while the closed/open settings do not change, in every frame the science
    cameras see each mirror's current surface exactly once and the WFSs see the closed mirrors only. *)
Theorem C25_each_mirror_once_partial :
  forall (npix ndm : nat) (flags : list bool) (surfs : list (nat -> result vec)) (c : corr) (outs : list (list vec * list vec)),
    length flags = ndm ->
    corr_run (corr_init ndm npix) (map (fun s => (flags, s)) surfs) = Ok (c, outs) ->
    forall t surf, nth_error surfs t = Some surf -> (forall d v, surf d = Ok v -> length v = npix) ->
    exists w s, nth_error outs t = Some (w, s) /\
      forall d f, nth_error flags d = Some f ->
        exists v, surf d = Ok v /\ nth_error s d = Some v /\ nth_error w d = Some (if f then v else vzero npix).
Proof. exact fixed_flags. Qed.
Print Assumptions C25_each_mirror_once_partial.

(** C25: and such a run does not raise unless a mirror does. *)
Theorem C25_total :
  forall (frames : list (list bool * (nat -> result vec))) (c : corr),
    length (cl c) = length (op c) ->
    Forall (fun fr => length (fst fr) = length (cl c) /\ forall d, (d < length (fst fr))%nat -> exists v, snd fr d = Ok v) frames ->
    exists r, corr_run c frames = Ok r.
Proof. exact corr_run_total. Qed.
Print Assumptions C25_total.

(** C25 is FALSE of the code: a mirror taken out of the closed group leaves its last closed-loop surface
    behind: the WFSs keep seeing it and the science cameras see it in addition to the current one. *)
Theorem C25_each_mirror_once_refuted :
  forall (npix ndm d : nat) (h1 : list (list bool * (nat -> result vec))) (f0 : list bool) (s0 : nat -> result vec)
         (h2 : list (list bool * (nat -> result vec))) (f1 : list bool) (s1 : nat -> result vec)
         (c : corr) (outs : list (list vec * list vec)) (a b : vec),
    length f0 = ndm -> length f1 = ndm -> Forall (fun fr => length (fst fr) = ndm) h1 ->
    nth_error f0 d = Some true -> s0 d = Ok a ->
    Forall (fun fr => length (fst fr) = ndm /\ nth_error (fst fr) d = Some false) h2 ->
    nth_error f1 d = Some false -> s1 d = Ok b ->
    corr_run (corr_init ndm npix) (h1 ++ (f0, s0) :: h2 ++ [(f1, s1)]) = Ok (c, outs) ->
    exists front w s, outs = front ++ [(w, s)] /\ nth_error w d = Some a /\ nth_error s d = Some (vadd b a).
Proof. exact toggled_mirror. Qed.
Print Assumptions C25_each_mirror_once_refuted.

Example C25_instance :
  let s k := fun d : nat => Ok [qz (k + Z.of_nat d)] in
  match corr_run (corr_init 2 1) [([true; false], s 5); ([true; false], s 7); ([false; false], s 9)] with
  | Ok (_, outs) => outs = [([[qz 5]; [qz 0]], [[qz 5]; [qz 6]]); ([[qz 7]; [qz 0]], [[qz 7]; [qz 8]]);
                            ([[qz 7]; [qz 0]], [[qz 16]; [qz 10]])]
  | Err _ => False
  end.
Proof. qc_compute; repeat constructor. Qed.

(** C69 is FALSE of the code: a mirror with a rotation raises in every frame. *)
Theorem C69_rotation_refuted :
  forall (n : Z) (rotation : Qc) (sh : list (arr Qc)) (screen : arr Qc) (cs : vec),
    rotation <> 0%Qc -> exists e, dm_frame2 n rotation sh screen cs = Err e.
Proof. exact rotation_raises. Qed.
Print Assumptions C69_rotation_refuted.

Example C69_instance : dm_frame2 2 (qz 45) [ex_shape 2 1 0] (arr_zero 2) [qz 1] = Err IndexError.
Proof. reflexivity. Qed.

(** Property theorems C65: reference counts in the object loops *)
From Coq Require Import ZArith List Bool Lia.
From Verif Require Import CSem M_Select M_Obj M_Geom M_Ref S_Ref P_Ref P_RefS.
Import ListNotations.
Open Scope Z_scope.

(** ** C65: counts.  One slice, whatever the output held before: either nothing is written and
    nothing is held, or every output cell holds a new reference; temporaries are released. *)
Theorem C65_first_counts :
  forall P (HP : honest P) n px sx op pt pw po s s',
  sound (hp s) -> first_ref P n px sx op pt pw po s = Some s' -> delivers [po] s s'.
Proof. exact @first_delivers. Qed.
Print Assumptions C65_first_counts.
Theorem C65_ext_argext_counts :
  forall P (HP : honest P) op n px sx po s r s',
  sound (hp s) -> ext_argext_ref P op n px sx po s = Some (r, s') -> delivers [po] s s'.
Proof. exact @ext_argext_delivers. Qed.
Print Assumptions C65_ext_argext_counts.
Theorem C65_minmax_counts :
  forall P (HP : honest P) n px sx po so s s',
  so <> 0 -> sound (hp s) -> minmax_ref P n px sx po so s = Some s' -> delivers [po; po + so] s s'.
Proof. exact @minmax_delivers. Qed.
Print Assumptions C65_minmax_counts.
Theorem C65_cross2_counts :
  forall P (HP : honest P) pu su pv sv po s s',
  sound (hp s) -> cross2_ref P pu su pv sv po s = Some s' -> delivers [po] s s'.
Proof. exact @cross2_delivers. Qed.
Print Assumptions C65_cross2_counts.
Theorem C65_cross3_counts :
  forall P (HP : honest P) pu su pv sv po so s s',
  so <> 0 -> sound (hp s) -> cross3_ref P pu su pv sv po so s = Some s' ->
  delivers [po; po + so; po + 2 * so] s s'.
Proof. exact @cross3_delivers. Qed.
Print Assumptions C65_cross3_counts.
Theorem C65_peaktopeak_slice_counts :
  forall P (HP : honest P) n px sx po s c,
  sound (hp s) -> peaktopeak_slice_ref P n px sx po s = Some c ->
  delivers [po] s (match c with inl s' => s' | inr s' => s' end).
Proof. exact @peaktopeak_slice_delivers. Qed.
Print Assumptions C65_peaktopeak_slice_counts.
(** all slices of a call with a new output array, exceptions included: no reference is lost
    and none is released too often *)
Theorem C65_first_balanced :
  forall P N n px dx sx (op : Z -> Z) pt dt pw dw po dout s s',
  honest P -> sound (hp s) ->
  let cells := all_cells N (fun i => [po + i * dout]) in
  NoDup cells -> fresh cells (outp s) ->
  slices N (fun i => first_ref P n (px + i * dx) sx (op i) (pt + i * dt) (pw + i * dw) (po + i * dout)) s = Some s' ->
  balanced cells s s' /\ only cells s s'.
Proof. exact @first_balanced. Qed.
Print Assumptions C65_first_balanced.
Theorem C65_ext_argext_balanced :
  forall P op N n px dx sx po dout s s',
  honest P -> sound (hp s) ->
  let cells := all_cells N (fun i => [po + i * dout]) in
  NoDup cells -> fresh cells (outp s) ->
  slices N (fun i s => r <- ext_argext_ref P op n (px + i * dx) sx (po + i * dout) s ;; ret (snd r)) s = Some s' ->
  balanced cells s s' /\ only cells s s'.
Proof. exact @ext_argext_balanced. Qed.
Print Assumptions C65_ext_argext_balanced.
Theorem C65_minmax_balanced :
  forall P N n px dx sx po dout so s s',
  honest P -> sound (hp s) -> so <> 0 ->
  let cells := all_cells N (fun i => [po + i * dout; po + i * dout + so]) in
  NoDup cells -> fresh cells (outp s) ->
  slices N (fun i => minmax_ref P n (px + i * dx) sx (po + i * dout) so) s = Some s' ->
  balanced cells s s' /\ only cells s s'.
Proof. exact @minmax_balanced. Qed.
Print Assumptions C65_minmax_balanced.
Theorem C65_cross2_balanced :
  forall P N pu du su pv dv sv po dout s s',
  honest P -> sound (hp s) ->
  let cells := all_cells N (fun i => [po + i * dout]) in
  NoDup cells -> fresh cells (outp s) ->
  slices N (fun i => cross2_ref P (pu + i * du) su (pv + i * dv) sv (po + i * dout)) s = Some s' ->
  balanced cells s s' /\ only cells s s'.
Proof. exact @cross2_balanced. Qed.
Print Assumptions C65_cross2_balanced.
Theorem C65_cross3_balanced :
  forall P N pu du su pv dv sv po dout so s s',
  honest P -> sound (hp s) -> so <> 0 ->
  let cells := all_cells N (fun i => [po + i * dout; po + i * dout + so; po + i * dout + 2 * so]) in
  NoDup cells -> fresh cells (outp s) ->
  slices N (fun i => cross3_ref P (pu + i * du) su (pv + i * dv) sv (po + i * dout) so) s = Some s' ->
  balanced cells s s' /\ only cells s s'.
Proof. exact @cross3_balanced. Qed.
Print Assumptions C65_cross3_balanced.
Theorem C65_peaktopeak_balanced :
  forall P N n p step cstep po dout s s',
  honest P -> sound (hp s) ->
  let cells := all_cells N (fun i => [po + i * dout]) in
  NoDup cells -> fresh cells (outp s) ->
  peaktopeak_loop_ref P N n p step cstep po dout s = Some s' ->
  balanced cells s s' /\ only cells s s'.
Proof. exact @peaktopeak_balanced. Qed.
Print Assumptions C65_peaktopeak_balanced.

Definition calm_cells := all_cells 2 (fun i => [100 + i * 8]).
Example C65_balanced_ex :
  honest py_calm /\ sound (hp (st0 None)) /\ NoDup calm_cells /\ fresh calm_cells (outp (st0 None)) /\
  match peaktopeak_loop_ref py_calm 2 2 0 8 16 100 8 (st0 None) with
  | Some s' => (outp s' 100, outp s' 108, rc (hp s') 5, rc (hp s') 1) = (Some (Some 5), Some (Some 5), 2, 1)
  | None => False
  end.
Proof.
  split; [apply calm_honest|]. split; [exact heap0_sound|].
  split; [repeat constructor; cbn; intuition lia|]. split.
  - intros a [<-|[<-|[]]]; reflexivity.
  - vm_compute. reflexivity.
Qed.

(** ** C65: borrowed pointers.  As long as Python code leaves the input arrays in place, no freed
    object is used, and the loops deliver what the models of M_Obj.v and M_Geom.v say. *)
Theorem C65_first_borrowed :
  forall P (HP : honest P) (HG : gentle P) n px sx op pt pw po target otherwise s r w',
  sound (hp s) -> outp s po <> None ->
  inp (hp s) pt = Some target -> inp (hp s) pw = Some otherwise ->
  first_core_calc_object (cmp_ans P) n (inp (hp s)) px sx op target otherwise (cw s) = Some (r, w') ->
  exists s', first_ref P n px sx op pt pw po s = Some s' /\
    after (inp (hp s)) w' (aw s) (put_all [po] [r] (outp s)) s'.
Proof. exact @first_refines. Qed.
Print Assumptions C65_first_borrowed.
Theorem C65_ext_argext_borrowed :
  forall P (HP : honest P) (HG : gentle P) op n px sx po s r w',
  sound (hp s) -> outp s po <> None ->
  ext_argext_object (cmp_ans P) op n (inp (hp s)) px sx (cw s) = Some (r, w') ->
  exists s', ext_argext_ref P op n px sx po s = Some (option_map snd r, s') /\
    after (inp (hp s)) w' (aw s)
      (match r with Some (x, _) => put_all [po] [Some x] (outp s) | None => outp s end) s'.
Proof. exact @ext_argext_refines. Qed.
Print Assumptions C65_ext_argext_borrowed.
Theorem C65_minmax_borrowed :
  forall P (HP : honest P) (HG : gentle P) n px sx po so s r w',
  sound (hp s) -> outp s po <> None -> outp s (po + so) <> None ->
  minmax_object_core (cmp_ans P) n (inp (hp s)) px sx (cw s) = Some (r, w') ->
  exists s', minmax_ref P n px sx po so s = Some s' /\
    after (inp (hp s)) w' (aw s)
      (match r with Some (a, b) => put_all [po; po + so] [Some a; Some b] (outp s) | None => outp s end) s'.
Proof. exact @minmax_refines. Qed.
Print Assumptions C65_minmax_borrowed.
Theorem C65_peaktopeak_borrowed :
  forall P (HP : honest P) (HG : gentle P) n px sx po s r w',
  sound (hp s) -> outp s po <> None ->
  peaktopeak_object (cmp_ans P) (fun a b _ => num_ans P ((OSub, a, b) :: ahist (aw s))) n (inp (hp s)) px sx (cw s) = Some (r, w') ->
  exists c, peaktopeak_slice_ref P n px sx po s = Some c /\
    match r, c with
    | Some d, inl s' =>
        sound (hp s') /\ (forall a, inp (hp s') a = inp (hp s) a) /\
        (forall a, outp s' a = put_all [po] [Some d] (outp s) a) /\ cw s' = w' /\ aerr (aw s') = aerr (aw s)
    | None, inr s' =>
        sound (hp s') /\ (forall a, inp (hp s') a = inp (hp s) a) /\
        (forall a, outp s' a = outp s a) /\ hist (cw s') = hist w' /\
        (err (cw s') = true \/ aerr (aw s') = true)
    | _, _ => False
    end.
Proof. exact @peaktopeak_refines. Qed.
Print Assumptions C65_peaktopeak_borrowed.
Theorem C65_cross2_borrowed :
  forall P (HP : honest P) (HG : gentle P) pu su pv sv po mo s mo' v',
  sound (hp s) -> (forall a, mo a = None <-> outp s a = None) -> aerr (aw s) = false ->
  cross2_core_calc_object (num_ans P) (inp (hp s)) pu su (inp (hp s)) pv sv mo po (aw s) = Some (mo', v') ->
  exists s', cross2_ref P pu su pv sv po s = Some s' /\
    after (inp (hp s)) (cw s) v' (if aerr v' then outp s else given [po] mo' (outp s)) s'.
Proof. exact @cross2_refines. Qed.
Print Assumptions C65_cross2_borrowed.
Theorem C65_cross3_borrowed :
  forall P (HP : honest P) (HG : gentle P) pu su pv sv po so mo s mo' v',
  sound (hp s) -> (forall a, mo a = None <-> outp s a = None) -> aerr (aw s) = false ->
  cross3_core_calc_object (num_ans P) (inp (hp s)) pu su (inp (hp s)) pv sv mo po so (aw s) = Some (mo', v') ->
  exists s', cross3_ref P pu su pv sv po so s = Some s' /\
    after (inp (hp s)) (cw s) v' (if aerr v' then outp s else given [po; po + so; po + 2 * so] mo' (outp s)) s'.
Proof. exact @cross3_refines. Qed.
Print Assumptions C65_cross3_borrowed.
Example C65_borrowed_ex :
  honest py_calm /\ gentle py_calm /\ sound (hp (st0 None)) /\
  ext_argext_object (cmp_ans py_calm) Py_LT 3 (inp (hp (st0 None))) 0 8 (mkW [] false)
    = Some (Some (1, 0), mkW [(3, 1, Py_LT); (2, 1, Py_LT)] false) /\
  cross2_core_calc_object (num_ans py_calm) (inp heap0) 0 8 (inp heap0) 16 8
    (fun a => if a =? 100 then Some 0 else None) 100 (mkAW [] false) <> None.
Proof.
  split; [apply calm_honest|]. split; [apply calm_honest|]. split; [exact heap0_sound|].
  split; [vm_compute; reflexivity|]. vm_compute. discriminate.
Qed.

(** an `out` array that already holds objects is overwritten without releasing them *)
Theorem C65_out_leak_refuted :
  exists P s po q,
    honest P /\ gentle P /\ sound (hp s) /\ outp s po = Some (Some q) /\ own (hp s) q = 1 /\
    (forall run : pst -> M pst,
       In run [ first_ref P 2 8 8 Py_LT 0 24 po;
                (fun s => r <- min_argmin_ref P 3 0 8 po s ;; ret (snd r));
                (fun s => r <- max_argmax_ref P 3 0 8 po s ;; ret (snd r));
                minmax_ref P 3 0 8 po 8;
                peaktopeak_loop_ref P 1 3 0 0 8 po 0;
                cross2_ref P 8 (-8) 16 8 po;
                cross3_ref P 16 (-8) 8 8 po 8 ] ->
       exists s', run s = Some s' /\ (exists v, outp s' po = Some (Some v) /\ v <> q) /\
         rc (hp s') q = 1 /\ ~ balanced [po] s s').
Proof. exact @leak. Qed.
Print Assumptions C65_out_leak_refuted.
(** a comparison or multiplication that replaces an element of an input array makes the
    loops use a freed object *)
Theorem C65_use_after_free_refuted :
  exists P P' s,
    honest P /\ honest P' /\ gentle P' /\ (forall h, cmp_ans P h = cmp_ans P' h) /\ (forall h, num_ans P h = num_ans P' h) /\
    sound (hp s) /\
    first_ref P' 2 8 8 Py_LT 0 24 100 s <> None /\ first_ref P 2 8 8 Py_LT 0 24 100 s = None /\
    min_argmin_ref P' 3 0 8 100 s <> None /\ min_argmin_ref P 3 0 8 100 s = None /\
    max_argmax_ref P' 3 0 8 100 s <> None /\ max_argmax_ref P 3 0 8 100 s = None /\
    minmax_ref P' 3 0 8 100 8 s <> None /\ minmax_ref P 3 0 8 100 8 s = None /\
    peaktopeak_loop_ref P' 1 3 0 0 8 100 0 s <> None /\ peaktopeak_loop_ref P 1 3 0 0 8 100 0 s = None /\
    cross2_ref P' 8 (-8) 16 8 100 s <> None /\ cross2_ref P 8 (-8) 16 8 100 s = None /\
    cross3_ref P' 16 (-8) 8 8 100 8 s <> None /\ cross3_ref P 16 (-8) 8 8 100 8 s = None.
Proof. exact @use_after_free. Qed.
Print Assumptions C65_use_after_free_refuted.

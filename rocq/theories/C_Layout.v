(** Property theorems C01 (results do not depend on the memory layout) and C56 (empty core dimensions). *)
From Coq Require Import Reals ZArith List Bool Lia.
From Verif Require Import CSem Num M_Select M_Obj M_Int M_Signal M_Stat M_Means S_Layout P_Layout.
Import ListNotations.
Open Scope Z_scope.

(** ** C01.  [layout_free n f]: [f] gives the same result on any two strided arrays that hold the same [n] elements. *)
Theorem C01_first :
  forall {T : Type} (cmp : T -> T -> option comparison) n op t o,
  layout_free n (fun m p s => first_core_calc cmp n m p s op t o).
Proof. exact @first_free. Qed.
Print Assumptions C01_first.
Theorem C01_argfirst :
  forall {T : Type} (cmp : T -> T -> option comparison) n op t,
  layout_free n (fun m p s => argfirst_core_calc cmp n m p s op t).
Proof. exact @argfirst_free. Qed.
Print Assumptions C01_argfirst.
Theorem C01_all_same :
  forall {T : Type} n ne,
  layout_free n (fun m p s => all_same_core (T := T) ne n m p s).
Proof. exact @all_same_free. Qed.
Print Assumptions C01_all_same.
Theorem C01_ordered :
  forall {T : Type} (cmp : T -> T -> option comparison) n op,
  layout_free n (fun m p s => ordered_core cmp n m p s op).
Proof. exact @ordered_free. Qed.
Print Assumptions C01_ordered.
Theorem C01_minmax :
  forall {T : Type} (cmp : T -> T -> option comparison) n,
  0 < n -> layout_free n (minmax_core cmp n) /\ layout_free n (argminmax_core cmp n) /\
     layout_free n (min_argmin_core cmp n) /\ layout_free n (max_argmax_core cmp n) /\
     layout_free n (argmin_core cmp n) /\ layout_free n (argmax_core cmp n).
Proof. exact @minmax_free. Qed.
Print Assumptions C01_minmax.
Theorem C01_searchsorted :
  forall {T : Type} (cmp : T -> T -> option comparison) n v,
  layout_free n (fun m p s => searchsortedl cmp m p n s v) /\
                                   layout_free n (fun m p s => searchsortedr cmp m p n s v).
Proof. exact @searchsorted_free. Qed.
Print Assumptions C01_searchsorted.
Theorem C01_percentileofscore :
  forall {T : Type} (cmp : T -> T -> option comparison) {D} (A : arith D) n score kind,
  layout_free n (fun m p s => percentileofscore_core_calc cmp A n m p s score kind).
Proof. exact @percentileofscore_free. Qed.
Print Assumptions C01_percentileofscore.
Theorem C01_peaktopeak :
  forall {T : Type} (cmp : T -> T -> option comparison) {U} (diff : T -> T -> M U) sz n,
  cmp_laws cmp -> 0 <= n ->
     layout_free n (fun m p s => peaktopeak_core cmp diff sz n m p s).
Proof. exact @peaktopeak_free. Qed.
Print Assumptions C01_peaktopeak.
Theorem C01_objects :
  forall (O : oracle) n w,
  (forall op t o, layout_free n (fun m p s => first_core_calc_object O n m p s op t o w)) /\
  (forall op t, layout_free n (fun m p s => argfirst_core_calc_object O n m p s op t w)) /\
  layout_free n (fun m p s => all_same_core_object O n m p s w) /\
  (forall op, layout_free n (fun m p s => ordered_core_object O n m p s op w)) /\
  (0 < n -> layout_free n (fun m p s => min_argmin_object_core O n m p s w) /\ layout_free n (fun m p s => max_argmax_object_core O n m p s w) /\
     layout_free n (fun m p s => argmin_object_core O n m p s w) /\ layout_free n (fun m p s => argmax_object_core O n m p s w) /\
     layout_free n (fun m p s => minmax_object_core O n m p s w) /\ layout_free n (fun m p s => argminmax_object_core O n m p s w) /\
     forall sub, layout_free n (fun m p s => peaktopeak_object O sub n m p s w)).
Proof. exact @object_free. Qed.
Print Assumptions C01_objects.
Theorem C01_mad :
  forall {T} (A : arith T) sortf n u,
  layout_free n (fun m p s => mad_core A sortf n m p s u) /\
     layout_free n (fun m p s => gini_core A sortf n m p s u) /\ layout_free n (fun m p s => rmad_core A sortf n m p s u).
Proof. exact @mad_free. Qed.
Print Assumptions C01_mad.
Theorem C01_vnorm :
  forall {T U} (A : arith U) TR (absf : T -> U) n order,
  layout_free n (fun m p s => vnorm_core_calc A TR absf n m p s order).
Proof. exact @vnorm_free. Qed.
Print Assumptions C01_vnorm.
Theorem C01_rms :
  forall {T} (A : arith T) sz n,
  layout_free n (rms_core_calc A sz n).
Proof. exact @rms_free. Qed.
Print Assumptions C01_rms.
Theorem C01_vdot :
  forall {T} (A : arith T) sz n m p s m' p' s' my py sy my' py' sy',
  same_elements n m p s m' p' s' -> same_elements n my py sy my' py' sy' ->
  vdot_core_calc A sz n m p s my py sy = vdot_core_calc A sz n m' p' s' my' py' sy'.
Proof. exact @vdot_free. Qed.
Print Assumptions C01_vdot.
Theorem C01_pearson_corr :
  forall {T U} (A : arith U) (up : T -> U) cmpT bad n m p s m' p' s' my py sy my' py' sy',
  2 <= n ->
     same_elements n m p s m' p' s' -> same_elements n my py sy my' py' sy' ->
     pearson_corr_core A up cmpT bad n m p s my py sy = pearson_corr_core A up cmpT bad n m' p' s' my' py' sy'.
Proof. exact @pearson_corr_free. Qed.
Print Assumptions C01_pearson_corr.
Theorem C01_wjaccard :
  forall {T U} (A : arith U) (up : T -> U) cmpT n m p s m' p' s' my py sy my' py' sy',
  0 < n ->
     same_elements n m p s m' p' s' -> same_elements n my py sy my' py' sy' ->
     wjaccard_core A up cmpT n m p s my py sy = wjaccard_core A up cmpT n m' p' s' my' py' sy'.
Proof. exact @wjaccard_free. Qed.
Print Assumptions C01_wjaccard.
Theorem C01_logbeta :
  forall {T} (A : arith T) lgamma sz n,
  layout_free n (multivariate_logbeta_core A lgamma sz n).
Proof. exact @logbeta_free. Qed.
Print Assumptions C01_logbeta.
Theorem C01_gmean :
  forall {T : Type} (A : arith T) (TR : transc T) n,
  layout_free n (gmean_1d A TR n).
Proof. exact @gmean_free. Qed.
Print Assumptions C01_gmean.
Theorem C01_hmean :
  forall {T L : Type} (A : arith T) (AL : arith L) (t2l : T -> L) (l2t : L -> T) n,
  layout_free n (hmean_row A AL t2l l2t n).
Proof. exact @hmean_free. Qed.
Print Assumptions C01_hmean.
Theorem C01_pmean :
  forall {T D W L : Type} (A : arith T) (AW : arith W) (AL : arith L) (TR : transc T) (powD : D -> D -> D) (t2d : T -> D) (d2w : D -> W) (t2w : T -> W) (w2t : W -> T) (t2l : T -> L) (l2t : L -> T) (thr half : W) n q,
  layout_free n (fun m p s => pmean_row A AW AL TR powD t2d d2w t2w w2t t2l l2t thr half n m p s q).
Proof. exact @pmean_free. Qed.
Print Assumptions C01_pmean.

(** kbnsum: only while there is no infinite element (see C23_kbnsum_stride_refuted) *)
Theorem C01_kbnsum_partial :
  forall {T} (A : arith T) sz n (m : mem T) p s m' p' s',
  (forall k x, 0 <= k < n -> m (p + k * s) = Some x -> a_isinf A x = false) ->
  same_elements n m p s m' p' s' ->
  kbnsum_core_calc A sz n m p s = kbnsum_core_calc A sz n m' p' s'.
Proof. exact @kbnsum_free_partial. Qed.
Print Assumptions C01_kbnsum_partial.
Theorem C01_kbnsum_refuted :
  forall {T} (A : arith T) sz x y z,
  0 < sz ->
   a_isinf A x = true -> isnanb (a_cmp A) x = false -> isnanb (a_cmp A) (a_add A x y) = false -> isnanb (a_cmp A) (a_add A x z) = true ->
   exists m p s m' p' s', same_elements 2 m p s m' p' s' /\
     kbnsum_core_calc A sz 2 m p s = Some x /\ kbnsum_core_calc A sz 2 m' p' s' = Some (a_nan A).
Proof. exact @kbnsum_layout_refuted. Qed.
Print Assumptions C01_kbnsum_refuted.
Example C01_kbnsum_example : a_isinf earith PInf = true /\ isnanb (a_cmp earith) PInf = false /\
  isnanb (a_cmp earith) (a_add earith PInf (Fin 1%R)) = false /\ isnanb (a_cmp earith) (a_add earith PInf NInf) = true.
Proof. repeat split; reflexivity. Qed.

(** cores with an output array: the same elements are written, and nothing else is changed *)
Theorem C01_hysteresis_relay :
  forall {T : Type} (n : Z) (m : mem T) (p s : Z) (m' : mem T) (p' s' : Z) (mo : mem T) (po so : Z) (mo' : mem T) (po' so' : Z) (Hn : 0 <= n) (E : same_elements n m p s m' p' s') (W : writable mo po so (Z.to_nat n)) (W' : writable mo' po' so' (Z.to_nat n)) (cmp : T -> T -> option comparison) a b c d e,
  same_output n (hysteresis_relay_core cmp n m p s a b c d e mo po so) mo po so
                (hysteresis_relay_core cmp n m' p' s' a b c d e mo' po' so') mo' po' so'.
Proof. exact @hysteresis_relay_layout. Qed.
Print Assumptions C01_hysteresis_relay.
Theorem C01_backlash :
  forall {T : Type} (n : Z) (m : mem T) (p s : Z) (m' : mem T) (p' s' : Z) (mo : mem T) (po so : Z) (mo' : mem T) (po' so' : Z) (Hn : 0 <= n) (E : same_elements n m p s m' p' s') (W : writable mo po so (Z.to_nat n)) (W' : writable mo' po' so' (Z.to_nat n)) (A : arith T) d i,
  same_output n (backlash_core A n m p s d i mo po so) mo po so (backlash_core A n m' p' s' d i mo' po' so') mo' po' so'.
Proof. exact @backlash_layout. Qed.
Print Assumptions C01_backlash.
Theorem C01_fillnan1d :
  forall {T : Type} (n : Z) (m : mem T) (p s : Z) (m' : mem T) (p' s' : Z) (mo : mem T) (po so : Z) (mo' : mem T) (po' so' : Z) (Hn : 0 <= n) (E : same_elements n m p s m' p' s') (W : writable mo po so (Z.to_nat n)) (W' : writable mo' po' so' (Z.to_nat n)) {L} (A : arith T) (AL : arith L) up down,
  same_output n (fillnan1d_core A AL up down n m p s mo po so) mo po so (fillnan1d_core A AL up down n m' p' s' mo' po' so') mo' po' so'.
Proof. exact @fillnan1d_layout. Qed.
Print Assumptions C01_fillnan1d.
Theorem C01_unwrap :
  forall {T : Type} (n : Z) (m : mem T) (p s : Z) (m' : mem T) (p' s' : Z) (mo : mem T) (po so : Z) (mo' : mem T) (po' so' : Z) (E : same_elements n m p s m' p' s') (W : writable mo po so (Z.to_nat n)) (W' : writable mo' po' so' (Z.to_nat n)) {D} (A : arith T) (AD : arith D) up signbit trunc period,
  same_output n (unwrap_core A AD up signbit trunc n m p s period mo po so) mo po so
                (unwrap_core A AD up signbit trunc n m' p' s' period mo' po' so') mo' po' so'.
Proof. exact @unwrap_layout. Qed.
Print Assumptions C01_unwrap.
Theorem C01_softmax :
  forall {T : Type} (n : Z) (m : mem T) (p s : Z) (m' : mem T) (p' s' : Z) (mo : mem T) (po so : Z) (mo' : mem T) (po' so' : Z) (Hn : 0 <= n) (E : same_elements n m p s m' p' s') (W : writable mo po so (Z.to_nat n)) (W' : writable mo' po' so' (Z.to_nat n)) (A : arith T) TR,
  same_output n (softmax_core A TR n m p s mo po so) mo po so (softmax_core A TR n m' p' s' mo' po' so') mo' po' so'.
Proof. exact @softmax_layout. Qed.
Print Assumptions C01_softmax.
Theorem C01_convert_to_base :
  forall t n k b mo po so mo' po' so',
  0 <= n -> writable mo po so (Z.to_nat n) -> writable mo' po' so' (Z.to_nat n) ->
   same_output n (convert_to_base_core_calc t n k b mo po so) mo po so (convert_to_base_core_calc t n k b mo' po' so') mo' po' so'.
Proof. exact @convert_to_base_layout. Qed.
Print Assumptions C01_convert_to_base.
Theorem C01_one_hot :
  forall n x mo po so mo' po' so',
  0 <= n -> writable mo po so (Z.to_nat n) -> writable mo' po' so' (Z.to_nat n) ->
   same_output n (one_hot_core_calc n x mo po so) mo po so (one_hot_core_calc n x mo' po' so') mo' po' so'.
Proof. exact @one_hot_layout. Qed.
Print Assumptions C01_one_hot.
Theorem C01_meanvar :
  forall {T U} (A : arith U) (up : T -> U) n ddof m p s m' p' s' mo po so mo' po' so',
  same_elements n m p s m' p' s' -> writable mo po so 2 -> writable mo' po' so' 2 ->
  same_output 2 (meanvar_core A up n m p s ddof mo po so) mo po so (meanvar_core A up n m' p' s' ddof mo' po' so') mo' po' so'.
Proof. exact @meanvar_layout. Qed.
Print Assumptions C01_meanvar.
Theorem C01_bincount :
  forall szT szU n ml m p s m' p' s' mo po so mo' po' so',
  0 <= n ->
   same_elements n m p s m' p' s' -> writable mo po so (Z.to_nat ml) -> writable mo' po' so' (Z.to_nat ml) -> same_elements ml mo po so mo' po' so' ->
   (forall k x, 0 <= k < n -> m (p + k * s) = Some x -> 0 <= x -> 0 <= to_intp x) ->
   same_output ml (bincount_core_calc szT szU n ml m p s mo po so) mo po so (bincount_core_calc szT szU n ml m' p' s' mo' po' so') mo' po' so'.
Proof. exact @bincount_layout. Qed.
Print Assumptions C01_bincount.
Theorem C01_bincountw :
  forall {V} (add : V -> V -> V) n ml m p s m' p' s' mw pw sw mw' pw' sw' mo po so mo' po' so',
  0 <= n ->
   same_elements n m p s m' p' s' -> same_elements n mw pw sw mw' pw' sw' -> 
   writable mo po so (Z.to_nat ml) -> writable mo' po' so' (Z.to_nat ml) -> same_elements ml mo po so mo' po' so' ->
   (forall k x, 0 <= k < n -> m (p + k * s) = Some x -> 0 <= x -> 0 <= to_intp x) ->
   same_output ml (bincountw_core_calc add n ml m p s mw pw sw mo po so) mo po so (bincountw_core_calc add n ml m' p' s' mw' pw' sw' mo' po' so') mo' po' so'.
Proof. exact @bincountw_layout. Qed.
Print Assumptions C01_bincountw.

(** no element outside the array is read: the result is the same when every other cell is missing *)
Theorem C01_confined :
  forall {T R} n (f : mem T -> Z -> Z -> R),
  layout_free n f -> forall m p s, f m p s = f (only n m p s) p s.
Proof. exact @free_confined. Qed.
Print Assumptions C01_confined.
Theorem C01_nothing_else :
  forall {T} n (m : mem T) p s a,
  outside p s (Z.to_nat n) a -> only n m p s a = None.
Proof. exact @only_none. Qed.
Print Assumptions C01_nothing_else.

(** three elements 5, 2, 7 stored with stride -16 between other data, and contiguously *)
Example C01_example :
  let m a := if a =? 132 then Some 5 else if a =? 116 then Some 2 else if a =? 100 then Some 7 else if a =? 108 then Some 99 else None in
  same_elements 3 m 132 (-16) (mem_of 0 8 [5; 2; 7]) 0 8 /\
  minmax_core Zcmp 3 m 132 (-16) = Some (2, 7) /\ minmax_core Zcmp 3 (mem_of 0 8 [5; 2; 7]) 0 8 = Some (2, 7) /\
  writable (mem_of 64 8 [0; 0; 0]) 80 (-8) (Z.to_nat 3) /\ writable (mem_of 64 8 [0; 0; 0]) 64 8 (Z.to_nat 3) /\
  exists r r', hysteresis_relay_core Zcmp 3 m 132 (-16) 3 6 0 1 1 (mem_of 64 8 [0; 0; 0]) 80 (-8) = Some r /\
    hysteresis_relay_core Zcmp 3 (mem_of 0 8 [5; 2; 7]) 0 8 3 6 0 1 1 (mem_of 64 8 [0; 0; 0]) 64 8 = Some r' /\
    map r [80; 72; 64] = map Some [1; 0; 1] /\ map r' [64; 72; 80] = map Some [1; 0; 1].
Proof.
  cbn zeta. split; [|split; [|split; [|split; [|split]]]].
  - intros k H. assert (K : k = 0 \/ k = 1 \/ k = 2) by lia. repeat destruct K as [K|K]; subst k; reflexivity.
  - reflexivity.
  - reflexivity.
  - split; [|left; lia]. intros k H. do 3 (destruct k as [|k]; [vm_compute; discriminate|]). vm_compute in H. lia.
  - split; [|left; lia]. intros k H. do 3 (destruct k as [|k]; [vm_compute; discriminate|]). vm_compute in H. lia.
  - eexists _, _. split; [reflexivity|]. split; [reflexivity|]. split; reflexivity.
Qed.

(** ** C56.  The memory [m] of the empty array is arbitrary, so it may have no cell at all: nothing is read. *)
Theorem C56_select :
  forall {T : Type} (m : mem T) (p s : Z) (cmp : T -> T -> option comparison),
  (forall op t o, (0 <= op <= 5) -> first_core_calc cmp 0 m p s op t o = Some o) /\
  (forall op t, (0 <= op <= 5) -> argfirst_core_calc cmp 0 m p s op t = Some (-1)) /\
  (forall ne, all_same_core ne 0 m p s = Some true) /\
  (forall op, (0 <= op <= 5) -> ordered_core cmp 0 m p s op = Some true) /\
  (forall v, searchsortedl cmp m p 0 s v = Some 0 /\ searchsortedr cmp m p 0 s v = Some 0) /\
  (forall U (diff : T -> T -> M U) sz, peaktopeak_core cmp diff sz 0 m p s = Some None).
Proof. exact @empty_select. Qed.
Print Assumptions C56_select.
Theorem C56_percentileofscore :
  forall {T : Type} (m : mem T) (p s : Z) (cmp : T -> T -> option comparison) {D} (A : arith D) score kind,
  0 <= kind <= 3 ->
     exists c, percentileofscore_core_calc cmp A 0 m p s score kind = Some (Some (a_div A (a_mul A (a_ofZ A 0) (a_ofZ A c)) (a_ofZ A 0))).
Proof. exact @empty_percentileofscore. Qed.
Print Assumptions C56_percentileofscore.
Theorem C56_stat :
  forall {T : Type} (m : mem T) (p s : Z) (A : arith T),
  (forall sz, kbnsum_core_calc A sz 0 m p s = Some (kbn_sum A (kbn_zero A))) /\
  (forall sz, rms_core_calc A sz 0 m p s = Some (a_sqrt A (a_div A (a_ofZ A 0) (a_ofZ A 0)))) /\
  (forall sz my py sy, vdot_core_calc A sz 0 m p s my py sy = Some (a_ofZ A 0)) /\
  (forall lgamma sz, multivariate_logbeta_core A lgamma sz 0 m p s = Some (a_nan A)).
Proof. exact @empty_stat. Qed.
Print Assumptions C56_stat.
Theorem C56_signal :
  forall {T : Type} (m : mem T) (p s : Z) (A : arith T) (cmp : T -> T -> option comparison) mo po so,
  (forall a b c d e, hysteresis_relay_core cmp 0 m p s a b c d e mo po so = Some mo) /\
  (forall d i, backlash_core A 0 m p s d i mo po so = Some mo) /\
  (forall L (AL : arith L) up down, fillnan1d_core A AL up down 0 m p s mo po so = Some mo) /\
  (forall D (AD : arith D) up sb tr period, unwrap_core A AD up sb tr 0 m p s period mo po so = Some mo).
Proof. exact @empty_signal. Qed.
Print Assumptions C56_signal.
Theorem C56_softmax :
  forall {T : Type} (m : mem T) (p s : Z) (A : arith T) TR mo po so,
  softmax_core A TR 0 m p s mo po so = Some mo.
Proof. exact @empty_softmax. Qed.
Print Assumptions C56_softmax.
Theorem C56_backlash_sum :
  forall {T : Type} (m : mem T) (p s : Z) (A : arith T) mw pw sw md pd sd mi pi si mo po so mf pf sf,
  backlash_sum_core A 0 0 m p s mw pw sw md pd sd mi pi si mo po so mf pf sf = Some (mo, mf).
Proof. exact @empty_backlash_sum. Qed.
Print Assumptions C56_backlash_sum.
Theorem C56_sosfilter :
  forall {T : Type} (m : mem T) (p s : Z) (A : arith T) sz k ms ps ss0 ss1 mo po so,
  sosfilter_core A sz k 0 ms ps ss0 ss1 m p s mo po so = Some mo.
Proof. exact @empty_sosfilter. Qed.
Print Assumptions C56_sosfilter.
Theorem C56_int :
  forall m p s mo po so,
  (forall szT szU ml, bincount_core_calc szT szU 0 ml m p s mo po so = Some mo) /\
  (forall W (add : W -> W -> W) ml mw pw sw mo po so, bincountw_core_calc add 0 ml m p s mw pw sw mo po so = Some mo) /\
  (forall t k b, convert_to_base_core_calc t 0 k b mo po so = Some mo) /\
  (forall x, one_hot_core_calc 0 x mo po so = Some mo).
Proof. exact @empty_int. Qed.
Print Assumptions C56_int.
Theorem C56_interp :
  forall {T} (A : arith T) nloops mx px sx0 mxp pxp sxp0 xps mfp pfp sfp0 fps (mo : mem T) po so,
  sx0 <> 0 \/ sxp0 <> 0 ->
   interp_loop A nloops 0 mx px sx0 mxp pxp sxp0 xps mfp pfp sfp0 fps mo po so = for_each 0 nloops (fun j m => set m po so j (a_nan A)) mo.
Proof. exact @empty_interp. Qed.
Print Assumptions C56_interp.
Theorem C56_interp_refuted :
  forall {T} (A : arith T) (x : T),
  exists mx px,
   load mx px = Some x /\ forall nloops pxp xps mfp pfp sfp0 fps mo po so,
   interp_loop A nloops 0 mx px 0 no_memory pxp 0 xps mfp pfp sfp0 fps mo po so = None.
Proof. exact @empty_interp_refuted. Qed.
Print Assumptions C56_interp_refuted.

Example C56_example : first_core_calc Zcmp 0 no_memory 0 8 Py_GT 5 7 = Some 7 /\ searchsortedl Zcmp no_memory 0 0 8 3 = Some 0.
Proof. split; reflexivity. Qed.

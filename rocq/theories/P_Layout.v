(** * P_Layout: layout independence of the cores (C01) and empty core dimensions (C56) *)
From Coq Require Import ZArith List Bool Lia.
From Verif Require Import CSem CSemP Num M_Select M_Obj M_Int M_Signal M_Stat M_Means S_Layout.
Import ListNotations.
Open Scope Z_scope.

Section Free.
  Context {T : Type} (n : Z) (m m' : mem T) (p s p' s' : Z).
  Hypothesis E : same_elements n m p s m' p' s'.
  Lemma get_same k : 0 <= k < n -> get m p s k = get m' p' s' k.
  Proof. apply E. Qed.
  Lemma load_same : 0 < n -> load m p = load m' p'.
  Proof. intros H. pose proof (E 0 ltac:(lia)) as X. now rewrite !Z.mul_0_l, !Z.add_0_r in X. Qed.
End Free.

Lemma loop_from_ext {S R} (b1 b2 : Z -> S -> M (ctl S R)) : forall n k s,
  (forall j s, k <= j < k + Z.of_nat n -> b1 j s = b2 j s) -> loop_from n k b1 s = loop_from n k b2 s.
Proof.
  induction n as [|n IH]; intros k s H; cbn [loop_from]; [reflexivity|].
  rewrite (H k s) by lia. destruct (b2 k s) as [[s'|s'|r]|]; try reflexivity. apply IH. intros. apply H. lia.
Qed.
Lemma for_loop_ext {S R} lo hi (b1 b2 : Z -> S -> M (ctl S R)) s :
  (forall k s, lo <= k < hi -> b1 k s = b2 k s) -> for_loop lo hi b1 s = for_loop lo hi b2 s.
Proof. intros H. apply loop_from_ext. intros. apply H. lia. Qed.
Lemma int_for_each_ext {S} n (b1 b2 : Z -> S -> M S) s :
  (forall k s, 0 <= k < n -> b1 k s = b2 k s) -> int_for_each n b1 s = int_for_each n b2 s.
Proof. intros H. unfold int_for_each. destruct (n <=? INT_MAX); [|reflexivity]. now apply for_each_ext. Qed.
Lemma bind_ext {A B} (x y : M A) (f g : A -> M B) : x = y -> (forall a, f a = g a) -> bind x f = bind y g.
Proof. intros -> H. destruct y; [apply H|reflexivity]. Qed.

Ltac dup := repeat match goal with
  | |- context [let '(_, _) := ?x in _] => is_var x; destruct x
  end.
Ltac lay1 E :=
  lazymatch goal with
  | |- ?x = ?x => reflexivity
  | |- bind (get _ _ _ _) _ = bind (get _ _ _ _) _ => apply bind_ext; [apply (get_same _ _ _ _ _ _ _ E); lia|intros ?]
  | |- bind (load _ _) _ = bind (load _ _) _ => apply bind_ext; [first [apply (load_same _ _ _ _ _ _ _ E); lia|apply (get_same _ _ _ _ _ _ _ E); lia]|intros ?]
  | |- bind _ _ = bind _ _ => apply bind_ext; [|intros ?]
  | |- for_loop _ _ _ _ = for_loop _ _ _ _ => apply for_loop_ext; intros ? ? ?
  | |- for_each _ _ _ _ = for_each _ _ _ _ => apply for_each_ext; intros ? ? ?
  | |- int_for_each _ _ _ = int_for_each _ _ _ => apply int_for_each_ext; intros ? ? ?
  | |- (if ?b then _ else _) = (if ?b then _ else _) => let H := fresh in destruct b eqn:H
  | |- (let '(_, _) := ?x in _) = _ => destruct x
  | |- match ?x with _ => _ end = match ?x with _ => _ end => destruct x
  end.
Ltac lay E := cbn zeta; repeat (lay1 E; cbn zeta); try reflexivity.

(** ** selection and order *)
Section Sel.
  Context {T : Type} (cmp : T -> T -> option comparison).
  Lemma first_t_free OP n t o : layout_free n (fun m p s => first_t cmp OP n m p s t o).
  Proof. intros m p s m' p' s' E. unfold first_t. lay E. Qed.
  Theorem first_free n op t o : layout_free n (fun m p s => first_core_calc cmp n m p s op t o).
  Proof.
    intros m p s m' p' s' E. unfold first_core_calc. rewrite !(fun OP => first_t_free OP n t o m p s m' p' s' E). reflexivity.
  Qed.
  Lemma argfirst_t_free OP n t : layout_free n (fun m p s => argfirst_t cmp OP n m p s t).
  Proof. intros m p s m' p' s' E. unfold argfirst_t. lay E. Qed.
  Theorem argfirst_free n op t : layout_free n (fun m p s => argfirst_core_calc cmp n m p s op t).
  Proof.
    intros m p s m' p' s' E. unfold argfirst_core_calc. rewrite !(fun OP => argfirst_t_free OP n t m p s m' p' s' E). reflexivity.
  Qed.
  Theorem all_same_free n ne : layout_free n (fun m p s => all_same_core (T := T) ne n m p s).
  Proof. intros m p s m' p' s' E. unfold all_same_core. lay E. Qed.
  Theorem ordered_free n op : layout_free n (fun m p s => ordered_core cmp n m p s op).
  Proof. intros m p s m' p' s' E. unfold ordered_core, check_ordered. lay E. Qed.
  Theorem minmax_free n : 0 < n -> layout_free n (minmax_core cmp n) /\ layout_free n (argminmax_core cmp n) /\
    layout_free n (min_argmin_core cmp n) /\ layout_free n (max_argmax_core cmp n) /\
    layout_free n (argmin_core cmp n) /\ layout_free n (argmax_core cmp n).
  Proof.
    intros Hn. repeat split; intros m p s m' p' s' E;
    unfold minmax_core, argminmax_core, min_argmin_core, max_argmax_core, argmin_core, argmax_core; lay E.
  Qed.
  Lemma bisect_free gr v n (m : mem T) p s m' p' s' : same_elements n m p s m' p' s' -> forall fuel lo hi, 0 <= lo -> hi <= n ->
    bisect gr fuel m p s v lo hi = bisect gr fuel m' p' s' v lo hi.
  Proof.
    intros E. induction fuel as [|fuel IH]; intros lo hi Hl Hh; cbn [bisect]; [reflexivity|].
    destruct (Z.ltb_spec lo hi) as [L|L]; [|reflexivity].
    assert (B : lo <= Z.quot (lo + hi) 2 < hi).
    { rewrite Z.quot_div_nonneg by lia. split; [apply Z.div_le_lower_bound; lia|apply Z.div_lt_upper_bound; lia]. }
    apply bind_ext; [apply (get_same _ _ _ _ _ _ _ E); lia|]. intros x. destruct (gr x v); apply IH; lia.
  Qed.
  Theorem searchsorted_free n v : layout_free n (fun m p s => searchsortedl cmp m p n s v) /\
                                  layout_free n (fun m p s => searchsortedr cmp m p n s v).
  Proof. split; intros m p s m' p' s' E; apply (bisect_free _ _ _ _ _ _ _ _ _ E); lia. Qed.
  Theorem percentileofscore_free {D} (A : arith D) n score kind :
    layout_free n (fun m p s => percentileofscore_core_calc cmp A n m p s score kind).
  Proof. intros m p s m' p' s' E. unfold percentileofscore_core_calc, count. lay E. Qed.

  Lemma p2p_order (L : cmp_laws cmp) a b x : cmp a b <> Some Gt -> ltb cmp x a = true -> gtb cmp x b = true -> False.
  Proof.
    intros J H1 H2. apply J. unfold ltb, gtb in *.
    destruct (cmp x a) as [[| |]|] eqn:C1; try discriminate. destruct (cmp x b) as [[| |]|] eqn:C2; try discriminate.
    assert (C3 : cmp b x = Some Lt) by (rewrite (cmp_swap _ L x b), C2; reflexivity).
    rewrite (cmp_swap _ L b a), (cmp_lt_trans _ L b x a C3 C1). reflexivity.
  Qed.
  Lemma p2p_scan_eq (L : cmp_laws cmp) sz n (m : mem T) p : p2p_scan_contig cmp sz n m p = p2p_scan cmp sz n m p.
  Proof.
    unfold p2p_scan_contig, p2p_scan. apply bind_ext; [reflexivity|]. intros x0. unfold for_each.
    assert (J : cmp x0 x0 <> Some Gt) by (destruct (cmp_refl _ L x0) as [->| ->]; discriminate).
    generalize (Z.to_nat (n - 1)). intros k. revert J. generalize 1. generalize x0 at 1 3 5 as a. generalize x0 as b.
    induction k as [|k IH]; intros b a j J; cbn [iter_from]; [reflexivity|].
    destruct (get m p sz j) as [x|]; cbn [bind]; [|reflexivity]. unfold ret. cbn [bind].
    destruct (ltb cmp x a) eqn:C1, (gtb cmp x b) eqn:C2.
    - exfalso. exact (p2p_order L a b x J C1 C2).
    - apply IH. intros G. unfold gtb in C2. rewrite G in C2. discriminate.
    - apply IH. intros G. unfold ltb in C1. rewrite (cmp_swap _ L a x), G in C1. discriminate.
    - now apply IH.
  Qed.
  Theorem peaktopeak_free {U} (diff : T -> T -> M U) sz n : cmp_laws cmp -> 0 <= n ->
    layout_free n (fun m p s => peaktopeak_core cmp diff sz n m p s).
  Proof.
    intros L Hn m p s m' p' s' E. unfold peaktopeak_core. destruct (Z.eqb_spec n 0) as [->|N0]; [reflexivity|].
    apply bind_ext; [|reflexivity].
    transitivity (p2p_scan cmp s n m p); [destruct (Z.eqb_spec s sz) as [->|]; [now apply p2p_scan_eq|reflexivity]|].
    transitivity (p2p_scan cmp s' n m' p'); [|destruct (Z.eqb_spec s' sz) as [->|]; [symmetry; now apply p2p_scan_eq|reflexivity]].
    unfold p2p_scan. lay E.
  Qed.
End Sel.

(** ** object cores: also the comparisons made, in the same order *)
Section ObjFree.
  Context (O : oracle).
  Theorem object_free n w : 
    (forall op t o, layout_free n (fun m p s => first_core_calc_object O n m p s op t o w)) /\
    (forall op t, layout_free n (fun m p s => argfirst_core_calc_object O n m p s op t w)) /\
    layout_free n (fun m p s => all_same_core_object O n m p s w) /\
    (forall op, layout_free n (fun m p s => ordered_core_object O n m p s op w)) /\
    (0 < n -> layout_free n (fun m p s => min_argmin_object_core O n m p s w) /\ layout_free n (fun m p s => max_argmax_object_core O n m p s w) /\
       layout_free n (fun m p s => argmin_object_core O n m p s w) /\ layout_free n (fun m p s => argmax_object_core O n m p s w) /\
       layout_free n (fun m p s => minmax_object_core O n m p s w) /\ layout_free n (fun m p s => argminmax_object_core O n m p s w) /\
       forall sub, layout_free n (fun m p s => peaktopeak_object O sub n m p s w)).
  Proof.
    assert (X : 0 < n -> forall op, layout_free n (fun m p s => ext_argext_object O op n m p s w))
      by (intros Hn op m p s m' p' s' E; unfold ext_argext_object; lay E).
    assert (Y : 0 < n -> layout_free n (fun m p s => minmax_scan_object O n m p s w))
      by (intros Hn m p s m' p' s' E; unfold minmax_scan_object; lay E).
    repeat split; intros; intros m p s m' p' s' E;
    unfold first_core_calc_object, argfirst_core_calc_object, all_same_core_object, ordered_core_object; try solve [lay E];
    unfold min_argmin_object_core, max_argmax_object_core, argmin_object_core, argmax_object_core, minmax_object_core, argminmax_object_core, peaktopeak_object;
    try (apply bind_ext; [|reflexivity]); first [now apply X|now apply Y].
  Qed.
End ObjFree.

(** ** statistics *)
Section StatFree.
  (** without an infinite element; with one, the remaining elements are read at the wrong addresses *)
  Theorem kbnsum_free_partial {T} (A : arith T) sz n (m : mem T) p s m' p' s' :
    (forall k x, 0 <= k < n -> m (p + k * s) = Some x -> a_isinf A x = false) ->
    same_elements n m p s m' p' s' ->
    kbnsum_core_calc A sz n m p s = kbnsum_core_calc A sz n m' p' s'.
  Proof.
    intros F E. unfold kbnsum_core_calc. apply bind_ext; [|reflexivity]. apply for_loop_ext. intros k st Hk.
    rewrite <- (get_same _ _ _ _ _ _ _ E k Hk). destruct (get m p s k) as [x|] eqn:G; [|reflexivity]. cbn [bind].
    rewrite (F k x Hk G). reflexivity.
  Qed.
  Theorem meanvar_free {T U} (A : arith U) (up : T -> U) n ddof mo po so : layout_free n (fun m p s => meanvar_core A up n m p s ddof mo po so).
  Proof. intros m p s m' p' s' E. unfold meanvar_core. lay E. Qed.
  Theorem mad_free {T} (A : arith T) sortf n u : layout_free n (fun m p s => mad_core A sortf n m p s u) /\
    layout_free n (fun m p s => gini_core A sortf n m p s u) /\ layout_free n (fun m p s => rmad_core A sortf n m p s u).
  Proof.
    assert (X : layout_free n (fun m p s => unnormalized_mad A sortf n m p s))
      by (intros m p s m' p' s' E; unfold unnormalized_mad, mad_copy; lay E).
    repeat split; intros m p s m' p' s' E; unfold rmad_core, mad_core, gini_core; rewrite (X m p s m' p' s' E); reflexivity.
  Qed.
  Theorem vnorm_free {T U} (A : arith U) TR (absf : T -> U) n order : layout_free n (fun m p s => vnorm_core_calc A TR absf n m p s order).
  Proof. intros m p s m' p' s' E. unfold vnorm_core_calc. lay E. Qed.
  Theorem rms_free {T} (A : arith T) sz n : layout_free n (rms_core_calc A sz n).
  Proof.
    assert (X : forall m p s, rms_core_calc A sz n m p s =
      bind (for_each 0 n (fun k sum => bind (get m p s k) (fun x => ret (a_add A sum (a_mul A x x)))) (a_ofZ A 0)) (fun sum => ret (a_sqrt A (a_div A sum (a_ofZ A n))))).
    { intros m p s. unfold rms_core_calc, rms_core_contig. destruct (Z.eqb_spec s sz) as [->|]; [|reflexivity].
      unfold get. destruct (for_each 0 n _ _); reflexivity. }
    intros m p s m' p' s' E. rewrite !X. lay E.
  Qed.
  Theorem vdot_free {T} (A : arith T) sz n m p s m' p' s' my py sy my' py' sy' :
    same_elements n m p s m' p' s' -> same_elements n my py sy my' py' sy' ->
    vdot_core_calc A sz n m p s my py sy = vdot_core_calc A sz n m' p' s' my' py' sy'.
  Proof.
    intros E1 E2.
    assert (X : forall m p s my py sy, vdot_core_calc A sz n m p s my py sy = int_for_each n (fun k sum =>
        bind (get m p s k) (fun x => bind (get my py sy k) (fun y => ret (a_add A sum (a_mul A x y))))) (a_ofZ A 0)).
    { intros. unfold vdot_core_calc. destruct (Z.eqb_spec s0 sz) as [->|], (Z.eqb_spec sy0 sz) as [->|]; reflexivity. }
    rewrite !X. apply int_for_each_ext. intros k sum Hk.
    apply bind_ext; [now apply (get_same _ _ _ _ _ _ _ E1)|]. intros x. lay E2.
  Qed.
  Theorem pearson_corr_free {T U} (A : arith U) (up : T -> U) cmpT bad n m p s m' p' s' my py sy my' py' sy' : 2 <= n ->
    same_elements n m p s m' p' s' -> same_elements n my py sy my' py' sy' ->
    pearson_corr_core A up cmpT bad n m p s my py sy = pearson_corr_core A up cmpT bad n m' p' s' my' py' sy'.
  Proof.
    intros Hn E1 E2. unfold pearson_corr_core, corr_two, corr_general.
    destruct (Z.eqb_spec n 1) as [->|]; [lia|]. destruct (Z.eqb_spec n 2) as [->|].
    - repeat first [apply bind_ext; [first [apply (get_same _ _ _ _ _ _ _ E1); lia|apply (load_same _ _ _ _ _ _ _ E1); lia
        |apply (get_same _ _ _ _ _ _ _ E2); lia|apply (load_same _ _ _ _ _ _ _ E2); lia]|intros ?]|match goal with |- (if ?b then _ else _) = _ => destruct b end]; reflexivity.
    - assert (S1 : forall m p s m' p' s', same_elements n m p s m' p' s' -> strided_mean A up n m p s = strided_mean A up n m' p' s')
        by (intros ? ? ? ? ? ? E; unfold strided_mean; lay E).
      assert (S2 : forall v m p s m' p' s', same_elements n m p s m' p' s' -> strided_delta_maxabs A up n m p s v = strided_delta_maxabs A up n m' p' s' v)
        by (intros ? ? ? ? ? ? ? E; unfold strided_delta_maxabs; lay E).
      assert (S3 : forall v w m p s m' p' s', same_elements n m p s m' p' s' -> strided_delta_norm A up n m p s v w = strided_delta_norm A up n m' p' s' v w)
        by (intros ? ? ? ? ? ? ? ? E; unfold strided_delta_norm; lay E).
      apply bind_ext; [now apply S1|]. intros xm. apply bind_ext; [now apply S2|]. intros xmax. destruct (eqb (a_cmp A) xmax (a_ofZ A 0)); [reflexivity|].
      apply bind_ext; [now apply S3|]. intros xn. apply bind_ext; [now apply S1|]. intros ym. apply bind_ext; [now apply S2|]. intros ymax.
      destruct (eqb (a_cmp A) ymax (a_ofZ A 0)); [reflexivity|]. apply bind_ext; [now apply S3|]. intros yn.
      apply for_each_ext. intros k r Hk. apply bind_ext; [now apply (get_same _ _ _ _ _ _ _ E1)|]. intros x. lay E2.
  Qed.
  Theorem wjaccard_free {T U} (A : arith U) (up : T -> U) cmpT n m p s m' p' s' my py sy my' py' sy' : 0 < n ->
    same_elements n m p s m' p' s' -> same_elements n my py sy my' py' sy' ->
    wjaccard_core A up cmpT n m p s my py sy = wjaccard_core A up cmpT n m' p' s' my' py' sy'.
  Proof.
    intros Hn E1 E2. unfold wjaccard_core. apply bind_ext; [now apply (load_same _ _ _ _ _ _ _ E1)|]. intros x0.
    apply bind_ext; [now apply (load_same _ _ _ _ _ _ _ E2)|]. intros y0. destruct (isnanb cmpT x0 || isnanb cmpT y0); [reflexivity|].
    apply bind_ext; [|reflexivity]. apply for_loop_ext. intros k [a b] Hk.
    apply bind_ext; [apply (get_same _ _ _ _ _ _ _ E1); lia|]. intros x. lay E2.
  Qed.
  Theorem logbeta_free {T} (A : arith T) lgamma sz n : layout_free n (multivariate_logbeta_core A lgamma sz n).
  Proof.
    assert (X : forall m p s, multivariate_logbeta_core A lgamma sz n m p s = if n =? 0 then ret (a_nan A) else logbeta_loop A lgamma n m p s).
    { intros. unfold multivariate_logbeta_core. destruct (Z.eqb_spec s sz) as [->|]; reflexivity. }
    intros m p s m' p' s' E. rewrite !X. unfold logbeta_loop. destruct (n =? 0); [reflexivity|]. lay E.
  Qed.
End StatFree.

(** ** means *)
Section MeansFree.
  Context {T D W L : Type} (A : arith T) (AW : arith W) (AL : arith L) (TR : transc T).
  Context (powD : D -> D -> D) (t2d : T -> D) (d2w : D -> W) (t2w : T -> W) (w2t : W -> T) (t2l : T -> L) (l2t : L -> T) (thr half : W).
  Lemma gmean_free n : layout_free n (gmean_1d A TR n).
  Proof. intros m p s m' p' s' E. unfold gmean_1d. lay E. Qed.
  Lemma hmean_free n : layout_free n (hmean_row A AL t2l l2t n).
  Proof. intros m p s m' p' s' E. unfold hmean_row. lay E. Qed.
  Lemma p_scan_free n : layout_free n (p_scan A n).
  Proof. intros m p s m' p' s' E. unfold p_scan. lay E. Qed.
  Lemma p_cases_ext q st (r r' : T -> T -> M T) : (forall a b, r a b = r' a b) -> p_cases A q st r = p_cases A q st r'.
  Proof. intros H. unfold p_cases. lay H. apply H. Qed.
  Lemma pmean_free n q : layout_free n (fun m p s => pmean_row A AW AL TR powD t2d d2w t2w w2t t2l l2t thr half n m p s q).
  Proof.
    intros m p s m' p' s' E. unfold pmean_row.
    rewrite (gmean_free n m p s m' p' s' E), (hmean_free n m p s m' p' s' E), (p_scan_free n m p s m' p' s' E). lay E.
    apply p_cases_ext. intros xmax xmin. lay E.
  Qed.
  Section Weighted.
    Context (n : Z) (m m' : mem T) (p s p' s' : Z) (mw mw' : mem T) (pw sw pw' sw' : Z).
    Hypothesis E1 : same_elements n m p s m' p' s'.
    Hypothesis E2 : same_elements n mw pw sw mw' pw' sw'.
    Lemma gmeanw_free : gmeanw_1d A TR n m p s mw pw sw = gmeanw_1d A TR n m' p' s' mw' pw' sw'.
    Proof.
      unfold gmeanw_1d. apply bind_ext; [|reflexivity]. apply for_loop_ext. intros k [g w] Hk.
      apply bind_ext; [now apply (get_same _ _ _ _ _ _ _ E1)|]. intros x. lay E2.
    Qed.
    Lemma hmeanw_free : hmeanw_1d A n m p s mw pw sw = hmeanw_1d A n m' p' s' mw' pw' sw'.
    Proof.
      unfold hmeanw_1d. apply bind_ext; [|reflexivity]. apply for_loop_ext. intros k [g w] Hk.
      apply bind_ext; [now apply (get_same _ _ _ _ _ _ _ E1)|]. intros x. lay E2.
    Qed.
    Lemma pmeanw_free q : pmeanw_row A AW TR powD t2d d2w t2w w2t thr half n m p s mw pw sw q = pmeanw_row A AW TR powD t2d d2w t2w w2t thr half n m' p' s' mw' pw' sw' q.
    Proof.
      unfold pmeanw_row. rewrite gmeanw_free, hmeanw_free, (p_scan_free n m p s m' p' s' E1).
      destruct (isnanb (a_cmp A) q); [reflexivity|]. destruct (ltb (a_cmp AW) (t2w (a_abs A q)) thr).
      - apply bind_ext; [reflexivity|]. intros gm. destruct (negb (eqb (a_cmp A) q (a_ofZ A 0))); [|reflexivity].
        apply bind_ext; [|reflexivity]. apply for_each_ext. intros k [[a b] c] Hk.
        apply bind_ext; [now apply (get_same _ _ _ _ _ _ _ E1)|]. intros x. lay E2.
      - destruct (eqb (a_cmp A) q (a_ofZ A (-1))); [reflexivity|]. apply bind_ext; [reflexivity|]. intros st.
        apply p_cases_ext. intros xmax xmin. cbn zeta. apply bind_ext; [|reflexivity]. apply for_each_ext. intros k [a b] Hk.
        apply bind_ext; [now apply (get_same _ _ _ _ _ _ _ E1)|]. intros x. lay E2.
    Qed.
  End Weighted.
End MeansFree.


(** ** cores with an output array *)
Lemma both_bind {A A' B B'} (R : A -> A' -> Prop) (Q : B -> B' -> Prop) x x' f f' :
  both R x x' -> (forall a a', R a a' -> both Q (f a) (f' a')) -> both Q (bind x f) (bind x' f').
Proof. destruct x, x'; cbn; auto; contradiction. Qed.
Lemma both_impl {A B} (R Q : A -> B -> Prop) x y : (forall a b, R a b -> Q a b) -> both R x y -> both Q x y.
Proof. destruct x, y; cbn; auto. Qed.
Lemma both_for_each {S S'} (I : Z -> S -> S' -> Prop) lo hi b b' s s' : lo <= hi -> I lo s s' ->
  (forall k s s', lo <= k < hi -> I k s s' -> both (I (k + 1)) (b k s) (b' k s')) ->
  both (I hi) (for_each lo hi b s) (for_each lo hi b' s').
Proof.
  intros L I0 H. unfold for_each. remember (Z.to_nat (hi - lo)) as n eqn:En. assert (EH : hi = lo + Z.of_nat n) by lia. clear En L. subst hi.
  revert lo s s' I0 H. induction n as [|n IH]; intros lo s s' I0 H.
  - cbn [iter_from]. rewrite Z.add_0_r. exact I0.
  - cbn [iter_from]. eapply both_bind; [apply H; [lia|exact I0]|]. intros a a' Ha. cbn beta.
    replace (lo + Z.of_nat (Datatypes.S n)) with (lo + 1 + Z.of_nat n) by lia. apply (IH (lo + 1)); [exact Ha|].
    intros k t t' Hk. apply H. lia.
Qed.

Lemma both_for_loop {S S' R R'} (I : Z -> S -> S' -> Prop) (Q : S -> S' -> Prop) lo hi (b : Z -> S -> M (ctl S R)) (b' : Z -> S' -> M (ctl S' R')) s s' :
  lo <= hi -> (forall s s', I hi s s' -> Q s s') -> I lo s s' ->
  (forall k s s', lo <= k < hi -> I k s s' ->
     both (fun c c' => match c, c' with Next a, Next a' => I (k + 1) a a' | Brk a, Brk a' => Q a a' | _, _ => False end) (b k s) (b' k s')) ->
  both (fun r r' => match r, r' with inl a, inl a' => Q a a' | _, _ => False end) (for_loop lo hi b s) (for_loop lo hi b' s').
Proof.
  intros L HQ I0 H. unfold for_loop. remember (Z.to_nat (hi - lo)) as n eqn:En. assert (EH : hi = lo + Z.of_nat n) by lia. clear En L. subst hi.
  revert lo s s' I0 H HQ. induction n as [|n IH]; intros lo s s' I0 H HQ; cbn [loop_from].
  - apply HQ. rewrite Z.add_0_r. exact I0.
  - specialize (H lo s s' ltac:(lia) I0) as H0. destruct (b lo s) as [c|], (b' lo s') as [c'|]; cbn [both] in H0; try contradiction; [|exact Logic.I].
    destruct c as [a|a|a], c' as [a'|a'|a']; try contradiction; [|exact H0].
    apply (IH (lo + 1)); [exact H0| |].
    + intros k t t' Hk. apply H. lia.
    + intros t t' X. apply HQ. replace (lo + Z.of_nat (Datatypes.S n)) with (lo + 1 + Z.of_nat n) by lia. exact X.
Qed.
Section Wr.
  Context {T : Type} (n : Z).
  Lemma wr_at (m : mem T) p s k : writable m p s (Z.to_nat n) -> 0 <= k < n -> exists x, m (p + k * s) = Some x.
  Proof. intros [W _] H. specialize (W (Z.to_nat k) ltac:(lia)). rewrite Z2Nat.id in W by lia. destruct (m (p + k * s)); [eauto|congruence]. Qed.
  Lemma wr_inj (m : mem T) p s j k : writable m p s (Z.to_nat n) -> 0 <= j < n -> 0 <= k < n -> p + j * s = p + k * s -> j = k.
  Proof. intros [_ [W|W]] J K H; [|lia]. assert (Q : (j - k) * s = 0) by lia. apply Z.mul_eq_0 in Q. lia. Qed.
  Definition upd (m : mem T) a v : mem T := fun b => if b =? a then Some v else m b.
  Lemma upd_wr (m : mem T) p s k v : writable m p s (Z.to_nat n) -> 0 <= k < n -> writable (upd m (p + k * s) v) p s (Z.to_nat n).
  Proof. intros [W1 W2] H. split; [|exact W2]. intros j Hj. unfold upd. destruct (_ =? _); [discriminate|now apply W1]. Qed.
  Lemma upd_fr (m m0 : mem T) p s k v : frame n m0 p s m -> 0 <= k < n -> frame n m0 p s (upd m (p + k * s) v).
  Proof.
    intros F H a Ha. unfold upd. specialize (Ha (Z.to_nat k) ltac:(lia)) as N. rewrite Z2Nat.id in N by lia.
    destruct (Z.eqb_spec a (p + k * s)); [contradiction|now apply F].
  Qed.
End Wr.

Section Sync.
  Context {T : Type} (n : Z) (m0 : mem T) (p s : Z) (m0' : mem T) (p' s' : Z).
  (** the elements with index in [D] are the same in the two output arrays *)
  Definition sync (D : Z -> Prop) (r r' : mem T) : Prop :=
    writable r p s (Z.to_nat n) /\ writable r' p' s' (Z.to_nat n) /\ frame n m0 p s r /\ frame n m0' p' s' r' /\
    forall k, 0 <= k < n -> D k -> r (p + k * s) = r' (p' + k * s').
  Lemma sync_start : writable m0 p s (Z.to_nat n) -> writable m0' p' s' (Z.to_nat n) -> sync (fun _ => False) m0 m0'.
  Proof. intros W W'. repeat split; auto; try apply W; try apply W'; intros; contradiction. Qed.
  Lemma sync_update : writable m0 p s (Z.to_nat n) -> writable m0' p' s' (Z.to_nat n) -> same_elements n m0 p s m0' p' s' -> sync (fun _ => True) m0 m0'.
  Proof. intros W W' E. repeat split; auto; try apply W; try apply W'; intros; now apply E. Qed.
  Lemma sync_weaken (D D' : Z -> Prop) r r' : (forall k, 0 <= k < n -> D' k -> D k) -> sync D r r' -> sync D' r r'.
  Proof. intros H (W & W' & F & F' & E). repeat split; auto; try apply W; try apply W'. Qed.
  Lemma sync_out (D : Z -> Prop) (x y : M (mem T)) : (forall k, 0 <= k < n -> D k) -> both (sync D) x y -> same_output n x m0 p s y m0' p' s'.
  Proof. intros H. apply both_impl. intros r r' (W & W' & F & F' & E). repeat split; auto. intros k Hk. apply E; auto. Qed.
  Lemma set_sync D r r' k v : sync D r r' -> 0 <= k < n -> both (sync (fun j => D j \/ j = k)) (set r p s k v) (set r' p' s' k v).
  Proof.
    intros (W & W' & F & F' & E) H. unfold set, store. destruct (wr_at n r p s k W H) as [x ->], (wr_at n r' p' s' k W' H) as [x' ->]. cbn [both].
    fold (upd r (p + k * s) v). fold (upd r' (p' + k * s') v).
    split; [now apply upd_wr|]. split; [now apply upd_wr|]. split; [now apply upd_fr|]. split; [now apply upd_fr|].
    intros j Hj Dj. unfold upd. destruct (Z.eqb_spec (p + j * s) (p + k * s)) as [e|e].
    - pose proof (wr_inj n r p s j k W Hj H e). subst j. now rewrite Z.eqb_refl.
    - destruct (Z.eqb_spec (p' + j * s') (p' + k * s')) as [e'|e'].
      + pose proof (wr_inj n r' p' s' j k W' Hj H e'). subst j. contradiction.
      + destruct Dj as [Dj|Dj]; [now apply E|]. subst j. contradiction.
  Qed.
  Lemma get_sync (D : Z -> Prop) r r' k : sync D r r' -> 0 <= k < n -> D k -> get r p s k = get r' p' s' k.
  Proof. intros (_ & _ & _ & _ & E) H Hd. now apply E. Qed.
  (** a loop that stores [v k] into every element from [lo] to [hi] *)
  Lemma fill_sync D lo hi v r r' : sync D r r' -> 0 <= lo -> hi <= n -> 
    both (sync (fun j => D j \/ lo <= j < hi)) (for_each lo hi (fun k m => set m p s k (v k)) r) (for_each lo hi (fun k m => set m p' s' k (v k)) r').
  Proof.
    intros S H1 H2. destruct (Z_le_gt_dec lo hi) as [L|G].
    - apply (both_for_each (fun k => sync (fun j => D j \/ lo <= j < k))); [exact L|eapply sync_weaken; [|exact S]; intros k Hk [X|X]; [exact X|lia]|].
      intros k m m' Hk Hs. eapply both_impl; [|apply set_sync; [exact Hs|lia]]. intros a b. apply sync_weaken. intros j Hj [X|X]; [tauto|]. destruct (Z.eq_dec j k); [tauto|]. left. right. lia.
    - unfold for_each. replace (Z.to_nat (hi - lo)) with 0%nat by lia. cbn. eapply sync_weaken; [|exact S]. intros k Hk [X|X]; [exact X|lia].
  Qed.
End Sync.
Arguments sync {T} n m0 p s m0' p' s' D r r'.

Section Out.
  Context {T : Type} (n : Z) (m : mem T) (p s : Z) (m' : mem T) (p' s' : Z) (mo : mem T) (po so : Z) (mo' : mem T) (po' so' : Z).
  Hypothesis Hn : 0 <= n.
  Hypothesis E : same_elements n m p s m' p' s'.
  Hypothesis W : writable mo po so (Z.to_nat n).
  Hypothesis W' : writable mo' po' so' (Z.to_nat n).
  Notation sync := (sync n mo po so mo' po' so').
  Ltac stp := eapply both_impl; [|apply set_sync; [eassumption|lia]]; intros ? ?; apply sync_weaken; intros ? ? ?; lia.

  Theorem hysteresis_relay_layout (cmp : T -> T -> option comparison) a b c d e :
    same_output n (hysteresis_relay_core cmp n m p s a b c d e mo po so) mo po so
                  (hysteresis_relay_core cmp n m' p' s' a b c d e mo' po' so') mo' po' so'.
  Proof.
    apply (sync_out n mo po so mo' po' so' (fun j => j < n)); [lia|]. unfold hysteresis_relay_core.
    apply (both_for_each (fun k => sync (fun j => j < k))); [exact Hn|eapply sync_weaken; [|apply sync_start; assumption]; intros; lia|].
    intros k r r' Hk S. rewrite (get_same _ _ _ _ _ _ _ E k Hk). destruct (get m' p' s' k) as [x|]; cbn [bind]; [|exact I].
    destruct (ltb cmp x a); [stp|]. destruct (gtb cmp x b); [stp|]. destruct (Z.eqb_spec k 0); [stp|].
    rewrite (get_sync _ _ _ _ _ _ _ _ _ _ (k - 1) S) by lia. destruct (get r' po' so' (k - 1)); cbn [bind]; [stp|exact I].
  Qed.
  Theorem backlash_layout (A : arith T) d i :
    same_output n (backlash_core A n m p s d i mo po so) mo po so (backlash_core A n m' p' s' d i mo' po' so') mo' po' so'.
  Proof.
    apply (sync_out n mo po so mo' po' so' (fun j => j < n)); [lia|]. unfold backlash_core. cbn zeta.
    eapply both_bind.
    - apply (both_for_each (fun k st st' => sync (fun j => j < k) (fst st) (fst st') /\ snd st = snd st')); [exact Hn|cbn [fst snd]; split; [|reflexivity]; eapply sync_weaken; [|apply sync_start; assumption]; intros; lia|].
      intros k [r y] [r' y'] Hk [S Y]. cbn [fst snd] in *. subst y'. rewrite (get_same _ _ _ _ _ _ _ E k Hk). destruct (get m' p' s' k) as [x|]; cbn [bind]; [|exact I].
      eapply both_bind; [apply set_sync; [exact S|lia]|]. intros a a' Ha. cbn [both ret fst snd]. split; [|reflexivity].
      eapply sync_weaken; [|exact Ha]. intros; cbn beta in *; lia.
    - intros [r y] [r' y'] [S _]. exact S.
  Qed.
  Lemma fillnan_find_range (A : arith T) k : fillnan_find A n m' p' s' = Some k -> 0 <= k <= n.
  Proof.
    unfold fillnan_find, for_loop. rewrite Z.sub_0_r. intros H.
    assert (X : forall q j acc r, loop_from q j (fun k (_ : Z) => bind (get m' p' s' k) (fun x => ret (if isnanb (a_cmp A) x then @Next Z Z (k + 1) else Brk k))) acc = Some r ->
      acc = j -> j <= match r with inl k => k | inr k => k end <= j + Z.of_nat q).
    { induction q as [|q IH]; intros j acc r X E1; cbn [loop_from] in X; [injection X as <-; lia|].
      destruct (get m' p' s' j) as [x|]; [|discriminate]. cbn [bind] in X. unfold ret in X at 1. destruct (isnanb (a_cmp A) x).
      - specialize (IH (j + 1) (j + 1) r X eq_refl). lia.
      - injection X as <-. lia. }
    destruct (loop_from _ _ _ _) as [r|] eqn:R; [|discriminate]. specialize (X _ _ _ _ R eq_refl). cbn [bind ret] in H. injection H as <-. lia.
  Qed.
  Theorem fillnan1d_layout {L} (A : arith T) (AL : arith L) up down :
    same_output n (fillnan1d_core A AL up down n m p s mo po so) mo po so (fillnan1d_core A AL up down n m' p' s' mo' po' so') mo' po' so'.
  Proof.
    apply (sync_out n mo po so mo' po' so' (fun j => j < n)); [lia|]. unfold fillnan1d_core.
    assert (F : fillnan_find A n m p s = fillnan_find A n m' p' s') by (unfold fillnan_find; lay E). rewrite F. clear F.
    destruct (fillnan_find A n m' p' s') as [k|] eqn:F; [|exact I]. cbn [bind].
    pose proof (fillnan_find_range A k F) as B. pose proof (sync_start n mo po so mo' po' so' W W') as S0.
    destruct (Z.eqb_spec k n) as [->|N].
    { eapply both_impl; [|eapply (fill_sync n mo po so mo' po' so' _ 0 n (fun _ => a_nan A)); [exact S0|lia|lia]]. intros ? ?. apply sync_weaken. lia. }
    rewrite (get_same _ _ _ _ _ _ _ E k) by lia. destruct (get m' p' s' k) as [lv|]; cbn [bind]; [|exact I].
    eapply both_bind; [eapply (fill_sync n mo po so mo' po' so' _ 0 (k + 1) (fun _ => lv)); [exact S0|lia|lia]|]. intros r r' S1. cbn beta.
    eapply both_bind.
    - apply (both_for_each (fun q st st' => sync (fun j => j <= snd st) (fst (fst st)) (fst (fst st')) /\ snd (fst st) = snd (fst st') /\ snd st = snd st' /\ 0 <= snd st < q)); [lia| |].
      { cbn [fst snd]. split; [|split; [reflexivity|split; [reflexivity|lia]]]. eapply sync_weaken; [|exact S1]. intros. right. lia. }
      intros q [[a v] i] [[a' v'] i'] Hq (S & V & I1 & I2). cbn [fst snd] in *. subst v' i'. unfold fillnan_body.
      rewrite (get_same _ _ _ _ _ _ _ E q) by lia. destruct (get m' p' s' q) as [x|]; cbn [bind]; [|exact I].
      destruct (isnanb (a_cmp A) x); [cbn; repeat split; try lia; apply S|].
      eapply both_bind; [apply set_sync; [exact S|lia]|]. intros b b' Sb. cbn beta.
      eapply both_bind with (R := sync (fun j => j <= q)).
      + destruct (Z.eqb_spec i (q - 1)) as [->|Ni]; cbn [negb].
        * eapply sync_weaken; [|exact Sb]. cbn beta. intros; lia.
        * eapply both_impl; [|apply (both_for_each (fun t => sync (fun j => j < i + t \/ j = q)) 1 (q - i))]; [intros ? ?; apply sync_weaken; intros; lia|lia|eapply sync_weaken; [|exact Sb]; cbn beta; intros; lia|].
          intros t c c' Ht Sc. eapply both_impl; [|apply set_sync; [exact Sc|lia]]. intros ? ?. apply sync_weaken. intros; lia.
      + intros c c' Sc. cbn. repeat split; try lia; apply Sc.
    - intros [[a v] i] [[a' v'] i'] (S & V & I1 & I2). cbn [fst snd] in *. subst v' i'.
      destruct (negb (i =? n)) eqn:Q.
      + eapply both_impl; [|eapply (fill_sync n mo po so mo' po' so' _ (i + 1) n (fun _ => v)); [exact S|lia|lia]]. intros ? ?. apply sync_weaken. intros; lia.
      + apply negb_false_iff, Z.eqb_eq in Q. lia.
  Qed.

  Theorem unwrap_layout {D} (A : arith T) (AD : arith D) up signbit trunc period :
    same_output n (unwrap_core A AD up signbit trunc n m p s period mo po so) mo po so
                  (unwrap_core A AD up signbit trunc n m' p' s' period mo' po' so') mo' po' so'.
  Proof.
    apply (sync_out n mo po so mo' po' so' (fun j => j < n)); [lia|]. unfold unwrap_core.
    pose proof (sync_start n mo po so mo' po' so' W W') as S0.
    destruct (Z.ltb_spec n 1); [eapply sync_weaken; [|exact S0]; lia|].
    rewrite (load_same _ _ _ _ _ _ _ E) by lia. destruct (load m' p') as [x0|]; cbn [bind]; [|exact I].
    eapply both_bind with (R := sync (fun j => j < 1)).
    { pose proof (set_sync n mo po so mo' po' so' _ mo mo' 0 x0 S0 ltac:(lia)) as X. unfold set in X. rewrite !Z.mul_0_l, !Z.add_0_r in X.
      eapply both_impl; [|exact X]. intros ? ?. apply sync_weaken. lia. }
    intros r r' S1. eapply both_bind.
    - apply (both_for_loop (fun k st st' => sync (fun j => j < k) (fst st) (fst st') /\ snd st = snd st')
               (fun st st' => sync (fun j => j < n) (fst st) (fst st'))); [lia| |split; [exact S1|reflexivity]|].
      { intros st st' [X _]. exact X. }
      intros k [a x] [a' x'] Hk [Sa X]. cbn [fst snd] in *. subst x'. rewrite (get_same _ _ _ _ _ _ _ E k) by lia.
      destruct (get m' p' s' k) as [x1|]; cbn [bind]; [|exact I]. destruct (isfinite A x1); cbn [negb].
      + destruct (unwrap1 A AD up signbit trunc x x1 period) as [y|]; cbn [bind]; [|exact I].
        eapply both_bind; [apply set_sync; [exact Sa|lia]|]. intros b b' Sb. cbn. split; [|reflexivity]. eapply sync_weaken; [|exact Sb]. cbn beta. intros; lia.
      + eapply both_bind; [eapply (fill_sync n mo po so mo' po' so' _ k n (fun _ => a_nan A)); [exact Sa|lia|lia]|]. intros b b' Sb. cbn. eapply sync_weaken; [|exact Sb]. cbn beta. intros; lia.
    - intros [[a x]|[a x]] [[a' x']|[a' x']]; cbn; tauto.
  Qed.
  Lemma softmax_scan_range (A : arith T) c i b x : softmax_scan A n m' p' s' = Some (c, i, b, x) -> 0 <= i /\ (c = 0 \/ 0 <= i < n).
  Proof.
    unfold softmax_scan, for_loop. rewrite Z.sub_0_r. cbn zeta. intros H. destruct (loop_from _ _ _ _) as [r|] eqn:R; [|discriminate].
    cbn [bind ret] in H. injection H as H.
    match type of R with loop_from _ 0 ?f _ = _ => assert (X : forall q j st r, loop_from q j f st = Some r -> 0 <= j -> j + Z.of_nat q <= n ->
      0 <= snd (fst (fst st)) /\ (fst (fst (fst st)) = 0 \/ 0 <= snd (fst (fst st)) < j) ->
      let st' := match r with inl st => st | inr st => st end in 0 <= snd (fst (fst st')) /\ (fst (fst (fst st')) = 0 \/ 0 <= snd (fst (fst st')) < n)) end.
    { clear R H r. induction q as [|q IH]; intros j [[[c0 i0] b0] x0] r R J1 J2 H; cbn [loop_from fst snd] in *.
      - injection R as <-. cbn [fst snd]. lia.
      - destruct (get m' p' s' j) as [y|]; [|discriminate]. cbn [bind] in R. destruct (isnanb (a_cmp A) y).
        + injection R as <-. cbn [fst snd]. lia.
        + destruct (a_isinf A y && gtb (a_cmp A) y (a_ofZ A 0)); cbn [ret] in R; apply IH in R; cbn [fst snd]; try exact R; lia. }
    apply X in R; [|lia|lia|cbn; lia]. cbn zeta in R. rewrite H in R. exact R.
  Qed.
  Theorem softmax_layout (A : arith T) TR :
    same_output n (softmax_core A TR n m p s mo po so) mo po so (softmax_core A TR n m' p' s' mo' po' so') mo' po' so'.
  Proof.
    apply (sync_out n mo po so mo' po' so' (fun j => j < n)); [lia|]. unfold softmax_core.
    pose proof (sync_start n mo po so mo' po' so' W W') as S0.
    assert (F : softmax_scan A n m p s = softmax_scan A n m' p' s') by (unfold softmax_scan; lay E). rewrite F. clear F.
    destruct (softmax_scan A n m' p' s') as [[[[c i] b] x]|] eqn:F; [|exact I]. cbn [bind]. pose proof (softmax_scan_range A c i b x F) as R.
    destruct (b || (1 <? c) || eqb (a_cmp A) x (a_opp A (a_inf A))).
    { eapply both_impl; [|eapply (fill_sync n mo po so mo' po' so' _ 0 n (fun _ => a_nan A)); [exact S0|lia|lia]]. intros ? ?. apply sync_weaken. lia. }
    destruct (Z.eqb_spec c 1).
    - eapply both_bind; [eapply (fill_sync n mo po so mo' po' so' _ 0 n (fun _ => a_ofZ A 0)); [exact S0|lia|lia]|]. intros a a' Sa.
      eapply both_impl; [|apply set_sync; [exact Sa|lia]]. intros ? ?. apply sync_weaken. lia.
    - match goal with |- both _ (bind ?x _) (bind ?y _) => replace x with y by (symmetry; lay E) end.
      destruct (for_each 0 n _ _) as [es|]; cbn [bind]; [|exact I].
      apply (both_for_each (fun k => sync (fun j => j < k))); [exact Hn|eapply sync_weaken; [|exact S0]; lia|].
      intros k a a' Hk Sa. rewrite (get_same _ _ _ _ _ _ _ E k) by lia. destruct (get m' p' s' k) as [y|]; cbn [bind]; [stp|exact I].
  Qed.
End Out.

(** ** integer cores, meanvar *)
Theorem convert_to_base_layout t n k b mo po so mo' po' so' : 0 <= n -> writable mo po so (Z.to_nat n) -> writable mo' po' so' (Z.to_nat n) ->
  same_output n (convert_to_base_core_calc t n k b mo po so) mo po so (convert_to_base_core_calc t n k b mo' po' so') mo' po' so'.
Proof.
  intros Hn W W'. apply (sync_out n mo po so mo' po' so' (fun j => j < n)); [lia|]. unfold convert_to_base_core_calc.
  eapply both_bind.
  - apply (both_for_each (fun k st st' => sync n mo po so mo' po' so' (fun j => j < k) (snd st) (snd st') /\ fst st = fst st')); [exact Hn|cbn [fst snd]; split; [|reflexivity]; eapply sync_weaken; [|apply sync_start; assumption]; intros; lia|].
    intros j [y r] [y' r'] Hk [S Y]. cbn [fst snd] in *. subst y'. destruct (c_divrem t y b) as [qr|]; cbn [bind]; [|exact I].
    eapply both_bind; [apply set_sync; [exact S|lia]|]. intros a a' Ha. cbn [both ret fst snd]. split; [|reflexivity].
    eapply sync_weaken; [|exact Ha]. intros; cbn beta in *; lia.
  - intros [y r] [y' r'] [S _]. exact S.
Qed.
Theorem one_hot_layout n x mo po so mo' po' so' : 0 <= n -> writable mo po so (Z.to_nat n) -> writable mo' po' so' (Z.to_nat n) ->
  same_output n (one_hot_core_calc n x mo po so) mo po so (one_hot_core_calc n x mo' po' so') mo' po' so'.
Proof.
  intros Hn W W'. apply (sync_out n mo po so mo' po' so' (fun j => j < n)); [lia|].
  assert (X : forall mo po so, one_hot_core_calc n x mo po so = bind (for_each 0 n (fun i mo => set mo po so i 0) mo) (fun mo1 => if (0 <=? x) && (x <? n) then set mo1 po so x 1 else ret mo1)).
  { intros. unfold one_hot_core_calc. destruct (Z.eqb_spec so0 8) as [->|]; reflexivity. }
  rewrite !X. eapply both_bind; [eapply (fill_sync n mo po so mo' po' so' _ 0 n (fun _ => 0)); [apply sync_start; assumption|lia|lia]|].
  intros a a' Sa. destruct (Z.leb_spec 0 x), (Z.ltb_spec x n); cbn [andb].
  - eapply both_impl; [|apply set_sync; [exact Sa|lia]]. intros ? ?. apply sync_weaken. cbn beta; intros; lia.
  - eapply sync_weaken; [|exact Sa]. cbn beta; intros; lia.
  - eapply sync_weaken; [|exact Sa]. cbn beta; intros; lia.
  - eapply sync_weaken; [|exact Sa]. cbn beta; intros; lia.
Qed.
(** the output of meanvar has two elements *)
Theorem meanvar_layout {T U} (A : arith U) (up : T -> U) n ddof m p s m' p' s' mo po so mo' po' so' :
  same_elements n m p s m' p' s' -> writable mo po so 2 -> writable mo' po' so' 2 ->
  same_output 2 (meanvar_core A up n m p s ddof mo po so) mo po so (meanvar_core A up n m' p' s' ddof mo' po' so') mo' po' so'.
Proof.
  intros E W W'. apply (sync_out 2 mo po so mo' po' so' (fun j => j < 2)); [lia|]. unfold meanvar_core. cbn zeta.
  match goal with |- both _ (bind ?x _) (bind ?y _) => replace x with y by (symmetry; lay E) end.
  destruct (for_each 0 n _ _) as [[[[mean m2] u] v]|]; cbn [bind]; [|exact I].
  pose proof (sync_start 2 mo po so mo' po' so' W W') as S0.
  eapply both_bind with (R := sync 2 mo po so mo' po' so' (fun j => j < 1)).
  { pose proof (set_sync 2 mo po so mo' po' so' _ mo mo' 0 mean S0 ltac:(lia)) as X. unfold set in X. rewrite !Z.mul_0_l, !Z.add_0_r in X.
    eapply both_impl; [|exact X]. intros ? ?. apply sync_weaken. lia. }
  intros a a' Sa. eapply both_impl; [|apply set_sync; [exact Sa|lia]]. intros ? ?. apply sync_weaken. cbn beta. lia.
Qed.
(** bincount and its weighted form add to the elements their output holds already *)
Theorem bincount_layout szT szU n ml m p s m' p' s' mo po so mo' po' so' : 0 <= n ->
  same_elements n m p s m' p' s' -> writable mo po so (Z.to_nat ml) -> writable mo' po' so' (Z.to_nat ml) -> same_elements ml mo po so mo' po' so' ->
  (forall k x, 0 <= k < n -> m (p + k * s) = Some x -> 0 <= x -> 0 <= to_intp x) ->
  same_output ml (bincount_core_calc szT szU n ml m p s mo po so) mo po so (bincount_core_calc szT szU n ml m' p' s' mo' po' so') mo' po' so'.
Proof.
  intros Hn E W W' EO R. apply (sync_out ml mo po so mo' po' so' (fun j => True)); [auto|].
  assert (X : forall m p s mo po so, bincount_core_calc szT szU n ml m p s mo po so = for_each 0 n (fun i mo => bind (get m p s i) (fun k => bincount_step ml po so k mo)) mo).
  { intros. unfold bincount_core_calc. destruct (Z.eqb_spec s0 szT) as [->|]; [|reflexivity]. destruct (Z.eqb_spec so0 szU) as [->|]; reflexivity. }
  rewrite !X. apply (both_for_each (fun _ => sync ml mo po so mo' po' so' (fun _ => True))); [exact Hn|now apply sync_update|].
  intros k a a' Hk Sa. pose proof (R k) as Rk. change (m (p + k * s)) with (get m p s k) in Rk. rewrite (get_same _ _ _ _ _ _ _ E k Hk) in *.
  destruct (get m' p' s' k) as [x|]; cbn [bind]; [|exact I]. unfold bincount_step. specialize (Rk x Hk eq_refl).
  destruct (Z.leb_spec 0 x), (Z.ltb_spec (to_intp x) ml); cbn [andb]; try exact Sa.
  rewrite (get_sync _ _ _ _ _ _ _ _ _ _ _ Sa) by (auto; lia). destruct (get a' po' so' (to_intp x)); cbn [bind]; [|exact I].
  eapply both_impl; [|apply set_sync; [exact Sa|lia]]. intros ? ?. apply sync_weaken. auto.
Qed.
Theorem bincountw_layout {V} (add : V -> V -> V) n ml m p s m' p' s' mw pw sw mw' pw' sw' mo po so mo' po' so' : 0 <= n ->
  same_elements n m p s m' p' s' -> same_elements n mw pw sw mw' pw' sw' -> 
  writable mo po so (Z.to_nat ml) -> writable mo' po' so' (Z.to_nat ml) -> same_elements ml mo po so mo' po' so' ->
  (forall k x, 0 <= k < n -> m (p + k * s) = Some x -> 0 <= x -> 0 <= to_intp x) ->
  same_output ml (bincountw_core_calc add n ml m p s mw pw sw mo po so) mo po so (bincountw_core_calc add n ml m' p' s' mw' pw' sw' mo' po' so') mo' po' so'.
Proof.
  intros Hn E Ew W W' EO R. apply (sync_out ml mo po so mo' po' so' (fun j => True)); [auto|]. unfold bincountw_core_calc.
  apply (both_for_each (fun _ => sync ml mo po so mo' po' so' (fun _ => True))); [exact Hn|now apply sync_update|].
  intros k a a' Hk Sa. pose proof (R k) as Rk. change (m (p + k * s)) with (get m p s k) in Rk. rewrite (get_same _ _ _ _ _ _ _ E k Hk) in *.
  destruct (get m' p' s' k) as [x|]; cbn [bind]; [|exact I]. specialize (Rk x Hk eq_refl).
  destruct (Z.leb_spec 0 x), (Z.ltb_spec (to_intp x) ml); cbn [andb]; try exact Sa.
  rewrite (get_same _ _ _ _ _ _ _ Ew k Hk). destruct (get mw' pw' sw' k) as [w|]; cbn [bind]; [|exact I].
  rewrite (get_sync _ _ _ _ _ _ _ _ _ _ _ Sa) by (auto; lia). destruct (get a' po' so' (to_intp x)); cbn [bind]; [|exact I].
  eapply both_impl; [|apply set_sync; [exact Sa|lia]]. intros ? ?. apply sync_weaken. auto.
Qed.

(** ** no element outside the array is read *)
Lemma only_same {T} n (m : mem T) p s : same_elements n m p s (only n m p s) p s.
Proof.
  intros k H. unfold only. assert (X : existsb (fun j => p + k * s =? p + Z.of_nat j * s) (List.seq 0 (Z.to_nat n)) = true).
  { apply existsb_exists. exists (Z.to_nat k). split; [apply in_seq; lia|]. rewrite Z2Nat.id by lia. apply Z.eqb_refl. }
  now rewrite X.
Qed.
Theorem free_confined {T R} n (f : mem T -> Z -> Z -> R) : layout_free n f -> forall m p s, f m p s = f (only n m p s) p s.
Proof. intros H m p s. apply H, only_same. Qed.
Lemma only_none {T} n (m : mem T) p s a : outside p s (Z.to_nat n) a -> only n m p s a = None.
Proof.
  intros H. unfold only. destruct (existsb _ _) eqn:X; [|reflexivity]. apply existsb_exists in X. destruct X as (k & K & E).
  apply in_seq in K. apply Z.eqb_eq in E. exfalso. apply (H k); [lia|exact E].
Qed.
Theorem kbnsum_layout_refuted {T} (A : arith T) sz x y z : 0 < sz ->
  a_isinf A x = true -> isnanb (a_cmp A) x = false -> isnanb (a_cmp A) (a_add A x y) = false -> isnanb (a_cmp A) (a_add A x z) = true ->
  exists m p s m' p' s', same_elements 2 m p s m' p' s' /\
    kbnsum_core_calc A sz 2 m p s = Some x /\ kbnsum_core_calc A sz 2 m' p' s' = Some (a_nan A).
Proof.
  intros Hs I N N1 N2.
  exists (mem_of 0 sz [x; y; y]), 0, (2 * sz), (fun a => if a =? 0 then Some x else if a =? sz then Some z else if a =? 2 * sz then Some y else None), 0, (2 * sz).
  assert (Q : forall j, (j * sz - 0) / sz = j) by (intros j; rewrite Z.sub_0_r; apply Z.div_mul; lia).
  assert (R : forall j, (j * sz - 0) mod sz = 0) by (intros j; rewrite Z.sub_0_r; apply Z.mod_mul; lia).
  assert (V : forall j l, 0 <= j -> mem_of (T := T) 0 sz l (j * sz) = nth_error l (Z.to_nat j)).
  { intros j l Hj. unfold mem_of. rewrite R, Q. destruct (Z.ltb_spec (j * sz) 0); [nia|]. reflexivity. }
  assert (G0 : mem_of 0 sz [x; y; y] 0 = Some x) by (change 0 with (0 * sz) at 2; rewrite V by lia; reflexivity).
  assert (G1 : mem_of 0 sz [x; y; y] sz = Some y) by (replace sz with (1 * sz) at 2 by lia; rewrite V by lia; reflexivity).
  assert (G2 : mem_of 0 sz [x; y; y] (2 * sz) = Some y) by (rewrite V by lia; reflexivity).
  split; [|split].
  - intros k Hk. assert (K : k = 0 \/ k = 1) by lia. destruct K as [->| ->].
    + replace (0 + 0 * (2 * sz)) with 0 by lia. rewrite G0. reflexivity.
    + replace (0 + 1 * (2 * sz)) with (2 * sz) by lia. rewrite G2. destruct (Z.eqb_spec (2 * sz) 0); [lia|]. destruct (Z.eqb_spec (2 * sz) sz); [lia|]. now rewrite Z.eqb_refl.
  - unfold kbnsum_core_calc, for_loop. change (Z.to_nat (2 - 0)) with 2%nat. cbn [loop_from]. unfold get, load.
    replace (0 + 0 * (2 * sz)) with 0 by lia. rewrite G0. cbn [bind]. rewrite N, I. change (Z.to_nat (2 - (0 + 1))) with 1%nat. cbn [loop_from].
    replace (0 + (0 + 1) * sz) with sz by lia. rewrite G1. cbn [bind]. rewrite N1. reflexivity.
  - unfold kbnsum_core_calc, for_loop. change (Z.to_nat (2 - 0)) with 2%nat. cbn [loop_from]. unfold get, load.
    replace (0 + 0 * (2 * sz)) with 0 by lia. cbn [Z.eqb]. cbn [bind]. rewrite N, I. change (Z.to_nat (2 - (0 + 1))) with 1%nat. cbn [loop_from].
    replace (0 + (0 + 1) * sz) with sz by lia. destruct (Z.eqb_spec sz 0); [lia|]. rewrite Z.eqb_refl. cbn [bind]. rewrite N2. reflexivity.
Qed.

(** ** empty arrays: with n = 0 the cores that are not protected by a check of the dimension read nothing *)
Section Empty.
  Context {T : Type} (m : mem T) (p s : Z).
  Theorem empty_select (cmp : T -> T -> option comparison) :
    (forall op t o, (0 <= op <= 5) -> first_core_calc cmp 0 m p s op t o = Some o) /\
    (forall op t, (0 <= op <= 5) -> argfirst_core_calc cmp 0 m p s op t = Some (-1)) /\
    (forall ne, all_same_core ne 0 m p s = Some true) /\
    (forall op, (0 <= op <= 5) -> ordered_core cmp 0 m p s op = Some true) /\
    (forall v, searchsortedl cmp m p 0 s v = Some 0 /\ searchsortedr cmp m p 0 s v = Some 0) /\
    (forall U (diff : T -> T -> M U) sz, peaktopeak_core cmp diff sz 0 m p s = Some None).
  Proof.
    repeat split; intros; try reflexivity.
    all: assert (O : op = 0 \/ op = 1 \/ op = 2 \/ op = 3 \/ op = 4 \/ op = 5) by lia; repeat destruct O as [O|O]; subst op; reflexivity.
  Qed.
  Theorem empty_percentileofscore (cmp : T -> T -> option comparison) {D} (A : arith D) score kind : 0 <= kind <= 3 ->
    exists c, percentileofscore_core_calc cmp A 0 m p s score kind = Some (Some (a_div A (a_mul A (a_ofZ A 0) (a_ofZ A c)) (a_ofZ A 0))).
  Proof.
    intros H. assert (O : kind = 0 \/ kind = 1 \/ kind = 2 \/ kind = 3) by lia. repeat destruct O as [O|O]; subst kind; eexists; reflexivity.
  Qed.
  Theorem empty_stat (A : arith T) :
    (forall sz, kbnsum_core_calc A sz 0 m p s = Some (kbn_sum A (kbn_zero A))) /\
    (forall sz, rms_core_calc A sz 0 m p s = Some (a_sqrt A (a_div A (a_ofZ A 0) (a_ofZ A 0)))) /\
    (forall sz my py sy, vdot_core_calc A sz 0 m p s my py sy = Some (a_ofZ A 0)) /\
    (forall lgamma sz, multivariate_logbeta_core A lgamma sz 0 m p s = Some (a_nan A)).
  Proof.
    repeat split; intros; unfold rms_core_calc, rms_core_contig, vdot_core_calc, multivariate_logbeta_core;
      repeat match goal with |- context [if ?b then _ else _] => destruct b end; reflexivity.
  Qed.
  (** array outputs: nothing is written *)
  Theorem empty_signal (A : arith T) (cmp : T -> T -> option comparison) mo po so :
    (forall a b c d e, hysteresis_relay_core cmp 0 m p s a b c d e mo po so = Some mo) /\
    (forall d i, backlash_core A 0 m p s d i mo po so = Some mo) /\
    (forall L (AL : arith L) up down, fillnan1d_core A AL up down 0 m p s mo po so = Some mo) /\
    (forall D (AD : arith D) up sb tr period, unwrap_core A AD up sb tr 0 m p s period mo po so = Some mo).
  Proof. repeat split; intros; reflexivity. Qed.
  Theorem empty_softmax (A : arith T) TR mo po so : softmax_core A TR 0 m p s mo po so = Some mo.
  Proof. unfold softmax_core, softmax_scan. cbn. destruct (eqb _ _ _); reflexivity. Qed.
  Theorem empty_backlash_sum (A : arith T) mw pw sw md pd sd mi pi si mo po so mf pf sf : 
    backlash_sum_core A 0 0 m p s mw pw sw md pd sd mi pi si mo po so mf pf sf = Some (mo, mf).
  Proof. reflexivity. Qed.
  Theorem empty_sosfilter (A : arith T) sz k ms ps ss0 ss1 mo po so : sosfilter_core A sz k 0 ms ps ss0 ss1 m p s mo po so = Some mo.
  Proof.
    unfold sosfilter_core, sosfilter_ic_contig_core, sosfilter_ic_core. destruct (_ && _); [reflexivity|]. destruct (_ && _); reflexivity.
  Qed.
End Empty.
Theorem empty_int m p s mo po so :
  (forall szT szU ml, bincount_core_calc szT szU 0 ml m p s mo po so = Some mo) /\
  (forall W (add : W -> W -> W) ml mw pw sw mo po so, bincountw_core_calc add 0 ml m p s mw pw sw mo po so = Some mo) /\
  (forall t k b, convert_to_base_core_calc t 0 k b mo po so = Some mo) /\
  (forall x, one_hot_core_calc 0 x mo po so = Some mo).
Proof.
  repeat split; intros.
  - unfold bincount_core_calc. destruct (_ =? _); [destruct (_ =? _)|]; reflexivity.
  - unfold one_hot_core_calc. destruct (so =? 8); cbn; destruct (Z.leb_spec 0 x), (Z.ltb_spec x 0); try reflexivity; lia.
Qed.
(** linear_interp1d with no nodes: the general loop stores NaN without reading anything ... *)
Theorem empty_interp {T} (A : arith T) nloops mx px sx0 mxp pxp sxp0 xps mfp pfp sfp0 fps (mo : mem T) po so : sx0 <> 0 \/ sxp0 <> 0 ->
  interp_loop A nloops 0 mx px sx0 mxp pxp sxp0 xps mfp pfp sfp0 fps mo po so = for_each 0 nloops (fun j m => set m po so j (a_nan A)) mo.
Proof.
  intros H. unfold interp_loop. assert (X : (sx0 =? 0) && (sxp0 =? 0) = false) by (destruct (Z.eqb_spec sx0 0), (Z.eqb_spec sxp0 0); cbn; auto; lia). now rewrite X.
Qed.
(** ... but the loop for a common x and xp reads xp[0] and xp[-1] *)
Theorem empty_interp_refuted {T} (A : arith T) (x : T) : exists mx px,
  load mx px = Some x /\ forall nloops pxp xps mfp pfp sfp0 fps mo po so,
  interp_loop A nloops 0 mx px 0 no_memory pxp 0 xps mfp pfp sfp0 fps mo po so = None.
Proof. exists (fun _ => Some x), 0. split; [reflexivity|]. intros. reflexivity. Qed.

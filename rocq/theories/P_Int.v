(** Proofs about M_Int. *)
From Coq Require Import ZArith List Bool Lia.
From Coq Require Import ZifyBool.
From Flocq Require Import Core Bits BinarySingleNaN Binary.
From Verif Require Import CSem CSemP Num NumP M_Select S_Select P_Select M_Int S_Int.
Import ListNotations.
Open Scope Z_scope.

(** ** wrapping *)
Lemma pow_half w : 1 <= w -> 2 ^ w = 2 * 2 ^ (w - 1).
Proof. intros H. rewrite <- (Z.pow_succ_r 2 (w - 1)) by lia. f_equal. lia. Qed.

Lemma wrap_fits t z : 1 <= iwid t -> fits (isgn t) (iwid t) (wrap t z).
Proof.
  intros Hw. unfold fits, wrap. pose proof (pow_half _ Hw) as P.
  assert (0 < 2 ^ (iwid t - 1)) by (apply Z.pow_pos_nonneg; lia).
  destruct (isgn t).
  - pose proof (Z.mod_pos_bound (z + 2 ^ (iwid t - 1)) (2 ^ iwid t) ltac:(lia)). lia.
  - apply Z.mod_pos_bound. lia.
Qed.

Lemma wrap_id t z : 1 <= iwid t -> fits (isgn t) (iwid t) z -> wrap t z = z.
Proof.
  intros Hw. unfold fits, wrap. pose proof (pow_half _ Hw) as P.
  assert (0 < 2 ^ (iwid t - 1)) by (apply Z.pow_pos_nonneg; lia).
  destruct (isgn t); intros H1.
  - rewrite Z.mod_small by lia. lia.
  - apply Z.mod_small. lia.
Qed.

Lemma wrap_cong t z : 1 <= iwid t -> exists q, wrap t z = z + q * 2 ^ iwid t.
Proof.
  intros Hw. unfold wrap.
  assert (0 < 2 ^ iwid t) by (apply Z.pow_pos_nonneg; lia).
  destruct (isgn t).
  - pose proof (Z.div_mod (z + 2 ^ (iwid t - 1)) (2 ^ iwid t) ltac:(lia)) as D.
    exists (- ((z + 2 ^ (iwid t - 1)) / 2 ^ iwid t)). lia.
  - pose proof (Z.div_mod z (2 ^ iwid t) ltac:(lia)) as D.
    exists (- (z / 2 ^ iwid t)). lia.
Qed.

Lemma wrap_add t a b : 1 <= iwid t -> wrap t (wrap t a + b) = wrap t (a + b).
Proof.
  intros Hw. destruct (wrap_cong t a Hw) as (q & ->).
  assert (0 < 2 ^ iwid t) by (apply Z.pow_pos_nonneg; lia).
  unfold wrap. destruct (isgn t).
  - replace (a + q * 2 ^ iwid t + b + 2 ^ (iwid t - 1)) with (a + b + 2 ^ (iwid t - 1) + q * 2 ^ iwid t) by lia.
    rewrite Z.mod_add by lia. reflexivity.
  - replace (a + q * 2 ^ iwid t + b) with (a + b + q * 2 ^ iwid t) by lia.
    rewrite Z.mod_add by lia. reflexivity.
Qed.

Lemma in_range_fits t z : 1 <= iwid t -> (in_range t z = true <-> fits (isgn t) (iwid t) z).
Proof. intros _. unfold in_range, imin, imax, fits. destruct (isgn t); lia. Qed.

(** ** bincount *)
Section BC.
  Context {W : Type} (add : W -> W -> W).

  Definition bstep (mlen po so : Z) (i : Z) (kw : Z * W) (mo : mem W) : M (mem W) :=
    if (0 <=? fst kw) && (to_intp (fst kw) <? mlen) then
      c <- get mo po so (to_intp (fst kw)) ;; set mo po so (to_intp (fst kw)) (add c (snd kw))
    else ret mo.

  Lemma weights_of_app i x1 w1 x2 w2 : length x1 = length w1 ->
    weights_of i (x1 ++ x2) (w1 ++ w2) = weights_of i x1 w1 ++ @weights_of W i x2 w2.
  Proof.
    revert w1. induction x1 as [|k x1 IH]; intros [|v w1] H; cbn in *; try discriminate; [reflexivity|].
    rewrite IH by congruence. destruct (k =? i); reflexivity.
  Qed.

  Lemma bincount_loop (kws : list (Z * W)) mo po so out :
    view mo po so out -> writable mo po so (length out) ->
    (forall k w, In (k, w) kws -> -2 ^ 63 <= k < 2 ^ 63) ->
    exists mo', liter 0 kws (bstep (Z.of_nat (length out)) po so) mo = Some mo' /\
      (forall i o, nth_error out i = Some o ->
         mo' (po + Z.of_nat i * so) = Some (fold_left add (weights_of (Z.of_nat i) (map fst kws) (map snd kws)) o)) /\
      (forall a, outside po so (length out) a -> mo' a = mo a).
  Proof.
    intros V Wr Hk.
    assert (G : forall l pre mo1, (forall k w, In (k, w) l -> -2 ^ 63 <= k < 2 ^ 63) ->
      (forall i o, nth_error out i = Some o ->
         mo1 (po + Z.of_nat i * so) = Some (fold_left add (weights_of (Z.of_nat i) (map fst pre) (map snd pre)) o)) ->
      (forall a, outside po so (length out) a -> mo1 a = mo a) ->
      exists mo', liter (Z.of_nat (length pre)) l (bstep (Z.of_nat (length out)) po so) mo1 = Some mo' /\
      (forall i o, nth_error out i = Some o ->
         mo' (po + Z.of_nat i * so) = Some (fold_left add (weights_of (Z.of_nat i) (map fst (pre ++ l)) (map snd (pre ++ l))) o)) /\
      (forall a, outside po so (length out) a -> mo' a = mo a)).
    { clear Hk. induction l as [|[k w] l IH]; intros pre mo1 Hk H1 H2; cbn [liter].
      - rewrite app_nil_r. eauto.
      - assert (Kr : -2 ^ 63 <= k < 2 ^ 63) by (apply (Hk k w); left; reflexivity).
        assert (Ek : to_intp k = k) by (apply wrap_id; cbn; lia).
        assert (Wp : forall i, weights_of i (map fst (pre ++ [(k, w)])) (map snd (pre ++ [(k, w)])) =
                     weights_of i (map fst pre) (map snd pre) ++ (if k =? i then [w] else [])).
        { intros i. rewrite !map_app. rewrite weights_of_app by (rewrite !map_length; reflexivity). reflexivity. }
        assert (ST : exists mo2, bstep (Z.of_nat (length out)) po so (Z.of_nat (length pre)) (k, w) mo1 = Some mo2 /\
          (forall i o, nth_error out i = Some o ->
            mo2 (po + Z.of_nat i * so) = Some (fold_left add (weights_of (Z.of_nat i) (map fst (pre ++ [(k, w)])) (map snd (pre ++ [(k, w)]))) o)) /\
          (forall a, outside po so (length out) a -> mo2 a = mo a)).
        { unfold bstep. cbn [fst snd]. rewrite Ek.
          destruct ((0 <=? k) && (k <? Z.of_nat (length out))) eqn:C.
          - assert (Hkr : 0 <= k < Z.of_nat (length out)) by lia.
            destruct (nth_error out (Z.to_nat k)) as [o|] eqn:Eo.
            2:{ apply nth_error_None in Eo. lia. }
            pose proof (H1 _ _ Eo) as H1k. rewrite Z2Nat.id in H1k by lia.
            unfold get, load. rewrite H1k. cbn [bind].
            rewrite set_upd by congruence. eexists. split; [reflexivity|]. split.
            + intros i o' Ho. rewrite Wp. rewrite fold_left_app.
              destruct (Z.eqb_spec k (Z.of_nat i)) as [->|Ne].
              * rewrite Nat2Z.id in Eo. rewrite Ho in Eo. injection Eo as ->.
                rewrite upd_same. reflexivity.
              * rewrite upd_other; [cbn [fold_left]; apply H1; assumption|].
                intros E. assert (i <> Z.to_nat k) by lia.
                apply (writable_neq mo po so (length out) i (Z.to_nat k) Wr);
                  [apply nth_error_Some; congruence|lia|lia|rewrite Z2Nat.id by lia; exact E].
            + intros a Ha. rewrite upd_other; [auto|]. intros ->. apply (Ha (Z.to_nat k)); [lia|]. rewrite Z2Nat.id by lia. reflexivity.
          - exists mo1. split; [reflexivity|]. split; [|assumption].
            intros i o Ho. rewrite Wp. assert ((i < length out)%nat) by (apply nth_error_Some; congruence).
            replace (k =? Z.of_nat i) with false by lia. rewrite app_nil_r. auto. }
        destruct ST as (mo2 & E2 & S1 & S2). rewrite E2. cbn [bind].
        destruct (IH (pre ++ [(k, w)]) mo2) as (mo' & E' & R1 & R2); auto.
        { intros k' w' Hin. apply (Hk k' w'). right. exact Hin. }
        rewrite app_length in E'. cbn [length] in E'.
        replace (Z.of_nat (length pre) + 1) with (Z.of_nat (length pre + 1)) by lia.
        rewrite E'. rewrite <- app_assoc in R1. exists mo'. auto. }
    destruct (G kws [] mo Hk) as (mo' & E & R1 & R2).
    - intros i o Ho. cbn. rewrite V by (apply nth_error_Some; congruence). exact Ho.
    - auto.
    - exists mo'. auto.
  Qed.

  Lemma bincountw_list mx px sx mw pw sw (x : list Z) (w : list W) mlen mo po so :
    view mx px sx x -> view mw pw sw w -> length w = length x ->
    bincountw_core_calc add (Z.of_nat (length x)) mlen mx px sx mw pw sw mo po so =
    liter 0 (combine x w) (bstep mlen po so) mo.
  Proof.
    intros Vx Vw E. unfold bincountw_core_calc.
    replace (length x) with (length (combine x w)) by (rewrite combine_length; lia).
    apply for_each_list. intros k s [a b] H.
    destruct (nth_error_combine _ _ _ _ _ H) as [Ha Hb].
    rewrite (view_get mx px sx x k a Vx Ha), (view_get mw pw sw w k b Vw Hb). reflexivity.
  Qed.

  Lemma map_fst_combine {A B} (l1 : list A) (l2 : list B) : length l1 = length l2 -> map fst (combine l1 l2) = l1.
  Proof. revert l2. induction l1 as [|a l1 IH]; intros [|b l2] H; cbn in *; try discriminate; [reflexivity|]. f_equal. auto. Qed.
  Lemma map_snd_combine {A B} (l1 : list A) (l2 : list B) : length l1 = length l2 -> map snd (combine l1 l2) = l2.
  Proof. revert l2. induction l1 as [|a l1 IH]; intros [|b l2] H; cbn in *; try discriminate; [reflexivity|]. f_equal. auto. Qed.

  Lemma bincountw_correct mx px sx mw pw sw (x : list Z) (w : list W) mo po so out :
    view mx px sx x -> view mw pw sw w -> length w = length x ->
    view mo po so out -> writable mo po so (length out) ->
    (forall k, In k x -> -2 ^ 63 <= k < 2 ^ 63) ->
    exists mo', bincountw_core_calc add (Z.of_nat (length x)) (Z.of_nat (length out)) mx px sx mw pw sw mo po so = Some mo' /\
      (forall i o, nth_error out i = Some o ->
         mo' (po + Z.of_nat i * so) = Some (fold_left add (weights_of (Z.of_nat i) x w) o)) /\
      (forall a, outside po so (length out) a -> mo' a = mo a).
  Proof.
    intros Vx Vw E Vo Wr Hx.
    rewrite (bincountw_list mx px sx mw pw sw x w _ mo po so Vx Vw E).
    destruct (bincount_loop (combine x w) mo po so out Vo Wr) as (mo' & E' & R1 & R2).
    - intros k v Hin. apply Hx. eapply in_combine_l; eauto.
    - rewrite map_fst_combine, map_snd_combine in R1 by lia. exists mo'. auto.
  Qed.

  Lemma bincountw_accumulates mx1 px1 sx1 mw1 pw1 sw1 x1 (w1 : list W) mx2 px2 sx2 mw2 pw2 sw2 x2 w2
        mx px sx mw pw sw mlen mo po so :
    view mx1 px1 sx1 x1 -> view mw1 pw1 sw1 w1 -> length w1 = length x1 ->
    view mx2 px2 sx2 x2 -> view mw2 pw2 sw2 w2 -> length w2 = length x2 ->
    view mx px sx (x1 ++ x2) -> view mw pw sw (w1 ++ w2) ->
    bind (bincountw_core_calc add (Z.of_nat (length x1)) mlen mx1 px1 sx1 mw1 pw1 sw1 mo po so)
         (fun mo' => bincountw_core_calc add (Z.of_nat (length x2)) mlen mx2 px2 sx2 mw2 pw2 sw2 mo' po so) =
    bincountw_core_calc add (Z.of_nat (length (x1 ++ x2))) mlen mx px sx mw pw sw mo po so.
  Proof.
    intros A1 A2 A3 B1 B2 B3 C1 C2.
    rewrite (bincountw_list mx px sx mw pw sw (x1 ++ x2) (w1 ++ w2) mlen mo po so C1 C2) by (rewrite !app_length; lia).
    rewrite (bincountw_list mx1 px1 sx1 mw1 pw1 sw1 x1 w1 mlen mo po so A1 A2 A3).
    assert (CA : combine (x1 ++ x2) (w1 ++ w2) = combine x1 w1 ++ combine x2 w2).
    { clear - A3. revert w1 A3. induction x1 as [|a x1 IH]; intros [|b w1] H; cbn in *; try discriminate; [reflexivity|].
      f_equal. apply IH. lia. }
    rewrite CA, liter_app. destruct (liter 0 (combine x1 w1) _ mo) as [mo'|]; cbn [bind]; [|reflexivity].
    rewrite (bincountw_list mx2 px2 sx2 mw2 pw2 sw2 x2 w2 mlen mo' po so B1 B2 B3).
    assert (SH : forall l k k' s, liter k l (bstep mlen po so) s = liter k' l (bstep mlen po so) s).
    { clear. induction l as [|a l IH]; intros k k' s; cbn [liter]; [reflexivity|].
      change (bstep mlen po so k a s) with (bstep mlen po so k' a s).
      destruct (bstep mlen po so k' a s); cbn [bind]; [apply IH|reflexivity]. }
    apply SH.
  Qed.
End BC.

Lemma bincount_list szT szU mlen mx px sx (x : list Z) mo po so :
  view mx px sx x ->
  bincount_core_calc szT szU (Z.of_nat (length x)) mlen mx px sx mo po so =
  liter 0 x (fun _ k mo => bincount_step mlen po so k mo) mo.
Proof.
  intros V. unfold bincount_core_calc.
  assert (G : for_each 0 (Z.of_nat (length x)) (fun i mo => k <- get mx px sx i ;; bincount_step mlen po so k mo) mo
              = liter 0 x (fun _ k mo => bincount_step mlen po so k mo) mo).
  { apply (for_each_view mx px sx x _ (fun _ k mo => bincount_step mlen po so k mo) mo V).
    intros k s y _ Hg. rewrite Hg. reflexivity. }
  destruct (Z.eqb_spec sx szT) as [<-|_]; [|exact G].
  destruct (Z.eqb_spec so szU) as [<-|_]; exact G.
Qed.

(** bincount is bincountw with integer weights that are all one *)
Lemma bincount_as_w szT szU mlen mx px sx (x : list Z) mw pw sw mo po so :
  view mx px sx x -> view mw pw sw (repeat 1 (length x)) ->
  bincount_core_calc szT szU (Z.of_nat (length x)) mlen mx px sx mo po so =
  bincountw_core_calc (fun a b => wrap int64 (a + b)) (Z.of_nat (length x)) mlen mx px sx mw pw sw mo po so.
Proof.
  intros V Vw. rewrite bincount_list by assumption.
  rewrite (bincountw_list _ mx px sx mw pw sw x (repeat 1 (length x)) mlen mo po so V Vw) by apply repeat_length.
  assert (G : forall l k s, liter k l (fun _ k mo => bincount_step mlen po so k mo) s =
              liter k (combine l (repeat 1 (length l))) (bstep (fun a b => wrap int64 (a + b)) mlen po so) s).
  { clear. induction l as [|a l IH]; intros k s; cbn [liter combine repeat length]; [reflexivity|].
    change (bstep _ mlen po so k (a, 1) s) with (bincount_step mlen po so a s).
    destruct (bincount_step mlen po so a s); cbn [bind]; [apply IH|reflexivity]. }
  apply G.
Qed.

Lemma fold_ones i x c o : occ (fun k => k = i) x c -> fits true 64 o ->
  fold_left (fun a b => wrap int64 (a + b)) (weights_of i x (repeat 1 (length x))) o = wrap int64 (o + c).
Proof.
  intros H. revert o. induction H as [|k l c Hk H IH|k l c Hk H IH]; intros o Ho; cbn [repeat length weights_of fold_left].
  - rewrite Z.add_0_r. symmetry. apply wrap_id; [cbn; lia|exact Ho].
  - subst k. rewrite Z.eqb_refl. cbn [fold_left]. rewrite IH.
    + rewrite wrap_add by (cbn; lia). f_equal. lia.
    + apply (wrap_fits int64). cbn; lia.
  - replace (k =? i) with false by lia. apply IH. exact Ho.
Qed.

Lemma bincount_correct szT szU mx px sx (x : list Z) mo po so out :
  view mx px sx x -> view mo po so out -> writable mo po so (length out) ->
  (forall k, In k x -> -2 ^ 63 <= k < 2 ^ 63) ->
  exists mo', bincount_core_calc szT szU (Z.of_nat (length x)) (Z.of_nat (length out)) mx px sx mo po so = Some mo' /\
    (forall i o c, nth_error out i = Some o -> fits true 64 o -> occ (fun k => k = Z.of_nat i) x c ->
       exists o', mo' (po + Z.of_nat i * so) = Some o' /\ fits true 64 o' /\ (o' - (o + c)) mod 2 ^ 64 = 0) /\
    (forall a, outside po so (length out) a -> mo' a = mo a).
Proof.
  intros V Vo Wr Hx.
  rewrite (bincount_as_w szT szU _ mx px sx x (mem_of 0 8 (repeat 1 (length x))) 0 8 mo po so V)
    by (apply view_mem_of; lia).
  destruct (bincountw_correct (fun a b => wrap int64 (a + b)) mx px sx (mem_of 0 8 (repeat 1 (length x))) 0 8 x
     (repeat 1 (length x)) mo po so out V) as (mo' & E & R1 & R2); auto.
  - apply view_mem_of; lia.
  - apply repeat_length.
  - exists mo'. split; [exact E|]. split; [|exact R2].
    intros i o c Ho Fo Hc. exists (wrap int64 (o + c)). rewrite (R1 i o Ho).
    rewrite (fold_ones _ _ c) by assumption. split; [reflexivity|].
    split; [apply (wrap_fits int64); cbn; lia|].
    destruct (wrap_cong int64 (o + c) ltac:(cbn; lia)) as (q & Q). rewrite Q. cbn [iwid int64].
    replace (o + c + q * 2 ^ 64 - (o + c)) with (q * 2 ^ 64) by lia. apply Z.mod_mul. lia.
Qed.

(** no overflow when the count plus the old value fits *)
Lemma bincount_exact szT szU mx px sx (x : list Z) mo po so out :
  view mx px sx x -> view mo po so out -> writable mo po so (length out) ->
  (forall k, In k x -> -2 ^ 63 <= k < 2 ^ 63) ->
  (forall o, In o out -> 0 <= o < 2 ^ 63 - Z.of_nat (length x)) ->
  exists mo', bincount_core_calc szT szU (Z.of_nat (length x)) (Z.of_nat (length out)) mx px sx mo po so = Some mo' /\
    (forall i o c, nth_error out i = Some o -> occ (fun k => k = Z.of_nat i) x c ->
       mo' (po + Z.of_nat i * so) = Some (o + c)) /\
    (forall a, outside po so (length out) a -> mo' a = mo a).
Proof.
  intros V Vo Wr Hx Ho.
  destruct (bincount_correct szT szU mx px sx x mo po so out V Vo Wr Hx) as (mo' & E & R1 & R2).
  exists mo'. split; [exact E|]. split; [|exact R2].
  intros i o c Hi Hc.
  assert (Hb : 0 <= c <= Z.of_nat (length x)).
  { clear - Hc. induction Hc; cbn [length]; lia. }
  pose proof (Ho o (nth_error_In _ _ Hi)) as B.
  destruct (R1 i o c Hi) as (o' & E' & F & C); auto.
  { unfold fits. lia. }
  rewrite E'. f_equal. unfold fits in F.
  apply Z.mod_divide in C; [|lia]. destruct C as (q & Q).
  assert (q = 0) by lia. lia.
Qed.

Lemma bincount_accumulates szT szU mx1 px1 sx1 x1 mx2 px2 sx2 x2 mx px sx mlen mo po so szT' szU' szT'' szU'' :
  view mx1 px1 sx1 x1 -> view mx2 px2 sx2 x2 -> view mx px sx (x1 ++ x2) ->
  bind (bincount_core_calc szT szU (Z.of_nat (length x1)) mlen mx1 px1 sx1 mo po so)
       (fun mo' => bincount_core_calc szT' szU' (Z.of_nat (length x2)) mlen mx2 px2 sx2 mo' po so) =
  bincount_core_calc szT'' szU'' (Z.of_nat (length (x1 ++ x2))) mlen mx px sx mo po so.
Proof.
  intros V1 V2 V. rewrite !bincount_list by assumption. rewrite liter_app.
  destruct (liter 0 x1 _ mo) as [mo'|]; cbn [bind]; [|reflexivity].
  rewrite bincount_list by assumption.
  assert (G : forall l k k' s, liter k l (fun _ k mo => bincount_step mlen po so k mo) s =
                              liter k' l (fun _ k mo => bincount_step mlen po so k mo) s).
  { clear. induction l as [|a l IH]; intros k k' s; cbn [liter]; [reflexivity|].
    destruct (bincount_step mlen po so a s); cbn [bind]; [apply IH|reflexivity]. }
  apply G.
Qed.

(** uint64 values from 2^63 on pass the bounds test and the write is out of bounds *)
Lemma bincount_uint64_refuted :
  exists (x out : list Z), (forall k, In k x -> fits false 64 k) /\
    view (mem_of 0 8 x) 0 8 x /\ view (mem_of 0 8 out) 0 8 out /\ writable (mem_of 0 8 out) 0 8 (length out) /\
    bincount_core_calc 8 8 (Z.of_nat (length x)) (Z.of_nat (length out)) (mem_of 0 8 x) 0 8 (mem_of 0 8 out) 0 8 = None.
Proof.
  exists [2 ^ 63], [0]. split.
  { intros k [<-|[]]. unfold fits. lia. }
  split; [apply view_mem_of; lia|]. split; [apply view_mem_of; lia|]. split.
  { split; [|right; cbn; lia]. intros [|k] Hk; cbn in *; [discriminate|lia]. }
  vm_compute. reflexivity.
Qed.

(** ** bincount, default m *)
Lemma fold_max_spec l a : is_max (a :: l) (fold_left Z.max l a).
Proof.
  revert a. induction l as [|b l IH]; intros a; cbn [fold_left].
  - split; [left; reflexivity|]. intros x [<-|[]]. lia.
  - destruct (IH (Z.max a b)) as [H1 H2]. split.
    + destruct H1 as [H1|H1].
      * rewrite <- H1. destruct (Z.max_spec a b) as [[_ ->]|[_ ->]]; [right; left; reflexivity|left; reflexivity].
      * right; right; exact H1.
    + intros x [<-|[<-|Hx]].
      * pose proof (H2 (Z.max a b) (or_introl eq_refl)). lia.
      * pose proof (H2 (Z.max a b) (or_introl eq_refl)). lia.
      * apply H2. right; exact Hx.
Qed.

Lemma bincount_default_m_ok t x mx :
  1 <= iwid t -> is_max x mx -> fits (isgn t) (iwid t) mx -> fits (isgn t) (iwid t) (mx + 1) ->
  bincount_default_m t x = Some (Z.max (mx + 1) 0).
Proof.
  intros Hw [Hi Hm] F F1. destruct x as [|a l]; [destruct Hi|].
  cbn [bincount_default_m]. do 2 f_equal.
  destruct (fold_max_spec l a) as [G1 G2].
  assert (E : fold_left Z.max l a = mx) by (specialize (Hm _ G1); specialize (G2 _ Hi); lia).
  rewrite E. apply wrap_id; assumption.
Qed.

Lemma bincount_call_counts t x mx :
  1 <= iwid t <= 64 -> is_max x mx -> (forall k, In k x -> fits (isgn t) (iwid t) k) ->
  fits (isgn t) (iwid t) (mx + 1) -> -2 ^ 63 <= mx < 2 ^ 63 -> Z.of_nat (length x) < 2 ^ 63 ->
  exists mo, bincount_call t x = Some (Some (mo, Z.max (mx + 1) 0)) /\
    forall k c, In k x -> 0 <= k -> occ (fun y => y = k) x c -> mo (k * 8) = Some c.
Proof.
  intros Hw Hm Hx Hf H63 Hlen.
  pose proof (bincount_default_m_ok t x mx (proj1 Hw) Hm (Hx mx (proj1 Hm)) Hf) as Em.
  unfold bincount_call. rewrite Em.
  set (m := Z.max (mx + 1) 0). set (out := repeat 0 (Z.to_nat m)).
  assert (El : Z.of_nat (length out) = m) by (unfold out; rewrite repeat_length; lia).
  assert (Wr : writable (mem_of 0 8 out) 0 8 (length out)).
  { split; [|left; lia]. intros k Hk. rewrite (view_mem_of 0 8 out ltac:(lia) k Hk). apply nth_error_Some. exact Hk. }
  assert (R64 : forall k, In k x -> -2 ^ 63 <= k < 2 ^ 63).
  { intros k Hk. pose proof (proj2 Hm k Hk). pose proof (Hx k Hk) as F. unfold fits in F.
    destruct (isgn t).
    - assert (2 ^ (iwid t - 1) <= 2 ^ 63) by (apply Z.pow_le_mono_r; lia). lia.
    - lia. }
  destruct (bincount_exact 8 8 (mem_of 0 8 x) 0 8 x (mem_of 0 8 out) 0 8 out) as (mo & E & R & _); auto.
  - apply view_mem_of; lia.
  - apply view_mem_of; lia.
  - intros o Ho. apply repeat_spec in Ho. lia.
  - rewrite El in E. rewrite E. cbn [bind]. eexists. split; [reflexivity|].
    intros k c Hk H0 Hc. pose proof (proj2 Hm k Hk) as Hle.
    assert (En : nth_error out (Z.to_nat k) = Some 0).
    { assert (Hl : (Z.to_nat k < length out)%nat) by (unfold m in El; lia).
      destruct (nth_error out (Z.to_nat k)) as [o|] eqn:Eo; [|apply nth_error_None in Eo; lia].
      apply nth_error_In in Eo. apply repeat_spec in Eo. congruence. }
    specialize (R (Z.to_nat k) 0 c En). rewrite Z2Nat.id in R by lia.
    rewrite Z.add_0_l in R. apply R. exact Hc.
Qed.

Lemma bincount_default_m_refuted :
  exists x, (forall k, In k x -> fits true 8 k) /\ In 127 x /\
    exists mo, bincount_call int8 x = Some (Some (mo, 0)).
Proof.
  exists [3; 127]. split; [|split].
  - intros k [<-|[<-|[]]]; unfold fits; cbn; lia.
  - right; left; reflexivity.
  - eexists. vm_compute. reflexivity.
Qed.

Lemma bincount_default_m_always_lost t x :
  1 <= iwid t -> is_max x (imax t) -> bincount_default_m t x = Some 0.
Proof.
  intros Hw [Hi Hm]. destruct x as [|a l]; [destruct Hi|]. cbn [bincount_default_m]. f_equal.
  destruct (fold_max_spec l a) as [G1 G2].
  assert (E : fold_left Z.max l a = imax t) by (specialize (Hm _ G1); specialize (G2 _ Hi); lia).
  rewrite E. unfold imax, wrap. pose proof (pow_half _ Hw) as P.
  assert (0 < 2 ^ (iwid t - 1)) by (apply Z.pow_pos_nonneg; lia).
  destruct (isgn t).
  - replace (2 ^ (iwid t - 1) - 1 + 1 + 2 ^ (iwid t - 1)) with (1 * 2 ^ iwid t) by lia.
    rewrite Z.mod_mul by lia. lia.
  - replace (2 ^ iwid t - 1 + 1) with (1 * 2 ^ iwid t) by lia. rewrite Z.mod_mul by lia. lia.
Qed.

(** ** convert_to_base *)
Fixpoint digs (n : nat) (k base : Z) : list Z :=
  match n with
  | O => []
  | S n' => Z.rem k base :: digs n' (Z.quot k base) base
  end.

Lemma digs_length n k base : length (digs n k base) = n.
Proof. revert k. induction n; intros; cbn; congruence. Qed.

Lemma quot_fits t k b : 1 <= iwid t -> fits (isgn t) (iwid t) k -> fits (isgn t) (iwid t) b ->
  b <> 0 -> ~ (isgn t = true /\ k = imin t /\ b = -1) ->
  fits (isgn t) (iwid t) (Z.quot k b) /\ fits (isgn t) (iwid t) (Z.rem k b).
Proof.
  intros Hw Fk Fb Hb Hn. unfold fits, imin in *.
  assert (0 < 2 ^ (iwid t - 1)) by (apply Z.pow_pos_nonneg; lia).
  pose proof (Z.quot_rem' k b) as QR.
  destruct (isgn t).
  - assert (Hr : Z.abs (Z.rem k b) < Z.abs b) by (apply Z.rem_bound_abs; assumption).
    assert (Hs : Z.abs (Z.rem k b) <= Z.abs k).
    { rewrite <- Z.rem_abs by assumption. destruct (Z.eq_dec (Z.abs b) 0); [lia|]. apply Z.rem_le; lia. }
    assert (Hsg : 0 <= k * Z.rem k b).
    { pose proof (Z.rem_sign_mul k b Hb). lia. }
    split.
    + assert (Ha : Z.abs (Z.quot k b) * Z.abs b <= Z.abs k).
      { rewrite <- Z.abs_mul. nia. }
      destruct (Z.eq_dec b 1) as [->|N1]; [rewrite Z.quot_1_r; lia|].
      destruct (Z.eq_dec b (-1)) as [->|N2].
      { assert (k <> - 2 ^ (iwid t - 1)) by intuition. nia. }
      assert (2 <= Z.abs b) by lia. nia.
    + nia.
  - split.
    + rewrite Z.quot_div_nonneg by lia. split; [apply Z.div_pos; lia|].
      apply Z.div_lt_upper_bound; nia.
    + rewrite Z.rem_mod_nonneg by lia. pose proof (Z.mod_pos_bound k b ltac:(lia)).
      pose proof (Z.mod_le k b ltac:(lia) ltac:(lia)). lia.
Qed.

Lemma quot_not_min t k b : 1 <= iwid t -> fits (isgn t) (iwid t) k -> b <> 0 -> 
  ~ (isgn t = true /\ k = imin t /\ b = -1) ->
  ~ (isgn t = true /\ Z.quot k b = imin t /\ b = -1).
Proof.
  intros Hw Fk Hb Hn (S1 & S2 & S3). subst b. unfold fits, imin in *. rewrite S1 in *.
  replace (-1) with (-(1)) in S2 by lia. rewrite Z.quot_opp_r, Z.quot_1_r in S2 by lia. lia.
Qed.

Lemma convert_loop t base n : 1 <= iwid t -> fits (isgn t) (iwid t) base -> base <> 0 ->
  forall k mo po so i, fits (isgn t) (iwid t) k -> ~ (isgn t = true /\ k = imin t /\ base = -1) ->
  (forall j, (j < n)%nat -> mo (po + (i + Z.of_nat j) * so) <> None) ->
  exists k', iter_from n i (fun i st => let '(k, mo) := st in
       qr <- c_divrem t k base ;; mo' <- set mo po so i (snd qr) ;; ret (fst qr, mo')) (k, mo)
    = Some (k', upds mo po so i (digs n k base)).
Proof.
  intros Hw Fb Hb. induction n as [|n IH]; intros k mo po so i Fk Hn Ho; cbn [iter_from digs upds].
  - exists k. reflexivity.
  - destruct (quot_fits t k base Hw Fk Fb Hb Hn) as [Fq Fr].
    assert (ED : c_divrem t k base = Some (Z.quot k base, Z.rem k base)).
    { unfold c_divrem. replace (base =? 0) with false by lia.
      rewrite !wrap_id by assumption.
      destruct (isgn t && (32 <=? iwid t) && (k =? imin t) && (base =? -1)) eqn:C; [|reflexivity].
      exfalso. apply Hn. destruct (isgn t); [|discriminate]. repeat split; lia. }
    rewrite ED. cbn [bind fst snd].
    rewrite set_upd. 2:{ specialize (Ho O ltac:(lia)). rewrite Z.add_0_r in Ho. exact Ho. }
    cbn [bind ret]. 
    destruct (IH (Z.quot k base) (upd mo (po + i * so) (Z.rem k base)) po so (i + 1)) as (k' & E).
    + exact Fq.
    + apply quot_not_min; assumption.
    + intros j Hj. unfold upd. destruct (_ =? _); [discriminate|].
      specialize (Ho (S j) ltac:(lia)). replace (i + 1 + Z.of_nat j) with (i + Z.of_nat (S j)) by lia. exact Ho.
    + exists k'. exact E.
Qed.

Lemma quot_quot_pow k b n : b <> 0 -> Z.quot (Z.quot k b) (b ^ Z.of_nat n) = Z.quot k (b ^ Z.of_nat (S n)).
Proof.
  intros Hb. rewrite Nat2Z.inj_succ, Z.pow_succ_r by lia.
  apply Z.quot_quot; [assumption|]. apply Z.pow_nonzero; lia.
Qed.

Lemma digs_value n b : b <> 0 -> forall k, digits_value b (digs n k b) = Z.rem k (b ^ Z.of_nat n).
Proof.
  intros Hb. induction n as [|n IH]; intros k; cbn [digs digits_value].
  - cbn. rewrite Z.rem_1_r. reflexivity.
  - rewrite IH.
    assert (Hp : b ^ Z.of_nat n <> 0) by (apply Z.pow_nonzero; lia).
    assert (HpS : b ^ Z.of_nat (S n) <> 0) by (apply Z.pow_nonzero; lia).
    pose proof (Z.quot_rem' (Z.quot k b) (b ^ Z.of_nat n)) as Q1.
    pose proof (Z.quot_rem' k (b ^ Z.of_nat (S n))) as Q2.
    pose proof (Z.quot_rem' k b) as Q3.
    rewrite quot_quot_pow in Q1 by assumption.
    rewrite Nat2Z.inj_succ, Z.pow_succ_r in * by lia. nia.
Qed.

Lemma digs_range n b : b <> 0 -> forall k d, In d (digs n k b) ->
  Z.abs d < Z.abs b /\ (0 <= k -> 0 <= b -> 0 <= d) /\ (k <= 0 -> 0 <= b -> d <= 0).
Proof.
  intros Hb. induction n as [|n IH]; intros k d H; [destruct H|].
  destruct H as [<-|H].
  - split; [apply Z.rem_bound_abs; assumption|]. split; intros.
    + apply Z.rem_nonneg; assumption.
    + apply Z.rem_nonpos; assumption.
  - destruct (IH _ _ H) as (A & B & C). split; [assumption|]. split; intros.
    + apply B; [apply Z.quot_pos; lia|assumption].
    + apply C; [|assumption]. pose proof (Z.quot_rem' k b). pose proof (Z.rem_nonpos k b Hb ltac:(assumption)).
      pose proof (Z.rem_bound_abs k b Hb). nia.
Qed.

Lemma convert_to_base_correct t n k base mo po so :
  1 <= iwid t -> fits (isgn t) (iwid t) k -> fits (isgn t) (iwid t) base -> base <> 0 ->
  ~ (isgn t = true /\ k = - 2 ^ (iwid t - 1) /\ base = -1) ->
  writable mo po so n ->
  exists mo' d, convert_to_base_core_calc t (Z.of_nat n) k base mo po so = Some mo' /\
    wrote mo mo' po so d /\ length d = n /\
    digits_value base d = Z.rem k (base ^ Z.of_nat n) /\
    (forall x, In x d -> Z.abs x < Z.abs base /\ (0 <= k -> 0 <= base -> 0 <= x) /\ (k <= 0 -> 0 <= base -> x <= 0)).
Proof.
  intros Hw Fk Fb Hb Hn [Wo Ws].
  assert (Hn' : ~ (isgn t = true /\ k = imin t /\ base = -1)).
  { intros (A & B & C). apply Hn. unfold imin in B. rewrite A in B. auto. }
  destruct (convert_loop t base n Hw Fb Hb k mo po so 0 Fk Hn') as (k' & E).
  { intros j Hj. apply Wo. exact Hj. }
  exists (upds mo po so 0 (digs n k base)), (digs n k base).
  split.
  { unfold convert_to_base_core_calc, for_each. replace (Z.to_nat (Z.of_nat n - 0)) with n by lia.
    eapply eq_trans; [apply (f_equal (fun z => bind z (fun r => ret (snd r))) E)|reflexivity]. }
  split; [apply upds_wrote; rewrite digs_length; exact Ws|].
  split; [apply digs_length|]. split; [apply digs_value; assumption|].
  intros x Hx. eapply digs_range; eauto.
Qed.

(** nonnegative k, base >= 2: the digits are the mod-base^n residue and determine k *)
Lemma convert_to_base_nonneg t n k base mo po so :
  1 <= iwid t -> fits (isgn t) (iwid t) k -> fits (isgn t) (iwid t) base -> 0 <= k -> 2 <= base ->
  writable mo po so n ->
  exists mo' d, convert_to_base_core_calc t (Z.of_nat n) k base mo po so = Some mo' /\
    wrote mo mo' po so d /\ length d = n /\
    (forall x, In x d -> 0 <= x < base) /\
    digits_value base d = k mod base ^ Z.of_nat n /\
    (k < base ^ Z.of_nat n -> digits_value base d = k).
Proof.
  intros Hw Fk Fb Hk Hb Wr.
  destruct (convert_to_base_correct t n k base mo po so Hw Fk Fb ltac:(lia) ltac:(lia) Wr)
    as (mo' & d & E & W1 & L & V & R).
  exists mo', d. split; [exact E|]. split; [exact W1|]. split; [exact L|].
  assert (0 < base ^ Z.of_nat n) by (apply Z.pow_pos_nonneg; lia).
  assert (V' : digits_value base d = k mod base ^ Z.of_nat n) by (rewrite V; apply Z.rem_mod_nonneg; lia).
  split; [|split; [exact V'|]].
  - intros x Hx. destruct (R x Hx) as (A & B & _). specialize (B Hk ltac:(lia)). lia.
  - intros Hlt. rewrite V'. apply Z.mod_small. lia.
Qed.

Lemma convert_to_base_zero t n k mo po so : (0 < n)%nat ->
  convert_to_base_core_calc t (Z.of_nat n) k 0 mo po so = None.
Proof.
  intros Hn. unfold convert_to_base_core_calc, for_each. replace (Z.to_nat (Z.of_nat n - 0)) with n by lia.
  destruct n; [lia|]. reflexivity.
Qed.

(** ** one_hot *)
Lemma zero_loop n : forall mo po so i,
  (forall j, (j < n)%nat -> mo (po + (i + Z.of_nat j) * so) <> None) ->
  iter_from n i (fun i (mo : mem Z) => set mo po so i 0) mo = Some (upds mo po so i (repeat 0 n)).
Proof.
  induction n as [|n IH]; intros mo po so i Ho; cbn [iter_from repeat upds]; [reflexivity|].
  rewrite set_upd. 2:{ specialize (Ho O ltac:(lia)). rewrite Z.add_0_r in Ho. exact Ho. }
  cbn [bind]. apply IH. intros j Hj. unfold upd. destruct (_ =? _); [discriminate|].
  specialize (Ho (S j) ltac:(lia)). replace (i + 1 + Z.of_nat j) with (i + Z.of_nat (S j)) by lia. exact Ho.
Qed.

Lemma one_hot_correct n x mo po so :
  writable mo po so n ->
  exists mo', one_hot_core_calc (Z.of_nat n) x mo po so = Some mo' /\
    (forall i, (i < n)%nat -> mo' (po + Z.of_nat i * so) = Some (if Z.of_nat i =? x then 1 else 0)) /\
    (forall a, outside po so n a -> mo' a = mo a).
Proof.
  intros Wr. destruct Wr as [Wo Ws]. unfold one_hot_core_calc.
  assert (E : (if so =? 8 then for_each 0 (Z.of_nat n) (fun i (mo : mem Z) => set mo po 8 i 0) mo
               else for_each 0 (Z.of_nat n) (fun i (mo : mem Z) => set mo po so i 0) mo) =
              Some (upds mo po so 0 (repeat 0 n))).
  { unfold for_each. replace (Z.to_nat (Z.of_nat n - 0)) with n by lia.
    destruct (Z.eqb_spec so 8) as [->|_]; apply zero_loop; intros j Hj; apply Wo; exact Hj. }
  rewrite E. cbn [bind].
  destruct (upds_wrote (repeat 0 n) mo po so ltac:(rewrite repeat_length; exact Ws)) as [UV UF].
  rewrite repeat_length in UF.
  assert (Z0 : forall i, (i < n)%nat -> upds mo po so 0 (repeat 0 n) (po + Z.of_nat i * so) = Some 0).
  { intros i Hi. rewrite UV by (rewrite repeat_length; exact Hi).
    destruct (nth_error (repeat 0 n) i) as [o|] eqn:Eo.
    - apply nth_error_In in Eo. apply repeat_spec in Eo. congruence.
    - apply nth_error_None in Eo. rewrite repeat_length in Eo. lia. }
  destruct ((0 <=? x) && (x <? Z.of_nat n)) eqn:C.
  - pose proof (Z0 (Z.to_nat x) ltac:(lia)) as Zx. rewrite Z2Nat.id in Zx by lia.
    rewrite set_upd by congruence. eexists. split; [reflexivity|]. split.
    + intros i Hi. destruct (Z.eqb_spec (Z.of_nat i) x) as [->|Ne].
      * apply upd_same.
      * rewrite upd_other; [apply Z0; exact Hi|]. destruct Ws as [Ws|Ws]; [nia|lia].
    + intros a Ha. rewrite upd_other; [apply UF; exact Ha|].
      intros ->. apply (Ha (Z.to_nat x)); [lia|]. rewrite Z2Nat.id by lia. reflexivity.
  - eexists. split; [reflexivity|]. split; [|exact UF].
    intros i Hi. replace (Z.of_nat i =? x) with false by lia. apply Z0. exact Hi.
Qed.

(** ** peaktopeak *)
Section P2P.
  Context {T : Type} (cmp : T -> T -> option comparison) (L : cmp_laws cmp).

  Lemma p2p_contig_minmax sz mx px x0 l :
    view mx px sz (x0 :: l) ->
    p2p_scan_contig cmp sz (Z.of_nat (length (x0 :: l))) mx px =
    minmax_core cmp (Z.of_nat (length (x0 :: l))) mx px sz.
  Proof.
    intros V. unfold p2p_scan_contig, minmax_core. rewrite (view_load mx px sz x0 l V). cbn [bind].
    apply for_each_ext. intros k [a b] _. destruct (get mx px sz k) as [x|]; cbn [bind]; [|reflexivity].
    unfold ret, std_min, std_max. rewrite (gtb_ltb cmp L x b). reflexivity.
  Qed.

  Definition fp2p (k : Z) (x : T) (st : T * T) : M (T * T) :=
    let '(xmin, xmax) := st in
    ret (if ltb cmp x xmin then (x, xmax) else if gtb cmp x xmax then (xmin, x) else (xmin, xmax)).

  Lemma p2p_scan_minmax sx mx px x0 l :
    view mx px sx (x0 :: l) ->
    p2p_scan cmp sx (Z.of_nat (length (x0 :: l))) mx px =
    minmax_core cmp (Z.of_nat (length (x0 :: l))) mx px sx.
  Proof.
    intros V. unfold p2p_scan, minmax_core. rewrite (view_load mx px sx x0 l V). cbn [bind].
    rewrite (for_each_tail mx px sx x0 l _ fp2p _ V).
    2:{ intros k [a b] x Hg. rewrite Hg. reflexivity. }
    rewrite (for_each_tail mx px sx x0 l _ (fmm cmp) _ V).
    2:{ intros k [a b] x Hg. rewrite Hg. reflexivity. }
    assert (G : forall l k a b, (is_nan cmp a /\ is_nan cmp b) \/ leb cmp a b = true ->
       liter k l fp2p (a, b) = liter k l (fmm cmp) (a, b)).
    { clear V x0 l. induction l as [|x l IH]; intros k a b Hab; cbn [liter]; [reflexivity|].
      unfold fp2p at 1, fmm at 1, std_min, std_max, ret. rewrite (gtb_ltb cmp L x b).
      destruct (ltb cmp x a) eqn:C1.
      - assert (C2 : ltb cmp b x = false).
        { destruct Hab as [[Na Nb]|Hab].
          - apply (ltb_nan_l cmp L). apply isnan_none; assumption.
          - apply (le_not_lt cmp L). apply (ltb_leb cmp). eapply lt_le_trans; eauto. }
        rewrite C2. cbn [bind]. apply IH. right.
        destruct Hab as [[Na Nb]|Hab].
        * rewrite (ltb_nan_r cmp L) in C1 by (apply isnan_none; assumption). discriminate.
        * apply (ltb_leb cmp). eapply lt_le_trans; eauto.
      - destruct (ltb cmp b x) eqn:C2; cbn [bind]; apply IH.
        * right. destruct Hab as [[Na Nb]|Hab].
          -- rewrite (ltb_nan_l cmp L) in C2 by (apply isnan_none; assumption). discriminate.
          -- apply (ltb_leb cmp). eapply le_lt_trans; eauto.
        * assumption. }
    apply G. destruct (cmp_refl _ L x0) as [H|H].
    - right. apply eqb_leb. unfold eqb. rewrite H. reflexivity.
    - left. split; exact H.
  Qed.

  Lemma peaktopeak_general {U} (diff : T -> T -> M U) sz mx px sx x0 l :
    view mx px sx (x0 :: l) ->
    exists xmin imin xmax imax,
      min_argmin_core cmp (Z.of_nat (length (x0 :: l))) mx px sx = Some (xmin, imin) /\
      max_argmax_core cmp (Z.of_nat (length (x0 :: l))) mx px sx = Some (xmax, imax) /\
      peaktopeak_core cmp diff sz (Z.of_nat (length (x0 :: l))) mx px sx = option_map Some (diff xmax xmin).
  Proof.
    intros V. destruct (minmax_agrees cmp L mx px sx x0 l V) as (xmin & imin & xmax & imax & E1 & E2 & E3 & _).
    exists xmin, imin, xmax, imax. split; [exact E1|]. split; [exact E2|].
    unfold peaktopeak_core. replace (Z.of_nat (length (x0 :: l)) =? 0) with false by (cbn [length]; lia).
    assert (E : (if sx =? sz then p2p_scan_contig cmp sz (Z.of_nat (length (x0 :: l))) mx px
                 else p2p_scan cmp sx (Z.of_nat (length (x0 :: l))) mx px) = Some (xmin, xmax)).
    { destruct (Z.eqb_spec sx sz) as [<-|_].
      - rewrite p2p_contig_minmax by assumption. exact E3.
      - rewrite p2p_scan_minmax by assumption. exact E3. }
    rewrite E. cbn [bind fst snd]. destruct (diff xmax xmin); reflexivity.
  Qed.
End P2P.

Lemma first_min_is_min l k x : first_min Zcmp l k x -> is_min l x.
Proof.
  intros (H1 & H2 & H3 & H4). split; [eapply nth_error_In; eauto|].
  intros y Hy. assert (N : ~ is_nan Zcmp y) by (unfold is_nan, Zcmp; discriminate).
  specialize (H3 y Hy N). unfold le_spec, Zcmp in H3.
  destruct (Z.compare_spec x y); destruct H3; try discriminate; lia.
Qed.
Lemma first_max_is_max l k x : first_max Zcmp l k x -> is_max l x.
Proof.
  intros (H1 & H2 & H3 & H4). split; [eapply nth_error_In; eauto|].
  intros y Hy. assert (N : ~ is_nan Zcmp y) by (unfold is_nan, Zcmp; discriminate).
  specialize (H3 y Hy N). unfold le_spec, Zcmp in H3.
  destruct (Z.compare_spec y x); destruct H3; try discriminate; lia.
Qed.

Lemma max_diff_exact w a b : 1 <= w -> fits true w a -> fits true w b -> b <= a ->
  max_diff w a b = Some (a - b) /\ fits false w (a - b).
Proof.
  intros Hw Fa Fb Hab. unfold fits in *. pose proof (pow_half _ Hw) as P.
  split; [|lia]. unfold max_diff.
  destruct (((0 <? a) && (0 <? b)) || ((a <=? 0) && (b <=? 0))) eqn:C; unfold ret; f_equal.
  - apply (wrap_id (mkI false w)); cbn; unfold fits; lia.
  - assert (E : wrap (mkI false w) (- b) = - b) by (apply wrap_id; cbn; unfold fits; lia).
    rewrite E. replace (a + - b) with (a - b) by lia. apply (wrap_id (mkI false w)); cbn; unfold fits; lia.
Qed.

Lemma max_diff_strict_defined w a b : 1 <= w -> fits true w a -> fits true w b -> b <= a ->
  (max_diff_strict w a b = max_diff w a b /\ (w < 32 \/ b <> - 2 ^ (w - 1) \/ a < 0)) \/
  (max_diff_strict w a b = None /\ 32 <= w /\ b = - 2 ^ (w - 1) /\ 0 <= a).
Proof.
  intros Hw Fa Fb Hab. unfold fits in *.
  pose proof (pow_half _ Hw) as P.
  assert (PM : w < 32 -> 2 * 2 ^ (w - 1) <= 2 ^ (Z.max 32 w - 1)).
  { intros H. rewrite <- P. apply Z.pow_le_mono_r; lia. }
  assert (PE : 32 <= w -> Z.max 32 w = w) by lia.
  unfold max_diff_strict, max_diff, in_range, imin, imax. cbn [isgn iwid].
  destruct (Z.ltb_spec w 32) as [Hs|Hs].
  - left. specialize (PM Hs). split; [|left; exact Hs].
    destruct (((0 <? a) && (0 <? b)) || ((a <=? 0) && (b <=? 0))) eqn:C.
    + replace ((- 2 ^ (Z.max 32 w - 1) <=? a - b) && (a - b <=? 2 ^ (Z.max 32 w - 1) - 1)) with true by lia. reflexivity.
    + replace ((- 2 ^ (Z.max 32 w - 1) <=? - b) && (- b <=? 2 ^ (Z.max 32 w - 1) - 1)) with true by lia. reflexivity.
  - rewrite PE by exact Hs.
    destruct (((0 <? a) && (0 <? b)) || ((a <=? 0) && (b <=? 0))) eqn:C.
    + destruct ((- 2 ^ (w - 1) <=? a - b) && (a - b <=? 2 ^ (w - 1) - 1)) eqn:D.
      * left. split; [reflexivity|]. right. lia.
      * right. split; [reflexivity|]. lia.
    + destruct ((- 2 ^ (w - 1) <=? - b) && (- b <=? 2 ^ (w - 1) - 1)) eqn:D.
      * left. split; [reflexivity|]. right. lia.
      * right. split; [reflexivity|]. lia.
Qed.

Lemma peaktopeak_signed w sz mx px sx x0 l :
  1 <= w -> view mx px sx (x0 :: l) -> (forall x, In x (x0 :: l) -> fits true w x) ->
  exists a b, is_max (x0 :: l) a /\ is_min (x0 :: l) b /\ fits false w (a - b) /\
    peaktopeak_core Zcmp (max_diff w) sz (Z.of_nat (length (x0 :: l))) mx px sx = Some (Some (a - b)) /\
    peaktopeak_core Zcmp (max_diff_strict w) sz (Z.of_nat (length (x0 :: l))) mx px sx =
      (if (32 <=? w) && (b =? - 2 ^ (w - 1)) && (0 <=? a) then None else Some (Some (a - b))).
Proof.
  intros Hw V HF.
  assert (N : ~ is_nan Zcmp x0) by (unfold is_nan, Zcmp; discriminate).
  destruct (min_argmin_correct Zcmp Zcmp_laws mx px sx x0 l V N) as (b & i & Eb & Mb).
  destruct (max_argmax_correct Zcmp Zcmp_laws mx px sx x0 l V N) as (a & j & Ea & Ma).
  apply first_min_is_min in Mb. apply first_max_is_max in Ma.
  destruct (peaktopeak_general Zcmp Zcmp_laws (max_diff w) sz mx px sx x0 l V) as (b1 & i1 & a1 & j1 & G1 & G2 & G3).
  destruct (peaktopeak_general Zcmp Zcmp_laws (max_diff_strict w) sz mx px sx x0 l V) as (b2 & i2 & a2 & j2 & G4 & G5 & G6).
  rewrite Eb in G1, G4. rewrite Ea in G2, G5. injection G1 as <- <-. injection G4 as <- <-. injection G2 as <- <-. injection G5 as <- <-.
  assert (Hab : b <= a) by (apply (proj2 Ma); apply Mb).
  destruct (max_diff_exact w a b Hw (HF _ (proj1 Ma)) (HF _ (proj1 Mb)) Hab) as [E F].
  exists a, b. split; [exact Ma|]. split; [exact Mb|]. split; [exact F|].
  rewrite G3, G6, E. split; [reflexivity|].
  destruct (max_diff_strict_defined w a b Hw (HF _ (proj1 Ma)) (HF _ (proj1 Mb)) Hab) as [[-> D]|[-> D]].
  - rewrite E. replace ((32 <=? w) && (b =? - 2 ^ (w - 1)) && (0 <=? a)) with false by lia. reflexivity.
  - replace ((32 <=? w) && (b =? - 2 ^ (w - 1)) && (0 <=? a)) with true by lia. reflexivity.
Qed.

Lemma peaktopeak_unsigned w sz mx px sx x0 l :
  1 <= w -> view mx px sx (x0 :: l) -> (forall x, In x (x0 :: l) -> fits false w x) ->
  exists a b, is_max (x0 :: l) a /\ is_min (x0 :: l) b /\ fits false w (a - b) /\
    peaktopeak_core Zcmp (udiff w) sz (Z.of_nat (length (x0 :: l))) mx px sx = Some (Some (a - b)).
Proof.
  intros Hw V HF.
  assert (N : ~ is_nan Zcmp x0) by (unfold is_nan, Zcmp; discriminate).
  destruct (min_argmin_correct Zcmp Zcmp_laws mx px sx x0 l V N) as (b & i & Eb & Mb).
  destruct (max_argmax_correct Zcmp Zcmp_laws mx px sx x0 l V N) as (a & j & Ea & Ma).
  apply first_min_is_min in Mb. apply first_max_is_max in Ma.
  destruct (peaktopeak_general Zcmp Zcmp_laws (udiff w) sz mx px sx x0 l V) as (b1 & i1 & a1 & j1 & G1 & G2 & G3).
  rewrite Eb in G1. rewrite Ea in G2. injection G1 as <- <-. injection G2 as <- <-.
  assert (Hab : b <= a) by (apply (proj2 Ma); apply Mb).
  pose proof (HF _ (proj1 Ma)) as Fa. pose proof (HF _ (proj1 Mb)) as Fb. unfold fits in Fa, Fb.
  assert (F : fits false w (a - b)) by (unfold fits; lia).
  exists a, b. split; [exact Ma|]. split; [exact Mb|]. split; [exact F|].
  rewrite G3. unfold udiff, ret. rewrite wrap_id by assumption. reflexivity.
Qed.

Lemma peaktopeak_strict_refuted :
  exists x : list Z, (forall k, In k x -> fits true 32 k) /\ view (mem_of 0 4 x) 0 4 x /\
    peaktopeak_core Zcmp (max_diff_strict 32) 4 (Z.of_nat (length x)) (mem_of 0 4 x) 0 4 = None.
Proof.
  exists [5; -2147483648]. split; [|split].
  - intros k [<-|[<-|[]]]; unfold fits; cbn; lia.
  - apply view_mem_of; lia.
  - vm_compute. reflexivity.
Qed.

(** ** issnan *)
Lemma land_ones_shift v a n : 0 <= a -> 0 <= n ->
  Z.land v (Z.shiftl (Z.ones n) a) = (v / 2 ^ a) mod 2 ^ n * 2 ^ a.
Proof.
  intros Ha Hn. rewrite <- Z.land_ones by assumption. rewrite <- Z.shiftr_div_pow2 by assumption.
  rewrite <- Z.shiftl_mul_pow2 by assumption.
  apply Z.bits_inj'. intros i Hi. rewrite Z.land_spec.
  rewrite !Z.shiftl_spec by assumption.
  destruct (Z.ltb_spec (i - a) 0).
  - rewrite (Z.testbit_neg_r (Z.ones n)), (Z.testbit_neg_r (Z.land _ _)) by lia. apply andb_false_r.
  - rewrite Z.land_spec, Z.shiftr_spec by lia. replace (i - a + a) with i by lia. reflexivity.
Qed.

Lemma issnan_bits_correct mw ew expquiet exp payload v :
  1 <= mw -> 1 <= ew ->
  expquiet = Z.shiftl (Z.ones (ew + 1)) (mw - 1) -> exp = Z.ones ew * 2 ^ mw -> payload = Z.ones (mw - 1) ->
  (issnan_bits expquiet exp payload v = true <->
   exponent_field mw ew v = 2 ^ ew - 1 /\ quiet_bit mw v = 0 /\ payload_field mw v <> 0).
Proof.
  intros Hm He -> -> ->. unfold issnan_bits, exponent_field, quiet_bit, payload_field.
  rewrite land_ones_shift by lia. rewrite Z.land_ones by lia.
  set (u := v / 2 ^ (mw - 1)).
  assert (Ee : v / 2 ^ mw = u / 2).
  { unfold u. rewrite Z.div_div by (try apply Z.pow_pos_nonneg; try apply Z.pow_nonzero; lia).
    rewrite (pow_half mw Hm), Z.mul_comm. reflexivity. }
  rewrite Ee. rewrite (pow_half mw Hm). rewrite Z.ones_equiv.
  assert (P0 : 0 < 2 ^ (mw - 1)) by (apply Z.pow_pos_nonneg; lia).
  assert (P1 : 0 < 2 ^ ew) by (apply Z.pow_pos_nonneg; lia).
  assert (Pe : 2 ^ (ew + 1) = 2 * 2 ^ ew) by (rewrite Z.pow_add_r by lia; lia).
  assert (Eu : u mod 2 ^ (ew + 1) = 2 * ((u / 2) mod 2 ^ ew) + u mod 2).
  { rewrite Pe. rewrite Z.rem_mul_r by lia. ring. }
  rewrite Eu. pose proof (Z.mod_pos_bound u 2 ltac:(lia)) as B1.
  pose proof (Z.mod_pos_bound (u / 2) (2 ^ ew) ltac:(lia)) as B2.
  unfold Z.pred.
  rewrite andb_true_iff, negb_true_iff, Z.eqb_eq, Z.eqb_neq.
  split; [intros [A B]|intros (A & B & C)]; [|].
  - assert (A' : 2 * ((u / 2) mod 2 ^ ew) + u mod 2 = (2 ^ ew + -1) * 2).
    { apply (Z.mul_reg_r _ _ (2 ^ (mw - 1))); [lia|]. rewrite A. ring. }
    clear A. repeat split; [lia|lia|exact B].
  - split; [rewrite A, B; ring|assumption].
Qed.

Lemma issnanh_correct v :
  issnanh v = true <-> exponent_field 10 5 v = 2 ^ 5 - 1 /\ quiet_bit 10 v = 0 /\ payload_field 10 v <> 0.
Proof. apply issnan_bits_correct; try lia; reflexivity. Qed.
Lemma issnanf_correct v :
  issnanf v = true <-> exponent_field 23 8 v = 2 ^ 8 - 1 /\ quiet_bit 23 v = 0 /\ payload_field 23 v <> 0.
Proof. apply issnan_bits_correct; try lia; reflexivity. Qed.
Lemma issnan_correct v :
  issnan v = true <-> exponent_field 52 11 v = 2 ^ 11 - 1 /\ quiet_bit 52 v = 0 /\ payload_field 52 v <> 0.
Proof. apply issnan_bits_correct; try lia; reflexivity. Qed.

(** the same against Flocq's decoding of the interchange formats: a NaN whose
    stored fraction has its top bit clear *)
Lemma snan_flocq mw ew v : 2 <= mw -> 2 <= ew ->
  (exponent_field mw ew v = 2 ^ ew - 1 /\ quiet_bit mw v = 0 /\ payload_field mw v <> 0) <->
  exists s pl, binary_float_of_bits_aux mw ew v = F754_nan s pl /\ Zpos pl < 2 ^ (mw - 1).
Proof.
  intros Hm He. unfold exponent_field, quiet_bit, payload_field, binary_float_of_bits_aux, split_bits.
  assert (P0 : 0 < 2 ^ (mw - 1)) by (apply Z.pow_pos_nonneg; lia).
  assert (P1 : 2 ^ 2 <= 2 ^ ew) by (apply Z.pow_le_mono_r; lia).
  pose proof (pow_half mw ltac:(lia)) as Ph.
  assert (EM : v mod 2 ^ mw = v mod 2 ^ (mw - 1) + 2 ^ (mw - 1) * ((v / 2 ^ (mw - 1)) mod 2)).
  { rewrite Ph, (Z.mul_comm 2). apply Z.rem_mul_r; lia. }
  pose proof (Z.mod_pos_bound v (2 ^ (mw - 1)) P0) as B1.
  pose proof (Z.mod_pos_bound (v / 2 ^ (mw - 1)) 2 ltac:(lia)) as B2.
  pose proof (Z.mod_pos_bound v (2 ^ mw) ltac:(lia)) as B3.
  pose proof (Z.mod_pos_bound (v / 2 ^ mw) (2 ^ ew) ltac:(lia)) as B4.
  set (ex := (v / 2 ^ mw) mod 2 ^ ew) in *. set (mx := v mod 2 ^ mw) in *.
  pose proof (Zeq_is_eq_bool ex 0) as Q1. pose proof (Zeq_is_eq_bool ex (2 ^ ew - 1)) as Q2.
  split.
  - intros (A & B & C).
    assert (A1 : ex = 2 ^ ew - 1) by lia.
    destruct (Zeq_bool ex 0); [exfalso; destruct Q1 as [_ Q1]; specialize (Q1 eq_refl); lia|].
    rewrite (proj1 Q2 A1).
    destruct mx as [|px|px] eqn:Emx; [lia| |lia].
    eexists _, px. split; [reflexivity|]. nia.
  - intros (s & pl & E & Hpl).
    destruct (Zeq_bool ex 0).
    { destruct mx; try discriminate. lia. }
    destruct (Zeq_bool ex (2 ^ ew - 1)) eqn:C2.
    + assert (A1 : ex = 2 ^ ew - 1) by (apply Q2; reflexivity).
      destruct mx as [|px|px] eqn:Emx; try discriminate; [|lia].
      injection E as _ <-. split; [lia|].
      assert (Q : (v / 2 ^ (mw - 1)) mod 2 = 0 \/ (v / 2 ^ (mw - 1)) mod 2 = 1) by lia.
      destruct Q as [Q|Q]; rewrite Q in EM; [split; [exact Q|lia]|lia].
    + destruct (mx + 2 ^ mw) eqn:C3; try discriminate; lia.
Qed.

Lemma issnan_flocq64 v :
  issnan v = true <-> exists s pl, B2FF 53 1024 (b64_of_bits v) = F754_nan s pl /\ Zpos pl < 2 ^ 51.
Proof.
  rewrite issnan_correct. unfold b64_of_bits, binary_float_of_bits. rewrite B2FF_FF2B.
  apply (snan_flocq 52 11); lia.
Qed.
Lemma issnan_flocq32 v :
  issnanf v = true <-> exists s pl, B2FF 24 128 (b32_of_bits v) = F754_nan s pl /\ Zpos pl < 2 ^ 22.
Proof.
  rewrite issnanf_correct. unfold b32_of_bits, binary_float_of_bits. rewrite B2FF_FF2B.
  apply (snan_flocq 23 8); lia.
Qed.

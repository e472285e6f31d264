(** Proofs about mad, gini and rmad. *)
From Coq Require Import ZArith Reals List Bool Lia Lra Permutation Sorted.
From Flocq Require Import Core BinarySingleNaN.
From Verif Require Import CSem CSemP FoldP Num NumP NumF M_Stat S_Stat P_Kbn P_MeanVar.
Import ListNotations.
Open Scope R_scope.

(** ** insertion sort meets the contract *)
Section Isort.
  Context {T} (cmp : T -> T -> option comparison) (L : cmp_laws cmp).
  Lemma insert_perm a l : Permutation (a :: l) (insert cmp a l).
  Proof.
    induction l as [|b l IH]; [reflexivity|]. cbn [insert]. destruct (leb cmp a b); [reflexivity|].
    etransitivity; [apply perm_swap|]. constructor. exact IH.
  Qed.
  Lemma isort_perm l : Permutation l (isort cmp l).
  Proof. induction l as [|a l IH]; [reflexivity|]. cbn [isort]. rewrite <- insert_perm. constructor. exact IH. Qed.
  Lemma insert_sorted a l : isnanb cmp a = false -> (forall v, In v l -> isnanb cmp v = false) ->
    StronglySorted (fun a b => leb cmp a b = true) l -> StronglySorted (fun a b => leb cmp a b = true) (insert cmp a l).
  Proof.
    intros Ha. induction l as [|b l IH]; intros Hl S; cbn [insert].
    - constructor; constructor.
    - inversion S as [|? ? S1 S2]; subst. destruct (leb cmp a b) eqn:E.
      + constructor; [exact S|]. constructor; [exact E|].
        rewrite Forall_forall in *. intros c Hc. apply (leb_trans cmp L a b c E). apply S2, Hc.
      + assert (Eba : leb cmp b a = true).
        { apply (not_lt_le cmp L a b Ha (Hl b (or_introl eq_refl))).
          rewrite leb_lt_or_eq in E. apply orb_false_elim in E. apply E. }
        constructor.
        * apply IH; [intros v Hv; apply Hl; right; exact Hv|exact S1].
        * rewrite Forall_forall in *. intros c Hc.
          apply (Permutation_in c (Permutation_sym (insert_perm a l))) in Hc. destruct Hc as [<-|Hc]; [exact Eba|apply S2, Hc].
  Qed.
  Lemma isort_contract : sort_contract cmp (isort cmp).
  Proof.
    intros l Hl. split; [apply isort_perm|]. induction l as [|a l IH]; [constructor|].
    cbn [isort]. apply insert_sorted.
    - apply Hl. left; reflexivity.
    - intros v Hv. apply Hl. right. apply (Permutation_in v (Permutation_sym (isort_perm l))). exact Hv.
    - apply IH. intros v Hv. apply Hl. right; exact Hv.
  Qed.
End Isort.

(** ** any arithmetic *)
Section Any.
  Context {T : Type} (A : arith T) (sortf : list T -> list T).
  Lemma mad_copy_view mx px sx (x : list T) : view mx px sx x -> mad_copy (Z.of_nat (length x)) mx px sx = Some x.
  Proof.
    intros V. unfold mad_copy.
    rewrite (for_each_fold mx px sx x _ (fun tmp a => tmp ++ [a]) [] V).
    - f_equal. assert (G : forall l acc, fold_left (fun tmp (a : T) => tmp ++ [a]) l acc = acc ++ l).
      { clear. induction l as [|a l IH]; intros acc; cbn [fold_left]; [rewrite app_nil_r; reflexivity|].
        rewrite IH, <- app_assoc. reflexivity. }
      rewrite G. reflexivity.
    - intros k s a _ Hg. rewrite Hg. reflexivity.
  Qed.

  Lemma unnorm_view mx px sx (x : list T) : view mx px sx x ->
    (forall a, In a x -> isnanb (a_cmp A) a = false) ->
    unnormalized_mad A sortf (Z.of_nat (length x)) mx px sx =
      match sortf x with [] => None | x0 :: rest => Some (mad_accum A 1 rest (a_ofZ A 0) x0) end.
  Proof.
    intros V H. unfold unnormalized_mad. rewrite (mad_copy_view mx px sx x V). cbn [bind].
    destruct (existsb _ x) eqn:E; [|reflexivity].
    apply existsb_exists in E. destruct E as (a & Ha & Na). rewrite (H a Ha) in Na. discriminate.
  Qed.

  (** two sorted permutations of one list coincide when ties are identical *)
  Lemma sorted_unique (L : cmp_laws (a_cmp A)) : forall l1 l2 : list T,
    Permutation l1 l2 ->
    (forall a b, In a l1 -> In b l1 -> a_cmp A a b = Some Eq -> a = b) ->
    StronglySorted (fun a b => leb (a_cmp A) a b = true) l1 ->
    StronglySorted (fun a b => leb (a_cmp A) a b = true) l2 -> l1 = l2.
  Proof.
    induction l1 as [|a l1 IH]; intros l2 P Q S1 S2.
    - apply Permutation_nil in P. congruence.
    - destruct l2 as [|b l2]; [apply Permutation_sym, Permutation_nil in P; discriminate|].
      inversion S1 as [|? ? S1a S1b]; subst. inversion S2 as [|? ? S2a S2b]; subst.
      rewrite Forall_forall in S1b, S2b.
      assert (E : a = b).
      { assert (Hb : In b (a :: l1)) by (apply (Permutation_in b (Permutation_sym P)); left; reflexivity).
        assert (Ha : In a (b :: l2)) by (apply (Permutation_in a P); left; reflexivity).
        destruct Ha as [->|Ha]; [reflexivity|]. destruct Hb as [->|Hb]; [reflexivity|].
        pose proof (S1b b Hb) as E1. pose proof (S2b a Ha) as E2.
        apply Q; [left; reflexivity|right; exact Hb|].
        pose proof (le_antisym _ L a b E1 E2) as E3. unfold eqb in E3. destruct (a_cmp A a b) as [[]|]; congruence. }
      subst b. f_equal. apply IH; [apply (Permutation_cons_inv P)| |exact S1a|exact S2a].
      intros c d Hc Hd. apply Q; right; assumption.
  Qed.

  Lemma unnorm_perm (L : cmp_laws (a_cmp A)) mx px sx my py sy (x y : list T) :
    sort_contract (a_cmp A) sortf -> view mx px sx x -> view my py sy y -> Permutation x y ->
    (forall a, In a x -> isnanb (a_cmp A) a = false) ->
    (forall a b, In a x -> In b x -> a_cmp A a b = Some Eq -> a = b) ->
    unnormalized_mad A sortf (Z.of_nat (length x)) mx px sx = unnormalized_mad A sortf (Z.of_nat (length y)) my py sy.
  Proof.
    intros C V V' P H Q.
    assert (H' : forall a, In a y -> isnanb (a_cmp A) a = false).
    { intros a Ha. apply H. apply (Permutation_in a (Permutation_sym P) Ha). }
    rewrite (unnorm_view mx px sx x V H), (unnorm_view my py sy y V' H').
    destruct (C x H) as [P1 S1]. destruct (C y H') as [P2 S2].
    rewrite (sorted_unique L (sortf x) (sortf y)); [reflexivity| | |exact S1|exact S2].
    - rewrite <- P1, <- P2. exact P.
    - intros a b Ha Hb. apply Q; apply (Permutation_in _ (Permutation_sym P1)); assumption.
  Qed.

  Theorem mad_perm (L : cmp_laws (a_cmp A)) mx px sx my py sy (x y : list T) unb :
    sort_contract (a_cmp A) sortf -> view mx px sx x -> view my py sy y -> Permutation x y ->
    (forall a, In a x -> isnanb (a_cmp A) a = false) ->
    (forall a b, In a x -> In b x -> a_cmp A a b = Some Eq -> a = b) ->
    mad_core A sortf (Z.of_nat (length x)) mx px sx unb = mad_core A sortf (Z.of_nat (length y)) my py sy unb /\
    gini_core A sortf (Z.of_nat (length x)) mx px sx unb = gini_core A sortf (Z.of_nat (length y)) my py sy unb /\
    rmad_core A sortf (Z.of_nat (length x)) mx px sx unb = rmad_core A sortf (Z.of_nat (length y)) my py sy unb.
  Proof.
    intros C V V' P H Q. pose proof (unnorm_perm L mx px sx my py sy x y C V V' P H Q) as E.
    assert (EL : length x = length y) by (apply Permutation_length, P).
    unfold rmad_core, mad_core, gini_core. rewrite E, EL. repeat split; reflexivity.
  Qed.
End Any.

(** ** exact arithmetic *)
Fixpoint upper (l : list R) : R :=
  match l with [] => 0 | a :: l' => rsum (map (fun b => Rabs (a - b)) l') + upper l' end.

Lemma rpairs_upper l : rpairs l = 2 * upper l.
Proof.
  unfold rpairs. induction l as [|a l IH]; [cbn; ring|].
  cbn [map rsum upper]. rewrite Rminus_diag_eq by reflexivity. rewrite Rabs_R0.
  assert (E : rsum (map (fun c => Rabs (c - a) + rsum (map (fun b => Rabs (c - b)) l)) l)
            = rsum (map (fun b => Rabs (a - b)) l) + 2 * upper l).
  { rewrite rsum_map_add. rewrite IH. f_equal. apply rsum_ext. intros b _. apply Rabs_minus_sym. }
  rewrite E. ring.
Qed.

Lemma rsum_perm l1 l2 : Permutation l1 l2 -> rsum l1 = rsum l2.
Proof. induction 1; cbn [rsum]; try lra. Qed.
Lemma rpairs_perm l1 l2 : Permutation l1 l2 -> rpairs l1 = rpairs l2.
Proof.
  intros P. unfold rpairs.
  rewrite (rsum_perm _ _ (Permutation_map (fun a => rsum (map (fun b => Rabs (a - b)) l1)) P)).
  apply rsum_ext. intros a _. apply rsum_perm, Permutation_map, P.
Qed.

Lemma upper_snoc l x : upper (l ++ [x]) = upper l + rsum (map (fun p => Rabs (p - x)) l).
Proof.
  induction l as [|a l IH]; cbn [app upper map rsum]; [ring|].
  rewrite IH, map_app, rsum_app. cbn [map rsum]. ring.
Qed.

Lemma sum_below l x : (forall p, In p l -> p <= x) -> rsum (map (fun p => Rabs (p - x)) l) = INR (length l) * x - rsum l.
Proof.
  intros H. rewrite (rsum_ext _ (fun p => x + (-1) * p)).
  - rewrite rsum_map_add, rsum_const, rsum_map_scal, map_id. ring.
  - intros p Hp. specialize (H p Hp). rewrite Rabs_left1 by lra. ring.
Qed.

Lemma mad_accum_exact : forall l pre sum,
  StronglySorted Rle (pre ++ l) ->
  mad_accum earith (Z.of_nat (length pre)) (map Fin l) (Fin sum) (Fin (rsum pre))
   = (Fin (sum + (upper (pre ++ l) - upper pre)), Fin (rsum pre + rsum l)).
Proof.
  induction l as [|x l IH]; intros pre sum S.
  - rewrite app_nil_r. cbn [map mad_accum rsum]. apply f_equal2; f_equal; ring.
  - cbn [map mad_accum]. cbn [a_add a_sub a_mul a_ofZ earith emul esub eopp eadd].
    replace (Z.of_nat (length pre) + 1)%Z with (Z.of_nat (length (pre ++ [x]))) by (rewrite app_length; cbn [length]; lia).
    replace (rsum pre + x) with (rsum (pre ++ [x])) by (rewrite rsum_app; cbn [rsum]; ring).
    rewrite IH by (rewrite <- app_assoc; exact S).
    rewrite <- app_assoc. cbn [app]. rewrite upper_snoc.
    rewrite sum_below.
    + rewrite rsum_app. cbn [rsum]. rewrite INR_IZR_INZ. apply f_equal2; f_equal; ring.
    + intros p Hp. clear IH. induction pre as [|q pre IHp]; [destruct Hp|].
      cbn [app] in S. inversion S as [|? ? S1 S2]; subst. destruct Hp as [<-|Hp].
      * rewrite Forall_forall in S2. apply S2. apply in_or_app. right; left; reflexivity.
      * apply IHp; [exact S1|exact Hp].
Qed.

Lemma sorted_Fin l : StronglySorted (fun a b => leb ecmp a b = true) (map Fin l) -> StronglySorted Rle l.
Proof.
  induction l as [|a l IH]; intros S; [constructor|]. cbn [map] in S. inversion S as [|? ? S1 S2]; subst.
  constructor; [apply IH, S1|]. rewrite Forall_forall in *. intros b Hb. apply leb_Fin. apply S2.
  apply in_map. exact Hb.
Qed.

Section Exact.
  Context (sortf : list ER -> list ER) (C : sort_contract ecmp sortf).

  Lemma unnorm_exact mx px sx x : view mx px sx (map Fin x) -> x <> [] ->
    unnormalized_mad earith sortf (Z.of_nat (length x)) mx px sx = Some (Fin (rpairs x / 2), Fin (rsum x)).
  Proof.
    intros V Hx.
    assert (N : forall a, In a (map Fin x) -> isnanb ecmp a = false).
    { intros a Ha. apply in_map_iff in Ha. destruct Ha as (r & <- & _). apply isnanb_Fin. }
    rewrite <- (map_length Fin x). rewrite (unnorm_view earith sortf mx px sx _ V N).
    destruct (C _ N) as [P S].
    destruct (Permutation_map_inv Fin _ (Permutation_sym P)) as (s & Es & Ps).
    rewrite Es in *. apply sorted_Fin in S.
    destruct s as [|s0 s]; [apply Permutation_sym, Permutation_nil in Ps; congruence|]. cbn [map].
    pose proof (mad_accum_exact s [s0] 0 S) as K. cbn [length rsum app] in K.
    replace (s0 + 0) with s0 in K by ring. change (Z.of_nat 1) with 1%Z in K.
    cbn [a_ofZ earith]. rewrite K. do 2 f_equal.
    - rewrite (rpairs_perm _ _ Ps), rpairs_upper. f_equal. cbn [upper map rsum]. field.
    - f_equal. rewrite (rsum_perm _ _ Ps). cbn [rsum]. ring.
  Qed.

  Theorem mad_exact mx px sx x : view mx px sx (map Fin x) -> x <> [] ->
    let n := INR (length x) in
    mad_core earith sortf (Z.of_nat (length x)) mx px sx false = Some (Fin (rpairs x / (n * n))) /\
    ((1 < length x)%nat -> mad_core earith sortf (Z.of_nat (length x)) mx px sx true = Some (Fin (rpairs x / (n * (n - 1))))) /\
    (length x = 1%nat -> mad_core earith sortf (Z.of_nat (length x)) mx px sx true = Some ENaN).
  Proof.
    intros V Hx n. pose proof (INR_len_pos x Hx) as P. fold n in P.
    unfold mad_core. rewrite (unnorm_exact mx px sx x V Hx). cbn [bind ret a_mul a_div a_ofZ earith emul].
    rewrite mult_IZR, minus_IZR, <- INR_IZR_INZ. fold n. split; [|split].
    - rewrite ediv_Fin by nra. unfold ret. do 2 f_equal. field. lra.
    - intros Hn. assert (1 < n) by (unfold n; change 1 with (INR 1); apply lt_INR; exact Hn).
      rewrite !ediv_Fin by lra. unfold ret. do 2 f_equal. field. lra.
    - intros Hn. assert (En : n = 1) by (unfold n; rewrite Hn; reflexivity).
      rewrite En, ediv_Fin by lra. destruct x as [|a [|b x]]; [congruence| |discriminate].
      unfold rpairs. cbn [map rsum]. rewrite Rminus_diag_eq by reflexivity. rewrite Rabs_R0.
      unfold ediv. rewrite Rcompare_Eq by lra. rewrite Rcompare_Eq; [reflexivity|field].
  Qed.

  Theorem gini_exact mx px sx x (unb : bool) : view mx px sx (map Fin x) -> x <> [] ->
    let n := INR (length x) in let d := (if unb then n - 1 else n) * rsum x in
    (d <> 0 -> gini_core earith sortf (Z.of_nat (length x)) mx px sx unb = Some (Fin (rpairs x / (2 * d))) /\
               rmad_core earith sortf (Z.of_nat (length x)) mx px sx unb = Some (Fin (rpairs x / d))) /\
    (d = 0 -> rpairs x = 0 -> gini_core earith sortf (Z.of_nat (length x)) mx px sx unb = Some ENaN /\
                              rmad_core earith sortf (Z.of_nat (length x)) mx px sx unb = Some ENaN) /\
    (d = 0 -> rpairs x <> 0 -> gini_core earith sortf (Z.of_nat (length x)) mx px sx unb = Some PInf /\
                               rmad_core earith sortf (Z.of_nat (length x)) mx px sx unb = Some PInf).
  Proof.
    intros V Hx n d. pose proof (INR_len_pos x Hx) as P. fold n in P.
    assert (G : gini_core earith sortf (Z.of_nat (length x)) mx px sx unb =
      Some (if eqb ecmp (Fin (rpairs x / 2)) (Fin 0) && eqb ecmp (Fin d) (Fin 0) then ENaN
            else if eqb ecmp (Fin d) (Fin 0) then PInf else ediv (Fin (rpairs x / 2)) (Fin d))).
    { unfold gini_core. rewrite (unnorm_exact mx px sx x V Hx). cbn [bind ret a_mul a_div a_ofZ a_cmp a_nan a_inf earith emul].
      rewrite minus_IZR, <- INR_IZR_INZ. fold n.
      replace (if unb then Fin ((n - 1) * rsum x) else Fin (n * rsum x)) with (Fin d) by (unfold d; destruct unb; reflexivity).
      reflexivity. }
    unfold rmad_core. rewrite G. cbn [bind a_cmp a_mul a_ofZ earith]. split; [|split].
    - intros Hd. rewrite (proj2 (eqb_Fin_false d 0) Hd), andb_false_r, ediv_Fin by exact Hd.
      rewrite isnanb_Fin. cbn [negb emul]. unfold ret. split; do 2 f_equal; field; exact Hd.
    - intros Hd Hr. rewrite (proj2 (eqb_Fin d 0) Hd), (proj2 (eqb_Fin (rpairs x / 2) 0)) by lra. split; reflexivity.
    - intros Hd Hr. rewrite (proj2 (eqb_Fin d 0) Hd), (proj2 (eqb_Fin_false (rpairs x / 2) 0)) by lra.
      cbn [andb]. split; [reflexivity|]. cbn. unfold scale_inf. rewrite Rcompare_Gt by lra. reflexivity.
  Qed.

  Lemma upper_nonneg l : 0 <= upper l.
  Proof.
    induction l as [|a l IH]; cbn [upper]; [lra|].
    assert (0 <= rsum (map (fun b => Rabs (a - b)) l)); [|lra].
    apply rsum_nonneg. intros c Hc. apply in_map_iff in Hc. destruct Hc as (b & <- & _). apply Rabs_pos.
  Qed.
  Lemma upper_le l : (forall a, In a l -> 0 <= a) -> upper l <= (INR (length l) - 1) * rsum l \/ l = [].
  Proof.
    induction l as [|a l IH]; intros H; [right; reflexivity|left].
    pose proof (H a (or_introl eq_refl)) as Ha.
    assert (Hl : forall b, In b l -> 0 <= b) by (intros b Hb; apply H; right; exact Hb).
    assert (E : rsum (map (fun b => Rabs (a - b)) l) <= INR (length l) * a + rsum l).
    { clear IH H. induction l as [|b l IH]; [cbn; lra|]. cbn [map rsum length]. rewrite S_INR.
      pose proof (Hl b (or_introl eq_refl)). specialize (IH (fun c Hc => Hl c (or_intror Hc))).
      assert (Rabs (a - b) <= a + b) by (apply Rabs_le; lra). lra. }
    cbn [upper rsum length]. rewrite S_INR. destruct (IH Hl) as [K|K]; [lra|]. subst l. cbn in *. lra.
  Qed.

  Theorem gini_range mx px sx x (unb : bool) v :
    view mx px sx (map Fin x) -> (forall a, In a x -> 0 <= a) -> 0 < rsum x -> (unb = true -> 1 < length x)%nat ->
    gini_core earith sortf (Z.of_nat (length x)) mx px sx unb = Some v ->
    exists g, v = Fin g /\ 0 <= g <= 1 /\ (unb = false -> g <= 1 - / INR (length x)).
  Proof.
    intros V H Hs Hu E. assert (Hx : x <> []) by (destruct x; [cbn in Hs; lra|discriminate]).
    pose proof (INR_len_pos x Hx) as P. set (n := INR (length x)) in *.
    set (d := (if unb then n - 1 else n) * rsum x).
    assert (Hn1 : unb = true -> 1 < n).
    { intros U. unfold n. change 1 with (INR 1). apply lt_INR. apply Hu, U. }
    assert (Hd : 0 < d).
    { unfold d. apply Rmult_lt_0_compat; [|exact Hs]. destruct unb; [specialize (Hn1 eq_refl)|]; lra. }
    destruct (gini_exact mx px sx x unb V Hx) as (K & _ & _).
    destruct (K ltac:(fold n; fold d; lra)) as [K1 _]. fold n in K1. fold d in K1. rewrite E in K1. injection K1 as ->.
    exists (rpairs x / (2 * d)). split; [reflexivity|].
    rewrite rpairs_upper. replace (2 * upper x / (2 * d)) with (upper x / d) by (field; lra).
    destruct (upper_le x H) as [B|B]; [|congruence]. pose proof (upper_nonneg x) as U. fold n in B.
    split; [split|].
    - apply Rmult_le_pos; [exact U|]. left. apply Rinv_0_lt_compat, Hd.
    - apply (Rmult_le_reg_r d); [exact Hd|]. unfold Rdiv. rewrite Rmult_assoc, Rinv_l by lra.
      unfold d. destruct unb; lra.
    - intros ->. apply (Rmult_le_reg_r d); [exact Hd|]. unfold Rdiv at 1. rewrite Rmult_assoc, Rinv_l by lra.
      unfold d. replace ((1 - / n) * (n * rsum x)) with ((n - 1) * rsum x) by (field; lra). lra.
  Qed.
End Exact.

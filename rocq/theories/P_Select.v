(** Proofs about M_Select. *)
From Coq Require Import ZArith List Bool Lia Reals Lra.
From Flocq Require Import Core BinarySingleNaN.
From Verif Require Import CSem CSemP Num NumP M_Select S_Select.
Import ListNotations.
Open Scope Z_scope.

(** ** first / argfirst *)
Section First.
  Context {T : Type} (cmp : T -> T -> option comparison).

  Fixpoint findi (P : T -> bool) (l : list T) : option (nat * T) :=
    match l with
    | [] => None
    | x :: l' => if P x then Some (O, x)
                 else match findi P l' with Some (k, y) => Some (S k, y) | None => None end
    end.

  Lemma findi_spec (P : T -> bool) l :
    match findi P l with
    | Some (k, x) => first_at (fun v => P v = true) l k x
    | None => forall x, In x l -> P x = false
    end.
  Proof.
    induction l as [|x l IH]; simpl; [intros x []|].
    destruct (P x) eqn:Px.
    - repeat split; auto. intros j y Hj; lia.
    - destruct (findi P l) as [[k y]|].
      + destruct IH as (H1 & H2 & H3). repeat split; auto.
        intros [|j] z Hj Hz; simpl in Hz; [congruence|]. apply (H3 j z); auto. lia.
      + intros y [<-|H]; auto.
  Qed.

  Definition rd_first (P : T -> bool) (k : Z) (value : T) (result : T) : M (ctl T T) :=
    Some (if P value then Brk value else Next result).
  Definition rd_argfirst (P : T -> bool) (k : Z) (value : T) (result : Z) : M (ctl Z Z) :=
    Some (if P value then Brk k else Next result).

  Lemma lloop_first P l k d :
    lloop k l (rd_first P) d = Some (inl (match findi P l with Some (_, x) => x | None => d end)).
  Proof.
    revert k. induction l as [|x l IH]; intros k; simpl; [reflexivity|].
    unfold rd_first at 1. destruct (P x); [reflexivity|]. rewrite IH.
    destruct (findi P l) as [[? ?]|]; reflexivity.
  Qed.

  Lemma lloop_argfirst P l k d :
    lloop k l (rd_argfirst P) d =
    Some (inl (match findi P l with Some (i, _) => k + Z.of_nat i | None => d end)).
  Proof.
    revert k. induction l as [|x l IH]; intros k; cbn [lloop findi]; [reflexivity|].
    unfold rd_argfirst at 1. destruct (P x); [rewrite Z.add_0_r; reflexivity|]. rewrite IH.
    destruct (findi P l) as [[i ?]|]; [|reflexivity]. do 2 f_equal. lia.
  Qed.

  Lemma first_t_list OP m p s l tgt oth :
    view m p s l ->
    first_t cmp OP (Z.of_nat (length l)) m p s tgt oth =
    Some (match findi (fun v => cmp_op cmp OP v tgt) l with Some (_, x) => x | None => oth end).
  Proof.
    intros V. unfold first_t.
    rewrite (for_loop_view m p s l _ (rd_first (fun v => cmp_op cmp OP v tgt)) _ V).
    - rewrite lloop_first. reflexivity.
    - intros k st x Hk Hg. rewrite Hg. reflexivity.
  Qed.

  Lemma argfirst_t_list OP m p s l tgt :
    view m p s l ->
    argfirst_t cmp OP (Z.of_nat (length l)) m p s tgt =
    Some (match findi (fun v => cmp_op cmp OP v tgt) l with Some (i, _) => Z.of_nat i | None => -1 end).
  Proof.
    intros V. unfold argfirst_t.
    rewrite (for_loop_view m p s l _ (rd_argfirst (fun v => cmp_op cmp OP v tgt)) _ V).
    - rewrite lloop_argfirst. reflexivity.
    - intros k st x Hk Hg. rewrite Hg. reflexivity.
  Qed.

  (** the comparison selected by an op code; never for an invalid code *)
  Definition opb (op : Z) (a b : T) : bool :=
    if op =? Py_LT then cmp_op cmp LT a b
    else if op =? Py_LE then cmp_op cmp LE a b
    else if op =? Py_EQ then cmp_op cmp EQ a b
    else if op =? Py_NE then cmp_op cmp NE a b
    else if op =? Py_GT then cmp_op cmp GT a b
    else if op =? Py_GE then cmp_op cmp GE a b
    else false.

  Lemma findi_none l : findi (fun _ => false) l = None.
  Proof. induction l as [|x l IH]; simpl; [reflexivity|]. rewrite IH. reflexivity. Qed.

  Lemma first_list m p s l op tgt oth :
    view m p s l ->
    first_core_calc cmp (Z.of_nat (length l)) m p s op tgt oth =
    Some (match findi (fun v => opb op v tgt) l with Some (_, x) => x | None => oth end).
  Proof.
    intros V. unfold first_core_calc, opb.
    repeat (match goal with |- context [op =? ?c] => destruct (op =? c) end;
            [apply first_t_list; assumption|]).
    rewrite findi_none. reflexivity.
  Qed.

  Lemma argfirst_list m p s l op tgt :
    view m p s l ->
    argfirst_core_calc cmp (Z.of_nat (length l)) m p s op tgt =
    Some (match findi (fun v => opb op v tgt) l with Some (i, _) => Z.of_nat i | None => -1 end).
  Proof.
    intros V. unfold argfirst_core_calc, opb.
    repeat (match goal with |- context [op =? ?c] => destruct (op =? c) end;
            [apply argfirst_t_list; assumption|]).
    rewrite findi_none. reflexivity.
  Qed.

  Lemma opb_holds op a b : opb op a b = true <-> op_holds cmp op a b.
  Proof.
    unfold opb, op_holds, cmp_op, neb, eqb, ltb, leb, gtb, geb, Py_LT, Py_LE, Py_EQ, Py_NE, Py_GT, Py_GE.
    destruct (Z.eqb_spec op 0); [|destruct (Z.eqb_spec op 1); [|destruct (Z.eqb_spec op 2);
      [|destruct (Z.eqb_spec op 3); [|destruct (Z.eqb_spec op 4); [|destruct (Z.eqb_spec op 5)]]]]];
    destruct (cmp a b) as [[]|]; simpl; split; intros H;
    solve [ reflexivity | discriminate
          | intuition (try discriminate; try congruence; try lia)
          | exfalso; intuition (try discriminate; try congruence; try lia) ].
  Qed.

  Lemma opb_holds_false op a b : opb op a b = false <-> ~ op_holds cmp op a b.
  Proof. rewrite <- opb_holds. destruct (opb op a b); split; congruence. Qed.

  Lemma first_correct m p s l op tgt oth :
    view m p s l ->
    exists r, first_core_calc cmp (Z.of_nat (length l)) m p s op tgt oth = Some r /\
      ((exists k, first_at (fun x => op_holds cmp op x tgt) l k r) \/
       ((forall x, In x l -> ~ op_holds cmp op x tgt) /\ r = oth)).
  Proof.
    intros V. rewrite first_list by assumption.
    pose proof (findi_spec (fun v => opb op v tgt) l) as F.
    destruct (findi _ l) as [[k x]|]; eexists; (split; [reflexivity|]).
    - left. exists k. destruct F as (F1 & F2 & F3). repeat split; auto.
      + apply opb_holds; assumption.
      + intros j y Hj Hy. apply opb_holds_false. specialize (F3 j y Hj Hy).
        destruct (opb op y tgt); congruence.
    - right. split; [|reflexivity]. intros x Hx. apply opb_holds_false. auto.
  Qed.

  Lemma argfirst_correct m p s l op tgt :
    view m p s l ->
    exists r, argfirst_core_calc cmp (Z.of_nat (length l)) m p s op tgt = Some r /\
      ((exists k x, first_at (fun x => op_holds cmp op x tgt) l k x /\ r = Z.of_nat k) \/
       ((forall x, In x l -> ~ op_holds cmp op x tgt) /\ r = -1)).
  Proof.
    intros V. rewrite argfirst_list by assumption.
    pose proof (findi_spec (fun v => opb op v tgt) l) as F.
    destruct (findi _ l) as [[k x]|]; eexists; (split; [reflexivity|]).
    - left. exists k, x. destruct F as (F1 & F2 & F3). repeat split; auto.
      + apply opb_holds; assumption.
      + intros j y Hj Hy. apply opb_holds_false. specialize (F3 j y Hj Hy).
        destruct (opb op y tgt); congruence.
    - right. split; [|reflexivity]. intros x Hx. apply opb_holds_false. auto.
  Qed.

  Lemma first_argfirst m p s l op tgt oth :
    view m p s l ->
    exists i r,
      argfirst_core_calc cmp (Z.of_nat (length l)) m p s op tgt = Some i /\
      first_core_calc cmp (Z.of_nat (length l)) m p s op tgt oth = Some r /\
      ((0 <= i < Z.of_nat (length l) /\ nth_error l (Z.to_nat i) = Some r) \/
       (i = -1 /\ r = oth)).
  Proof.
    intros V. rewrite argfirst_list, first_list by assumption.
    pose proof (findi_spec (fun v => opb op v tgt) l) as F.
    destruct (findi _ l) as [[k x]|]; do 2 eexists; (do 2 (split; [reflexivity|])).
    - left. destruct F as (F1 & _). rewrite Nat2Z.id. split; [|assumption].
      assert (k < length l)%nat by (apply nth_error_Some; congruence). lia.
    - right. auto.
  Qed.

  (** Only the elements up to the first match are read: the rest of the operand
      need not even be valid memory. *)
  Lemma first_prefix m p s pre x n op tgt oth :
    view m p s (pre ++ [x]) ->
    (forall y, In y pre -> ~ op_holds cmp op y tgt) ->
    op_holds cmp op x tgt ->
    Z.of_nat (length pre) < n ->
    first_core_calc cmp n m p s op tgt oth = Some x.
  Proof.
    intros V Hpre Hx Hn.
    assert (G : forall OP, (forall y, cmp_op cmp OP y tgt = opb op y tgt) ->
              first_t cmp OP n m p s tgt oth = Some x).
    { intros OP E. unfold first_t, for_loop.
      assert (L : forall j, (j <= length pre)%nat ->
        loop_from (Z.to_nat (n - Z.of_nat j)) (Z.of_nat j)
          (fun k result => value <- get m p s k ;;
             ret (if cmp_op cmp OP value tgt then Brk value else @Next T T result)) oth
        = Some (inl x)).
      { intros j Hj. remember (length pre - j)%nat as d eqn:Ed. revert j Hj Ed.
        induction d as [|d IH]; intros j Hj Ed.
        - assert (j = length pre) by lia. subst j.
          destruct (Z.to_nat (n - Z.of_nat (length pre))) as [|q] eqn:Eq; [lia|].
          cbn [loop_from]. rewrite (view_get m p s (pre ++ [x]) (length pre) x V).
          2:{ rewrite nth_error_app2, Nat.sub_diag by lia. reflexivity. }
          cbn [bind ret]. rewrite E. apply opb_holds in Hx. rewrite Hx. reflexivity.
        - destruct (Z.to_nat (n - Z.of_nat j)) as [|q] eqn:Eq; [lia|].
          destruct (nth_error pre j) as [y|] eqn:Ey.
          2:{ apply nth_error_None in Ey. lia. }
          cbn [loop_from]. rewrite (view_get m p s (pre ++ [x]) j y V).
          2:{ rewrite nth_error_app1 by lia. assumption. }
          cbn [bind ret]. rewrite E.
          assert (Hy : opb op y tgt = false).
          { apply opb_holds_false. apply Hpre. eapply nth_error_In; eauto. }
          rewrite Hy. replace (Z.of_nat j + 1) with (Z.of_nat (Datatypes.S j)) by lia.
          replace q with (Z.to_nat (n - Z.of_nat (Datatypes.S j))) by lia.
          apply IH; lia. }
      specialize (L O ltac:(lia)). change (Z.of_nat 0) with 0 in L. rewrite L. reflexivity. }
    unfold first_core_calc. unfold opb in G.
    repeat (match goal with |- context [op =? ?c] => destruct (op =? c) eqn:? end;
            [apply G; intros; reflexivity|]).
    apply opb_holds in Hx. unfold opb in Hx.
    repeat match goal with H : (op =? _) = false |- _ => rewrite H in Hx end. discriminate.
  Qed.

  Lemma nan_matches_only_ne (L : cmp_laws cmp) op x tgt :
    is_nan cmp x \/ is_nan cmp tgt -> (op_holds cmp op x tgt <-> op = 3).
  Proof.
    intros H. apply (cmp_none _ L) in H. unfold op_holds. rewrite H.
    split; intros Q; [|intuition discriminate].
    intuition (try discriminate; try lia).
  Qed.
End First.

(** ** all_same *)
Section AllSame.
  Context {T : Type} (ne : T -> T -> bool).

  Lemma all_same_list m p s l :
    view m p s l ->
    all_same_core ne (Z.of_nat (length l)) m p s =
    Some (match l with [] => true | x :: l' => forallb (fun y => negb (ne y x)) l' end).
  Proof.
    intros V. unfold all_same_core. destruct l as [|x0 l]; [reflexivity|].
    destruct l as [|x1 l]; [reflexivity|].
    replace (1 <? Z.of_nat (length (x0 :: x1 :: l))) with true by (symmetry; apply Z.ltb_lt; cbn [length]; lia).
    rewrite (view_load m p s x0 (x1 :: l) V). cbn [bind].
    rewrite (for_loop_tail m p s x0 (x1 :: l) _
       (fun k x out => Some (if ne x x0 then Brk false else @Next bool bool out)) true V).
    2:{ intros k st x Hg. rewrite Hg. reflexivity. }
    assert (G : forall l k, lloop k l (fun (_ : Z) x out => Some (if ne x x0 then Brk false else @Next bool bool out)) true
       = Some (inl (forallb (fun y => negb (ne y x0)) l))).
    { clear. induction l as [|x l IH]; intros k; cbn [lloop forallb]; [reflexivity|].
      destruct (ne x x0); [reflexivity|]. apply IH. }
    rewrite G. reflexivity.
  Qed.
End AllSame.

Section AllSameCmp.
  Context {T : Type} (cmp : T -> T -> option comparison).

  Lemma ne_false a b : neb cmp a b = false <-> cmp a b = Some Eq.
  Proof. unfold neb, eqb. destruct (cmp a b) as [[]|]; simpl; split; congruence. Qed.

  (** value of the answer in terms of element 0 *)
  Lemma all_same_correct m p s l :
    view m p s l ->
    exists b, all_same_core (neb cmp) (Z.of_nat (length l)) m p s = Some b /\
      (b = true <-> (length l <= 1)%nat \/
         exists x0, nth_error l 0 = Some x0 /\ forall j y, (0 < j)%nat -> nth_error l j = Some y -> cmp y x0 = Some Eq).
  Proof.
    intros V. rewrite (all_same_list _ m p s l V). eexists. split; [reflexivity|].
    destruct l as [|x0 l]; [split; auto; intros; left; simpl; lia|].
    rewrite forallb_forall. split.
    - intros H. right. exists x0. split; [reflexivity|].
      intros [|j] y Hj Hy; [lia|]. cbn in Hy. apply nth_error_In in Hy.
      specialize (H y Hy). apply negb_true_iff, ne_false in H. exact H.
    - intros [H|(x & Hx & H)] y Hy.
      + destruct l; [destruct Hy|simpl in H; lia].
      + injection Hx as <-. apply In_nth_error in Hy as [j Hj].
        apply negb_true_iff, ne_false. apply (H (S j)); [lia|exact Hj].
  Qed.

  Context (L : cmp_laws cmp).

  Lemma all_same_pairwise m p s l :
    view m p s l -> nan_free cmp l ->
    exists b, all_same_core (neb cmp) (Z.of_nat (length l)) m p s = Some b /\
      (b = true <-> forall x y, In x l -> In y l -> cmp x y = Some Eq).
  Proof.
    intros V NF. destruct (all_same_correct m p s l V) as (b & E & Hb).
    exists b. split; [exact E|]. rewrite Hb. clear E Hb.
    assert (R : forall x, In x l -> cmp x x = Some Eq).
    { intros x Hx. destruct (cmp_refl _ L x); [assumption|]. exfalso. eapply NF; eauto. }
    split.
    - intros [H|(x0 & H0 & H)] x y Hx Hy.
      + destruct l as [|z [|z' l]]; simpl in H; try lia; [destruct Hx|].
        destruct Hx as [<-|[]]; destruct Hy as [<-|[]]. apply R; simpl; auto.
      + assert (K : forall z, In z l -> cmp z x0 = Some Eq).
        { intros z Hz. apply In_nth_error in Hz as [[|j] Hj].
          - rewrite H0 in Hj. injection Hj as <-. apply R. eapply nth_error_In; eauto.
          - apply (H (S j)); [lia|assumption]. }
        rewrite (cmp_eq_l _ L x x0 y (K x Hx)).
        apply (cmp_eq_sym cmp L). apply K; assumption.
    - intros H. destruct l as [|x0 l]; [left; simpl; lia|]. right. exists x0. split; [reflexivity|].
      intros j y _ Hy. apply H; [eapply nth_error_In; eauto|simpl; auto].
  Qed.

  Lemma all_same_nan m p s l :
    view m p s l -> (2 <= length l)%nat -> (exists x, In x l /\ is_nan cmp x) ->
    all_same_core (neb cmp) (Z.of_nat (length l)) m p s = Some false.
  Proof.
    intros V H2 (x & Hx & Hn). destruct (all_same_correct m p s l V) as (b & E & Hb).
    rewrite E. f_equal. destruct b; [|reflexivity]. exfalso.
    destruct (proj1 Hb eq_refl) as [H|(x0 & H0 & H)]; [lia|].
    apply In_nth_error in Hx as [[|j] Hj].
    - rewrite H0 in Hj. injection Hj as ->.
      destruct (nth_error l 1) as [y|] eqn:Ey; [|apply nth_error_None in Ey; lia].
      specialize (H 1%nat y ltac:(lia) Ey).
      assert (N : cmp y x = None) by (apply (cmp_none _ L); right; exact Hn). congruence.
    - specialize (H (S j) x ltac:(lia) Hj).
      assert (N : cmp x x0 = None) by (apply (cmp_none _ L); left; exact Hn). congruence.
  Qed.

  (** complex elements: equality of both parts *)
  Lemma all_same_complex m p s (l : list (T * T)) :
    view m p s l ->
    exists b, all_same_core (complex_ne cmp) (Z.of_nat (length l)) m p s = Some b /\
      (b = true <-> (length l <= 1)%nat \/
         exists x0, nth_error l 0 = Some x0 /\ forall j y, (0 < j)%nat -> nth_error l j = Some y ->
            cmp (fst y) (fst x0) = Some Eq /\ cmp (snd y) (snd x0) = Some Eq).
  Proof.
    intros V. rewrite (all_same_list _ m p s l V). eexists. split; [reflexivity|].
    assert (N : forall a b, complex_ne cmp a b = false <-> cmp (fst a) (fst b) = Some Eq /\ cmp (snd a) (snd b) = Some Eq).
    { intros a b. unfold complex_ne. rewrite orb_false_iff, !ne_false. reflexivity. }
    destruct l as [|x0 l]; [split; auto; intros; left; simpl; lia|].
    rewrite forallb_forall. split.
    - intros H. right. exists x0. split; [reflexivity|].
      intros [|j] y Hj Hy; [lia|]. cbn in Hy. apply nth_error_In in Hy.
      specialize (H y Hy). apply negb_true_iff, N in H. exact H.
    - intros [H|(x & Hx & H)] y Hy.
      + destruct l; [destruct Hy|simpl in H; lia].
      + injection Hx as <-. apply In_nth_error in Hy as [j Hj].
        apply negb_true_iff, N. apply (H (S j)); [lia|exact Hj].
  Qed.
End AllSameCmp.

(** ** ordered *)
Section Ordered.
  Context {T : Type} (cmp : T -> T -> option comparison).

  Fixpoint lordered (bad : T -> T -> bool) (x : T) (l : list T) : bool :=
    match l with
    | [] => true
    | y :: l' => if bad x y then false else lordered bad y l'
    end.

  Lemma lordered_spec bad x l :
    lordered bad x l = true <->
    forall i a b, nth_error (x :: l) i = Some a -> nth_error (x :: l) (S i) = Some b -> bad a b = false.
  Proof.
    revert x. induction l as [|y l IH]; intros x; cbn [lordered].
    - split; auto. intros _ i a b _ Hb. destruct i; discriminate.
    - destruct (bad x y) eqn:B.
      + split; [discriminate|]. intros H. specialize (H O x y eq_refl eq_refl). congruence.
      + rewrite IH. split.
        * intros H [|i] a b Ha Hb.
          -- cbn in Ha, Hb. congruence.
          -- apply (H i a b); assumption.
        * intros H i a b Ha Hb. apply (H (S i) a b); assumption.
  Qed.

  Lemma check_ordered_list OP m p s x0 l :
    view m p s (x0 :: l) ->
    check_ordered cmp OP (Z.of_nat (length (x0 :: l))) m p s = Some (lordered (ordered_bad cmp OP) x0 l).
  Proof.
    intros V. unfold check_ordered. rewrite (view_load m p s x0 l V). cbn [bind].
    rewrite (for_loop_tail m p s x0 l _
       (fun k x2 x1 => Some (if ordered_bad cmp OP x1 x2 then Ret false else Next x2)) x0 V).
    2:{ intros k st x Hg. rewrite Hg. reflexivity. }
    assert (G : forall l k x, exists r, lloop k l (fun (_ : Z) x2 x1 => Some (if ordered_bad cmp OP x1 x2 then Ret false else Next x2)) x
       = Some r /\ match r with inl _ => true | inr b => b end = lordered (ordered_bad cmp OP) x l).
    { clear. induction l as [|y l IH]; intros k x; cbn [lloop lordered].
      - eexists; split; reflexivity.
      - destruct (ordered_bad cmp OP x y); [eexists; split; reflexivity|]. apply IH. }
    destruct (G l 1 x0) as (r & E & Hr). rewrite E. cbn [bind ret]. rewrite Hr. reflexivity.
  Qed.

  (** the code compares with the negated operator; invalid codes act like GE *)
  Definition obad (op : Z) (a b : T) : bool :=
    if op =? Py_LT then ordered_bad cmp LT a b
    else if op =? Py_LE then ordered_bad cmp LE a b
    else if op =? Py_EQ then ordered_bad cmp EQ a b
    else if op =? Py_NE then ordered_bad cmp NE a b
    else if op =? Py_GT then ordered_bad cmp GT a b
    else ordered_bad cmp GE a b.

  Lemma ordered_list m p s l op :
    view m p s l ->
    ordered_core cmp (Z.of_nat (length l)) m p s op =
    Some (match l with [] => true | x :: l' => lordered (obad op) x l' end).
  Proof.
    intros V. unfold ordered_core. destruct l as [|x0 l]; [reflexivity|].
    destruct l as [|x1 l]; [reflexivity|].
    replace (1 <? Z.of_nat (length (x0 :: x1 :: l))) with true by (symmetry; apply Z.ltb_lt; cbn [length]; lia).
    unfold obad.
    repeat (match goal with |- context [op =? ?c] => destruct (op =? c) end;
            [apply check_ordered_list; assumption|]).
    apply check_ordered_list; assumption.
  Qed.

  Lemma obad_holds op a b : cmp a b <> None -> 0 <= op <= 5 -> (obad op a b = false <-> op_holds cmp op a b).
  Proof.
    intros N Hop. unfold obad, op_holds, ordered_bad, neb, eqb, ltb, leb, gtb, geb, Py_LT, Py_LE, Py_EQ, Py_NE, Py_GT.
    destruct (Z.eqb_spec op 0); [|destruct (Z.eqb_spec op 1); [|destruct (Z.eqb_spec op 2);
      [|destruct (Z.eqb_spec op 3); [|destruct (Z.eqb_spec op 4)]]]];
    try (assert (H5 : op = 5) by lia);
    destruct (cmp a b) as [[]|]; simpl; split; intros H;
    solve [ reflexivity | discriminate | congruence
          | intuition (try discriminate; try congruence; try lia)
          | exfalso; intuition (try discriminate; try congruence; try lia) ].
  Qed.

  Definition consecutive (R : T -> T -> Prop) (l : list T) : Prop :=
    forall i a b, nth_error l i = Some a -> nth_error l (S i) = Some b -> R a b.

  Context (L : cmp_laws cmp).

  Lemma nan_free_cmp l i j a b :
    nan_free cmp l -> nth_error l i = Some a -> nth_error l j = Some b -> cmp a b <> None.
  Proof.
    intros NF Ha Hb E. apply (cmp_none _ L) in E as [E|E].
    - apply (NF a); [eapply nth_error_In; eauto|exact E].
    - apply (NF b); [eapply nth_error_In; eauto|exact E].
  Qed.

  Lemma ordered_correct m p s l op :
    view m p s l -> nan_free cmp l -> 0 <= op <= 5 ->
    exists b, ordered_core cmp (Z.of_nat (length l)) m p s op = Some b /\
      (b = true <-> forall i x y, nth_error l i = Some x -> nth_error l (S i) = Some y -> op_holds cmp op x y).
  Proof.
    intros V NF Hop. rewrite (ordered_list m p s l op V). eexists. split; [reflexivity|].
    destruct l as [|x0 l].
    - split; auto. intros _ i x y Hx. destruct i; discriminate.
    - rewrite lordered_spec. split; intros H i a b Ha Hb.
      + apply (obad_holds op a b); [eapply nan_free_cmp; eauto|assumption|eauto].
      + apply (obad_holds op a b); [eapply nan_free_cmp; eauto|assumption|eauto].
  Qed.

  Lemma op_holds_trans op a b c :
    op <> 3 -> op_holds cmp op a b -> op_holds cmp op b c -> op_holds cmp op a c.
  Proof.
    intros N3 Hab Hbc.
    assert (TL : forall x y z, ltb cmp x y = true -> ltb cmp y z = true -> ltb cmp x z = true) by (apply ltb_trans; assumption).
    assert (TE : forall x y z, leb cmp x y = true -> leb cmp y z = true -> leb cmp x z = true) by (apply leb_trans; assumption).
    assert (TQ : forall x y z, eqb cmp x y = true -> eqb cmp y z = true -> eqb cmp x z = true) by (apply eqb_trans; assumption).
    assert (Q : forall x y, op_holds cmp op x y ->
       (op = 0 /\ ltb cmp x y = true) \/ (op = 1 /\ leb cmp x y = true) \/ (op = 2 /\ eqb cmp x y = true)
       \/ (op = 4 /\ ltb cmp y x = true) \/ (op = 5 /\ leb cmp y x = true)).
    { intros x y H. unfold op_holds in H. rewrite <- (gtb_ltb cmp L x y), <- (geb_leb cmp L x y).
      unfold ltb, leb, eqb, gtb, geb.
      destruct (cmp x y) as [[]|]; intuition (try discriminate; try congruence; try lia). }
    assert (Q' : forall x y, (op = 0 /\ ltb cmp x y = true) \/ (op = 1 /\ leb cmp x y = true) \/ (op = 2 /\ eqb cmp x y = true)
       \/ (op = 4 /\ ltb cmp y x = true) \/ (op = 5 /\ leb cmp y x = true) -> op_holds cmp op x y).
    { intros x y. unfold op_holds. rewrite <- (gtb_ltb cmp L x y), <- (geb_leb cmp L x y).
      unfold ltb, leb, eqb, gtb, geb.
      destruct (cmp x y) as [[]|]; intuition (try discriminate; try congruence; try lia). }
    apply Q in Hab. apply Q in Hbc. apply Q'.
    destruct Hab as [[E1 H]|[[E1 H]|[[E1 H]|[[E1 H]|[E1 H]]]]];
    destruct Hbc as [[E2 K]|[[E2 K]|[[E2 K]|[[E2 K]|[E2 K]]]]]; try lia; eauto 8.
  Qed.

  Lemma consecutive_all (R : T -> T -> Prop) l :
    (forall a b c, R a b -> R b c -> R a c) ->
    (forall i a b, nth_error l i = Some a -> nth_error l (S i) = Some b -> R a b) ->
    forall i j a b, (i < j)%nat -> nth_error l i = Some a -> nth_error l j = Some b -> R a b.
  Proof.
    intros TR C i j a b Hij. revert b. induction Hij as [|j Hij IH]; intros b Ha Hb.
    - apply (C i); assumption.
    - destruct (nth_error l j) as [c|] eqn:Ec.
      + apply (TR a c b); [apply IH; auto|apply (C j); assumption].
      + apply nth_error_None in Ec.
        assert (S j < length l)%nat by (apply nth_error_Some; congruence). lia.
  Qed.

  Lemma ordered_all_pairs m p s l op :
    view m p s l -> nan_free cmp l -> 0 <= op <= 5 -> op <> 3 ->
    exists b, ordered_core cmp (Z.of_nat (length l)) m p s op = Some b /\
      (b = true <-> forall i j x y, (i < j)%nat -> nth_error l i = Some x -> nth_error l j = Some y -> op_holds cmp op x y).
  Proof.
    intros V NF Hop N3. destruct (ordered_correct m p s l op V NF Hop) as (b & E & Hb).
    exists b. split; [exact E|]. rewrite Hb. split; intros H.
    - apply consecutive_all; [intros; eapply op_holds_trans; eauto|exact H].
    - intros i x y Hx Hy. apply (H i (S i)); auto.
  Qed.

  (** with NaN, only EQ detects it *)
  Lemma ordered_eq_nan m p s l :
    view m p s l -> (2 <= length l)%nat -> (exists x, In x l /\ is_nan cmp x) ->
    ordered_core cmp (Z.of_nat (length l)) m p s 2 = Some false.
  Proof.
    intros V H2 (x & Hx & Hn). rewrite (ordered_list m p s l 2 V). f_equal.
    destruct l as [|x0 l]; [simpl in H2; lia|].
    destruct (lordered (obad 2) x0 l) eqn:E; [|reflexivity]. exfalso.
    rewrite lordered_spec in E.
    assert (B : forall a b, cmp a b = None -> obad 2 a b = true).
    { intros a b Hab. unfold obad, ordered_bad, neb, eqb. cbn. rewrite Hab. reflexivity. }
    apply In_nth_error in Hx as [i Hi].
    destruct i as [|i].
    - destruct (nth_error (x0 :: l) 1) as [y|] eqn:Ey; [|apply nth_error_None in Ey; lia].
      specialize (E O x y Hi Ey). rewrite B in E; [discriminate|]. apply (cmp_none _ L); auto.
    - destruct (nth_error (x0 :: l) i) as [y|] eqn:Ey.
      + specialize (E i y x Ey Hi). rewrite B in E; [discriminate|]. apply (cmp_none _ L); auto.
      + apply nth_error_None in Ey. assert (S i < length (x0 :: l))%nat by (apply nth_error_Some; congruence). lia.
  Qed.

  (** For every other op, the pair of neighbours of a NaN is skipped. *)
  Lemma ordered_nan_skips m p s l op :
    view m p s l -> 0 <= op <= 5 -> op <> 2 ->
    exists b, ordered_core cmp (Z.of_nat (length l)) m p s op = Some b /\
      (b = true <-> forall i x y, nth_error l i = Some x -> nth_error l (S i) = Some y ->
                     ~ is_nan cmp x -> ~ is_nan cmp y -> op_holds cmp op x y).
  Proof.
    intros V Hop N2. rewrite (ordered_list m p s l op V). eexists. split; [reflexivity|].
    destruct l as [|x0 l].
    - split; auto. intros _ i x y Hx. destruct i; discriminate.
    - rewrite lordered_spec. split; intros H i a b Ha Hb.
      + intros Na Nb. apply (obad_holds op a b); [|assumption|eauto].
        intros E. apply (cmp_none _ L) in E as [E|E]; [apply Na|apply Nb]; exact E.
      + destruct (cmp a b) eqn:Eab.
        * apply (obad_holds op a b); [congruence|assumption|].
          apply (H i a b Ha Hb); intros N; unfold is_nan in N;
          assert (cmp a b = None) by (apply (cmp_none _ L); auto); congruence.
        * unfold obad, ordered_bad, neb, eqb, ltb, leb, gtb, geb, Py_EQ. rewrite Eab.
          destruct (Z.eqb_spec op 2) as [|_]; [contradiction|].
          repeat match goal with |- context [if ?c then _ else _] => destruct c end; reflexivity.
  Qed.
End Ordered.

(** ** minmax family *)
Section MinMax.
  Context {T : Type} (cmp : T -> T -> option comparison).

  Definition fmin (k : Z) (x : T) (st : T * Z) : M (T * Z) :=
    let '(xmin, imin) := st in if ltb cmp x xmin then Some (x, k) else Some (xmin, imin).

  Lemma min_argmin_list m p s x0 l :
    view m p s (x0 :: l) ->
    min_argmin_core cmp (Z.of_nat (length (x0 :: l))) m p s = liter 1 l fmin (x0, 0).
  Proof.
    intros V. unfold min_argmin_core. rewrite (view_load m p s x0 l V). cbn [bind].
    apply (for_each_tail m p s x0 l _ fmin _ V).
    intros k [a b] x Hg. rewrite Hg. reflexivity.
  Qed.

  Lemma argmin_of_min_argmin n m p s :
    argmin_core cmp n m p s = option_map snd (min_argmin_core cmp n m p s).
  Proof.
    unfold argmin_core, min_argmin_core. destruct (load m p); cbn [bind option_map]; [|reflexivity].
    destruct (for_each 1 n _ _); reflexivity.
  Qed.

  Lemma argmax_of_max_argmax n m p s :
    argmax_core cmp n m p s = option_map snd (max_argmax_core cmp n m p s).
  Proof.
    unfold argmax_core, max_argmax_core. destruct (load m p); cbn [bind option_map]; [|reflexivity].
    destruct (for_each 1 n _ _); reflexivity.
  Qed.

  Context (L : cmp_laws cmp).

  Lemma le_spec_leb a b : le_spec cmp a b <-> leb cmp a b = true.
  Proof. unfold le_spec, leb. destruct (cmp a b) as [[]|]; intuition congruence. Qed.
  Lemma lt_spec_ltb a b : cmp a b = Some Lt <-> ltb cmp a b = true.
  Proof. unfold ltb. destruct (cmp a b) as [[]|]; intuition congruence. Qed.
  Lemma nan_spec a : ~ is_nan cmp a <-> isnanb cmp a = false.
  Proof. unfold is_nan, isnanb. destruct (cmp a a); intuition congruence. Qed.

  Lemma min_argmin_correct m p s x0 l :
    view m p s (x0 :: l) -> ~ is_nan cmp x0 ->
    exists x k, min_argmin_core cmp (Z.of_nat (length (x0 :: l))) m p s = Some (x, Z.of_nat k) /\
      first_min cmp (x0 :: l) k x.
  Proof.
    intros V N0. rewrite min_argmin_list by assumption.
    destruct (liter_inv (fun pre st => exists k, snd st = Z.of_nat k /\ first_min cmp pre k (fst st))
                fmin [x0] l (x0, 0)) as (st & E & (k & Ek & Hm)).
    - exists O. split; [reflexivity|]. repeat split; auto.
      + intros y [<-|[]] _. destruct (cmp_refl _ L x0) as [H|H]; [right; exact H|contradiction].
      + intros j y Hj; lia.
    - intros pre x [xm im] (k & Ek & H1 & H2 & H3 & H4). cbn [fst snd] in *. subst im.
      unfold fmin. destruct (ltb cmp x xm) eqn:C.
      + eexists. split; [reflexivity|]. exists (length pre). split; [reflexivity|]. cbn [fst].
        pose proof (ltb_notnan cmp L _ _ C) as [Nx _].
        repeat split.
        * rewrite nth_error_app2, Nat.sub_diag by lia. reflexivity.
        * apply nan_spec. assumption.
        * intros y Hy Ny. apply in_app_or in Hy as [Hy|[<-|[]]].
          -- specialize (H3 y Hy Ny). apply le_spec_leb in H3. apply le_spec_leb.
             apply (ltb_leb cmp). eapply lt_le_trans; eauto.
          -- apply le_spec_leb. apply leb_refl; auto.
        * intros j y Hj Hy Ny. rewrite nth_error_app1 in Hy by assumption.
          specialize (H3 y (nth_error_In _ _ Hy) Ny). apply le_spec_leb in H3.
          apply lt_spec_ltb. eapply lt_le_trans; eauto.
      + eexists. split; [reflexivity|]. exists k. split; [reflexivity|]. cbn [fst].
        assert (Hk : (k < length pre)%nat) by (apply nth_error_Some; congruence).
        repeat split; auto.
        * rewrite nth_error_app1 by assumption. assumption.
        * intros y Hy Ny. apply in_app_or in Hy as [Hy|[<-|[]]]; auto.
          apply le_spec_leb. apply not_lt_le; auto; apply nan_spec; assumption.
        * intros j y Hj Hy Ny. rewrite nth_error_app1 in Hy by lia. eauto.
    - destruct st as [x i]. cbn [fst snd] in *. subst i. exists x, k. split; assumption.
  Qed.

  (** NaN in position 0 sticks *)
  Lemma liter_fmin_nan x0 l k : is_nan cmp x0 -> liter k l fmin (x0, 0) = Some (x0, 0).
  Proof.
    intros N0. revert k. induction l as [|x l IH]; intros k; cbn [liter]; [reflexivity|].
    unfold fmin at 1. rewrite (ltb_nan_r cmp L) by (apply isnan_none; assumption).
    cbn [bind]. apply IH.
  Qed.

  Lemma min_argmin_nan0 m p s x0 l :
    view m p s (x0 :: l) -> is_nan cmp x0 ->
    min_argmin_core cmp (Z.of_nat (length (x0 :: l))) m p s = Some (x0, 0).
  Proof. intros V N0. rewrite min_argmin_list by assumption. apply liter_fmin_nan; assumption. Qed.
End MinMax.

(** max is min for the reversed order *)
Section Flip.
  Context {T : Type} (cmp : T -> T -> option comparison) (L : cmp_laws cmp).
  Definition flip (x y : T) := cmp y x.

  Lemma flip_laws : cmp_laws flip.
  Proof.
    pose proof L as [L1 L2 L3 L4 L5]. unfold flip. constructor; intros.
    - apply L1.
    - apply L2.
    - rewrite L3. tauto.
    - eauto.
    - symmetry. apply (cmp_eq_r cmp L). assumption.
  Qed.

  Lemma gtb_flip x y : gtb cmp x y = ltb flip x y.
  Proof. rewrite gtb_ltb by assumption. reflexivity. Qed.

  Lemma max_argmax_flip n m p s : max_argmax_core cmp n m p s = min_argmin_core flip n m p s.
  Proof.
    unfold max_argmax_core, min_argmin_core. destruct (load m p) as [x0|]; cbn [bind]; [|reflexivity].
    apply for_each_ext. intros k [a b] _. destruct (get m p s k); cbn [bind]; [|reflexivity].
    rewrite gtb_flip. reflexivity.
  Qed.

  Lemma max_argmax_correct m p s x0 l :
    view m p s (x0 :: l) -> ~ is_nan cmp x0 ->
    exists x k, max_argmax_core cmp (Z.of_nat (length (x0 :: l))) m p s = Some (x, Z.of_nat k) /\
      first_max cmp (x0 :: l) k x.
  Proof.
    intros V N0. rewrite max_argmax_flip.
    destruct (min_argmin_correct flip flip_laws m p s x0 l V N0) as (x & k & E & H1 & H2 & H3 & H4).
    exists x, k. split; [exact E|]. repeat split; auto.
    intros j y Hj Hy Ny. specialize (H4 j y Hj Hy Ny). unfold flip in H4.
    rewrite (cmp_swap _ L y x), H4. reflexivity.
  Qed.

  Lemma max_argmax_nan0 m p s x0 l :
    view m p s (x0 :: l) -> is_nan cmp x0 ->
    max_argmax_core cmp (Z.of_nat (length (x0 :: l))) m p s = Some (x0, 0).
  Proof. intros V N0. rewrite max_argmax_flip. apply min_argmin_nan0; auto. apply flip_laws. Qed.

  Definition fmm (k : Z) (x : T) (st : T * T) : M (T * T) :=
    let '(a, b) := st in Some (std_min cmp a x, std_max cmp b x).
  Definition fargmm (k : Z) (x : T) (st : T * T * Z * Z) : M (T * T * Z * Z) :=
    let '(xmin, xmax, imin, imax) := st in
    if ltb cmp x xmin then Some (x, xmax, k, imax)
    else if gtb cmp x xmax then Some (xmin, x, imin, k)
    else Some (xmin, xmax, imin, imax).

  Lemma minmax_agrees m p s x0 l :
    view m p s (x0 :: l) ->
    exists xmin imin xmax imax,
      min_argmin_core cmp (Z.of_nat (length (x0 :: l))) m p s = Some (xmin, imin) /\
      max_argmax_core cmp (Z.of_nat (length (x0 :: l))) m p s = Some (xmax, imax) /\
      minmax_core cmp (Z.of_nat (length (x0 :: l))) m p s = Some (xmin, xmax) /\
      argminmax_core cmp (Z.of_nat (length (x0 :: l))) m p s = Some (imin, imax) /\
      argmin_core cmp (Z.of_nat (length (x0 :: l))) m p s = Some imin /\
      argmax_core cmp (Z.of_nat (length (x0 :: l))) m p s = Some imax.
  Proof.
    intros V. rewrite argmin_of_min_argmin, argmax_of_max_argmax.
    rewrite max_argmax_flip, !min_argmin_list by assumption.
    unfold minmax_core, argminmax_core. rewrite (view_load m p s x0 l V). cbn [bind].
    rewrite (for_each_tail m p s x0 l _ fmm _ V).
    2:{ intros k [a b] x Hg. rewrite Hg. reflexivity. }
    rewrite (for_each_tail m p s x0 l _ fargmm _ V).
    2:{ intros k [[[a b] c] d] x Hg. rewrite Hg. reflexivity. }
    assert (G : forall l k a b i j, (is_nan cmp a /\ is_nan cmp b) \/ leb cmp a b = true ->
      exists xmin imin xmax imax,
        liter k l (fmin cmp) (a, i) = Some (xmin, imin) /\
        liter k l (fmin flip) (b, j) = Some (xmax, imax) /\
        liter k l fmm (a, b) = Some (xmin, xmax) /\
        liter k l fargmm (a, b, i, j) = Some (xmin, xmax, imin, imax)).
    { clear V x0 l. induction l as [|x l IH]; intros k a b i j Hab; cbn [liter].
      - do 4 eexists. repeat split; reflexivity.
      - assert (E1 : fmin cmp k x (a, i) = Some (if ltb cmp x a then (x, k) else (a, i)))
          by (unfold fmin; destruct (ltb cmp x a); reflexivity).
        assert (E2 : fmin flip k x (b, j) = Some (if ltb cmp b x then (x, k) else (b, j))).
        { unfold fmin. change (ltb flip x b) with (ltb cmp b x). destruct (ltb cmp b x); reflexivity. }
        assert (E3 : fmm k x (a, b) = Some (if ltb cmp x a then x else a, if ltb cmp b x then x else b))
          by reflexivity.
        assert (E4 : fargmm k x (a, b, i, j) =
           if ltb cmp x a then Some (x, b, k, j)
           else if ltb cmp b x then Some (a, x, i, k) else Some (a, b, i, j)).
        { unfold fargmm. rewrite (gtb_ltb cmp L x b). reflexivity. }
        rewrite E1, E2, E3, E4.
        destruct (ltb cmp x a) eqn:C1.
        + assert (C2 : ltb cmp b x = false).
          { destruct Hab as [[Na Nb]|Hab].
            - apply (ltb_nan_l cmp L). apply isnan_none; assumption.
            - apply (le_not_lt cmp L). apply (ltb_leb cmp). eapply lt_le_trans; eauto. }
          rewrite C2. cbn [bind]. apply IH. right.
          destruct Hab as [[Na Nb]|Hab].
          * rewrite (ltb_nan_r cmp L) in C1 by (apply isnan_none; assumption). discriminate.
          * apply (ltb_leb cmp). eapply lt_le_trans; eauto.
        + destruct (ltb cmp b x) eqn:C2; cbn [bind]; apply IH.
          * right. destruct Hab as [[Na Nb]|Hab].
            -- rewrite (ltb_nan_l cmp L) in C2 by (apply isnan_none; assumption). discriminate.
            -- apply (ltb_leb cmp). eapply le_lt_trans; eauto.
          * assumption. }
    destruct (G l 1 x0 x0 0 0) as (xmin & imin & xmax & imax & E1 & E2 & E3 & E4).
    { destruct (cmp_refl _ L x0) as [H|H].
      - right. apply eqb_leb. unfold eqb. rewrite H. reflexivity.
      - left. split; exact H. }
    exists xmin, imin, xmax, imax. rewrite E1, E2, E3, E4. repeat split; reflexivity.
  Qed.
End Flip.

(** ** searchsorted *)
Section Search.
  Context {T : Type} (cmp : T -> T -> option comparison).

  (** termination, bounds and no out-of-range access, for any contents *)
  Lemma bisect_partition (go : T -> T -> bool) fuel m p s (l : list T) v lo hi :
    view m p s l ->
    0 <= lo <= hi -> hi <= Z.of_nat (length l) -> hi - lo <= Z.of_nat fuel ->
    exists r, bisect go fuel m p s v lo hi = Some r /\ lo <= r <= hi /\
      ((forall i j x y, (i <= j)%nat -> nth_error l i = Some x -> nth_error l j = Some y ->
            go y v = true -> go x v = true) ->
       (forall i x, nth_error l i = Some x -> lo <= Z.of_nat i < r -> go x v = true) /\
       (forall i x, nth_error l i = Some x -> r <= Z.of_nat i < hi -> go x v = false)).
  Proof.
    intros V. revert lo hi. induction fuel as [|fuel IH]; intros lo hi H1 H2 H3; cbn [bisect].
    - replace (lo <? hi) with false by (symmetry; apply Z.ltb_ge; lia).
      exists lo. split; [reflexivity|]. split; [lia|]. intros _. split; intros; lia.
    - destruct (Z.ltb_spec lo hi) as [Hlt|Hge].
      2:{ exists lo. split; [reflexivity|]. split; [lia|]. intros _. split; intros; lia. }
      set (mid := Z.quot (lo + hi) 2).
      assert (Hm : lo <= mid < hi).
      { unfold mid. rewrite Z.quot_div_nonneg by lia.
        split; [apply Z.div_le_lower_bound; lia|apply Z.div_lt_upper_bound; lia]. }
      destruct (nth_error l (Z.to_nat mid)) as [x|] eqn:Ex.
      2:{ apply nth_error_None in Ex. lia. }
      assert (E : load m (p + mid * s) = Some x).
      { pose proof (view_get m p s l _ x V Ex) as G. rewrite Z2Nat.id in G by lia. exact G. }
      rewrite E. cbn [bind]. destruct (go x v) eqn:Gx.
      + destruct (IH (mid + 1) hi) as (r & Er & Hr & Hp); try lia.
        exists r. split; [exact Er|]. split; [lia|]. intros Mono.
        destruct (Hp Mono) as [P1 P2]. split; [|exact P2].
        intros i y Hy Hi. destruct (Z.le_gt_cases (Z.of_nat i) mid) as [C|C].
        * apply (Mono i (Z.to_nat mid) y x); auto. lia.
        * apply (P1 i y Hy). lia.
      + destruct (IH lo mid) as (r & Er & Hr & Hp); try lia.
        exists r. split; [exact Er|]. split; [lia|]. intros Mono.
        destruct (Hp Mono) as [P1 P2]. split; [exact P1|].
        intros i y Hy Hi. destruct (Z.le_gt_cases mid (Z.of_nat i)) as [C|C].
        * destruct (go y v) eqn:Gy; [|reflexivity].
          assert (go x v = true) by (apply (Mono (Z.to_nat mid) i x y); auto; lia). congruence.
        * apply (P2 i y Hy). lia.
  Qed.

  Lemma occ_partition (P : T -> Prop) l (r : nat) :
    (r <= length l)%nat ->
    (forall i x, nth_error l i = Some x -> (i < r)%nat -> P x) ->
    (forall i x, nth_error l i = Some x -> (r <= i)%nat -> ~ P x) ->
    occ P l (Z.of_nat r).
  Proof.
    revert r. induction l as [|x l IH]; intros r Hr H1 H2.
    - simpl in Hr. replace r with O by lia. constructor.
    - destruct r as [|r].
      + change 0 with (Z.of_nat 0). apply occ_no; [apply (H2 O x eq_refl); lia|].
        apply IH; [lia|intros; lia|]. intros i y Hy _. apply (H2 (S i) y Hy). lia.
      + replace (Z.of_nat (S r)) with (Z.of_nat r + 1) by lia.
        apply occ_yes; [apply (H1 O x eq_refl); lia|].
        apply IH; [simpl in Hr; lia| |].
        * intros i y Hy Hi. apply (H1 (S i) y Hy). lia.
        * intros i y Hy Hi. apply (H2 (S i) y Hy). lia.
  Qed.

  Lemma searchsorted_safe (go : T -> T -> bool) m p s (l : list T) v :
    view m p s l ->
    exists r, bisect go (Z.to_nat (Z.of_nat (length l))) m p s v 0 (Z.of_nat (length l)) = Some r /\
      0 <= r <= Z.of_nat (length l).
  Proof.
    intros V. destruct (bisect_partition go (Z.to_nat (Z.of_nat (length l))) m p s l v 0 (Z.of_nat (length l)) V)
      as (r & E & Hr & _); try lia. eauto.
  Qed.

  Context (L : cmp_laws cmp).

  Lemma sorted_le l i j x y :
    sorted cmp l -> nan_free cmp l -> (i <= j)%nat ->
    nth_error l i = Some x -> nth_error l j = Some y -> leb cmp x y = true.
  Proof.
    intros S NF Hij Hx Hy. destruct (Nat.eq_dec i j) as [->|N].
    - rewrite Hx in Hy. injection Hy as <-. apply leb_refl; [assumption|].
      apply nan_spec. apply NF. eapply nth_error_In; eauto.
    - apply le_spec_leb. apply (S i j); auto. lia.
  Qed.

  Lemma searchsortedl_correct m p s l v :
    view m p s l -> sorted cmp l -> nan_free cmp l ->
    exists r, searchsortedl cmp m p (Z.of_nat (length l)) s v = Some r /\
      0 <= r <= Z.of_nat (length l) /\
      occ (fun x => cmp x v = Some Lt) l r /\
      (forall i x, nth_error l i = Some x -> (Z.of_nat i < r <-> cmp x v = Some Lt)).
  Proof.
    intros V S NF. unfold searchsortedl.
    destruct (bisect_partition (goright_l cmp) (Z.to_nat (Z.of_nat (length l))) m p s l v 0 (Z.of_nat (length l)) V)
      as (r & E & Hr & Hp); try lia.
    assert (Mono : forall i j x y, (i <= j)%nat -> nth_error l i = Some x -> nth_error l j = Some y ->
            goright_l cmp y v = true -> goright_l cmp x v = true).
    { intros i j x y Hij Hx Hy. unfold goright_l. intros Hlt.
      apply (le_lt_trans cmp L x y v); auto. eapply sorted_le; eauto. }
    destruct (Hp Mono) as [P1 P2].
    assert (K : forall i x, nth_error l i = Some x -> (Z.of_nat i < r <-> cmp x v = Some Lt)).
    { intros i x Hx. assert (i < length l)%nat by (apply nth_error_Some; congruence). split; intros H'.
      - apply lt_spec_ltb. apply (P1 i x Hx). lia.
      - apply lt_spec_ltb in H'. destruct (Z.lt_ge_cases (Z.of_nat i) r) as [|C]; [assumption|].
        specialize (P2 i x Hx ltac:(lia)). unfold goright_l in P2. congruence. }
    exists r. split; [exact E|]. split; [lia|]. split; [|exact K].
    rewrite <- (Z2Nat.id r) by lia. apply occ_partition; [lia| |].
    - intros i x Hx Hi. apply (K i x Hx). lia.
    - intros i x Hx Hi C. apply (K i x Hx) in C. lia.
  Qed.

  Lemma searchsortedr_correct m p s l v :
    view m p s l -> sorted cmp l -> nan_free cmp l -> ~ is_nan cmp v ->
    exists r, searchsortedr cmp m p (Z.of_nat (length l)) s v = Some r /\
      0 <= r <= Z.of_nat (length l) /\
      occ (fun x => le_spec cmp x v) l r /\
      (forall i x, nth_error l i = Some x -> (Z.of_nat i < r <-> le_spec cmp x v)).
  Proof.
    intros V S NF Nv. unfold searchsortedr.
    destruct (bisect_partition (goright_r cmp) (Z.to_nat (Z.of_nat (length l))) m p s l v 0 (Z.of_nat (length l)) V)
      as (r & E & Hr & Hp); try lia.
    assert (G : forall x, In x l -> (goright_r cmp x v = true <-> le_spec cmp x v)).
    { intros x Hx. unfold goright_r. rewrite negb_true_iff, le_spec_leb. split; intros Q.
      - apply not_lt_le; auto; apply nan_spec; auto.
      - apply (le_not_lt cmp L). assumption. }
    assert (Mono : forall i j x y, (i <= j)%nat -> nth_error l i = Some x -> nth_error l j = Some y ->
            goright_r cmp y v = true -> goright_r cmp x v = true).
    { intros i j x y Hij Hx Hy Hg. apply G; [eapply nth_error_In; eauto|].
      apply G in Hg; [|eapply nth_error_In; eauto]. apply le_spec_leb in Hg. apply le_spec_leb.
      apply (leb_trans cmp L x y v); auto. eapply sorted_le; eauto. }
    destruct (Hp Mono) as [P1 P2].
    assert (K : forall i x, nth_error l i = Some x -> (Z.of_nat i < r <-> le_spec cmp x v)).
    { intros i x Hx. assert (i < length l)%nat by (apply nth_error_Some; congruence). split; intros H'.
      - apply G; [eapply nth_error_In; eauto|]. apply (P1 i x Hx). lia.
      - apply G in H'; [|eapply nth_error_In; eauto].
        destruct (Z.lt_ge_cases (Z.of_nat i) r) as [|C]; [assumption|].
        specialize (P2 i x Hx ltac:(lia)). congruence. }
    exists r. split; [exact E|]. split; [lia|]. split; [|exact K].
    rewrite <- (Z2Nat.id r) by lia. apply occ_partition; [lia| |].
    - intros i x Hx Hi. apply (K i x Hx). lia.
    - intros i x Hx Hi C. apply (K i x Hx) in C. lia.
  Qed.

  Lemma occ_split (P Q R : T -> Prop) l a b :
    (forall x, In x l -> (Q x <-> P x \/ R x)) -> (forall x, In x l -> P x -> ~ R x) ->
    occ P l a -> occ Q l b -> occ R l (b - a).
  Proof.
    intros H1 H2 Ha. revert b. induction Ha as [|x l c Px Hc IH|x l c Px Hc IH]; intros b Hb.
    - inversion Hb. constructor.
    - inversion Hb as [|? ? c' Qx Hb'|? ? c' Qx Hb']; subst.
      + replace (c' + 1 - (c + 1)) with (c' - c) by lia.
        apply occ_no; [apply H2; simpl; auto|].
        apply IH; auto; intros y Hy; [apply H1|apply H2]; simpl; auto.
      + exfalso. apply Qx. apply H1; simpl; auto.
    - inversion Hb as [|? ? c' Qx Hb'|? ? c' Qx Hb']; subst.
      + replace (c' + 1 - c) with (c' - c + 1) by lia.
        apply occ_yes; [apply H1 in Qx; simpl; tauto|].
        apply IH; auto; intros y Hy; [apply H1|apply H2]; simpl; auto.
      + apply occ_no; [intros R'; apply Qx; apply H1; simpl; auto|].
        apply IH; auto; intros y Hy; [apply H1|apply H2]; simpl; auto.
  Qed.

  Lemma searchsorted_diff m p s l v :
    view m p s l -> sorted cmp l -> nan_free cmp l -> ~ is_nan cmp v ->
    exists rl rr, searchsortedl cmp m p (Z.of_nat (length l)) s v = Some rl /\
      searchsortedr cmp m p (Z.of_nat (length l)) s v = Some rr /\
      0 <= rl <= rr /\ rr <= Z.of_nat (length l) /\
      occ (fun x => cmp x v = Some Eq) l (rr - rl).
  Proof.
    intros V S NF Nv.
    destruct (searchsortedl_correct m p s l v V S NF) as (rl & El & Bl & Ol & Kl).
    destruct (searchsortedr_correct m p s l v V S NF Nv) as (rr & Er & Br & Or & Kr).
    exists rl, rr. split; [exact El|]. split; [exact Er|].
    assert (rl <= rr).
    { destruct (Z.le_gt_cases rl rr) as [|C]; [assumption|].
      destruct (nth_error l (Z.to_nat rr)) as [x|] eqn:Ex; [|apply nth_error_None in Ex; lia].
      assert (Q : cmp x v = Some Lt) by (apply (Kl _ x Ex); lia).
      assert (Z.of_nat (Z.to_nat rr) < rr) by (apply (Kr _ x Ex); left; exact Q). lia. }
    split; [lia|]. split; [lia|].
    apply (occ_split (fun x => cmp x v = Some Lt) (fun x => le_spec cmp x v)); auto.
    - intros x _. unfold le_spec. tauto.
    - intros x _ E1 E2. congruence.
  Qed.

  (** inserting v at any position between the two results keeps the array sorted *)
  Lemma sorted_cons x l : (forall y, In y l -> le_spec cmp x y) -> sorted cmp l -> sorted cmp (x :: l).
  Proof.
    intros H S [|i] [|j] a b Hij Ha Hb; try lia; cbn in Ha, Hb.
    - injection Ha as <-. apply H. eapply nth_error_In; eauto.
    - apply (S i j); auto. lia.
  Qed.

  Lemma sorted_inv x l : sorted cmp (x :: l) -> (forall y, In y l -> le_spec cmp x y) /\ sorted cmp l.
  Proof.
    intros S. split.
    - intros y Hy. apply In_nth_error in Hy as [j Hj]. apply (S O (Datatypes.S j) x y); auto. lia.
    - intros i j a b Hij Ha Hb. apply (S (Datatypes.S i) (Datatypes.S j) a b); auto. lia.
  Qed.

  Lemma insert_sorted l v r :
    sorted cmp l ->
    (forall i x, nth_error l i = Some x -> (i < r)%nat -> le_spec cmp x v) ->
    (forall i x, nth_error l i = Some x -> (r <= i)%nat -> le_spec cmp v x) ->
    sorted cmp (firstn r l ++ v :: skipn r l).
  Proof.
    revert r. induction l as [|x l IH]; intros r S H1 H2.
    - rewrite firstn_nil, skipn_nil. cbn. apply sorted_cons; [intros y []|assumption].
    - destruct r as [|r]; cbn [firstn skipn app].
      + apply sorted_cons; [|assumption]. intros y Hy. apply In_nth_error in Hy as [j Hj].
        apply (H2 j y Hj). lia.
      + apply sorted_inv in S as [Sx S]. apply sorted_cons.
        * intros y Hy. apply in_app_or in Hy as [Hy|[<-|Hy]].
          -- apply Sx. rewrite <- (firstn_skipn r l). apply in_or_app; auto.
          -- apply (H1 O x eq_refl). lia.
          -- apply Sx. rewrite <- (firstn_skipn r l). apply in_or_app; auto.
        * apply IH; auto.
          -- intros i y Hy Hi. apply (H1 (Datatypes.S i) y Hy). lia.
          -- intros i y Hy Hi. apply (H2 (Datatypes.S i) y Hy). lia.
  Qed.

  Lemma searchsorted_insert m p s l v rl rr :
    view m p s l -> sorted cmp l -> nan_free cmp l -> ~ is_nan cmp v ->
    searchsortedl cmp m p (Z.of_nat (length l)) s v = Some rl ->
    searchsortedr cmp m p (Z.of_nat (length l)) s v = Some rr ->
    forall r, rl <= r <= rr ->
    sorted cmp (firstn (Z.to_nat r) l ++ v :: skipn (Z.to_nat r) l).
  Proof.
    intros V S NF Nv El Er r Hr.
    destruct (searchsortedl_correct m p s l v V S NF) as (rl' & El' & Bl & Ol & Kl).
    destruct (searchsortedr_correct m p s l v V S NF Nv) as (rr' & Er' & Br & Or & Kr).
    rewrite El in El'. injection El' as <-. rewrite Er in Er'. injection Er' as <-.
    apply insert_sorted; auto.
    - intros i x Hx Hi. apply (Kr i x Hx). lia.
    - intros i x Hx Hi. apply le_spec_leb. apply not_lt_le; auto.
      + apply nan_spec. apply NF. eapply nth_error_In; eauto.
      + apply nan_spec. assumption.
      + destruct (ltb cmp x v) eqn:C; [|reflexivity]. apply lt_spec_ltb in C. apply (Kl i x Hx) in C. lia.
  Qed.
End Search.

(** ** percentileofscore *)
Section Percentile.
  Context {T : Type} (cmp : T -> T -> option comparison).

  Lemma count_correct m p s l v :
    view m p s l ->
    exists b e a, count cmp (Z.of_nat (length l)) m p s v = Some (b, e, a) /\
      occ (fun x => cmp x v = Some Lt) l b /\
      occ (fun x => cmp x v = Some Eq) l e /\
      occ (fun x => cmp x v = Some Gt \/ cmp x v = None) l a /\
      0 <= b /\ 0 <= e /\ 0 <= a /\ b + e + a = Z.of_nat (length l).
  Proof.
    intros V. unfold count.
    rewrite (for_each_view m p s l _
      (fun k value st => let '(nless, nequal, ngreater) := st in
         if ltb cmp value v then Some (nless + 1, nequal, ngreater)
         else if eqb cmp value v then Some (nless, nequal + 1, ngreater)
         else Some (nless, nequal, ngreater + 1)) _ V).
    2:{ intros k [[x y] z] u _ Hg. rewrite Hg. reflexivity. }
    assert (G : forall k b0 e0 a0, exists b e a,
      liter k l (fun (_ : Z) value st => let '(nless, nequal, ngreater) := st in
         if ltb cmp value v then Some (nless + 1, nequal, ngreater)
         else if eqb cmp value v then Some (nless, nequal + 1, ngreater)
         else Some (nless, nequal, ngreater + 1)) (b0, e0, a0) = Some (b0 + b, e0 + e, a0 + a) /\
      occ (fun x => cmp x v = Some Lt) l b /\
      occ (fun x => cmp x v = Some Eq) l e /\
      occ (fun x => cmp x v = Some Gt \/ cmp x v = None) l a /\
      0 <= b /\ 0 <= e /\ 0 <= a /\ b + e + a = Z.of_nat (length l)).
    { clear V. induction l as [|x l IH]; intros k b0 e0 a0; cbn [liter length].
      - exists 0, 0, 0. rewrite !Z.add_0_r. repeat split; try lia; constructor.
      - unfold ltb at 1, eqb at 1. destruct (cmp x v) as [[]|] eqn:C; cbn [bind].
        + destruct (IH (k + 1) b0 (e0 + 1) a0) as (b & e & a & E & O1 & O2 & O3 & H).
          exists b, (e + 1), a. replace (e0 + (e + 1)) with (e0 + 1 + e) by lia. rewrite E.
          split; [reflexivity|]. repeat split; try lia.
          * apply occ_no; [rewrite C; discriminate|assumption].
          * apply occ_yes; assumption.
          * apply occ_no; [rewrite C; intuition discriminate|assumption].
        + destruct (IH (k + 1) (b0 + 1) e0 a0) as (b & e & a & E & O1 & O2 & O3 & H).
          exists (b + 1), e, a. replace (b0 + (b + 1)) with (b0 + 1 + b) by lia. rewrite E.
          split; [reflexivity|]. repeat split; try lia.
          * apply occ_yes; assumption.
          * apply occ_no; [rewrite C; discriminate|assumption].
          * apply occ_no; [rewrite C; intuition discriminate|assumption].
        + destruct (IH (k + 1) b0 e0 (a0 + 1)) as (b & e & a & E & O1 & O2 & O3 & H).
          exists b, e, (a + 1). replace (a0 + (a + 1)) with (a0 + 1 + a) by lia. rewrite E.
          split; [reflexivity|]. repeat split; try lia.
          * apply occ_no; [rewrite C; discriminate|assumption].
          * apply occ_no; [rewrite C; discriminate|assumption].
          * apply occ_yes; auto.
        + destruct (IH (k + 1) b0 e0 (a0 + 1)) as (b & e & a & E & O1 & O2 & O3 & H).
          exists b, e, (a + 1). replace (a0 + (a + 1)) with (a0 + 1 + a) by lia. rewrite E.
          split; [reflexivity|]. repeat split; try lia.
          * apply occ_no; [rewrite C; discriminate|assumption].
          * apply occ_no; [rewrite C; discriminate|assumption].
          * apply occ_yes; auto. }
    destruct (G 0 0 0 0) as (b & e & a & E & H). exists b, e, a. rewrite E. split; [reflexivity|exact H].
  Qed.

  Lemma pos_correct m p s l v kind :
    view m p s l -> l <> [] ->
    exists b e a,
      occ (fun x => cmp x v = Some Lt) l b /\
      occ (fun x => cmp x v = Some Eq) l e /\
      occ (fun x => cmp x v = Some Gt \/ cmp x v = None) l a /\
      b + e + a = Z.of_nat (length l) /\ 0 <= b /\ 0 <= e /\ 0 <= a /\
      percentileofscore_core_calc cmp earith (Z.of_nat (length l)) m p s v kind =
      Some (match to_int32 kind with
            | 0 => Some (Fin (100 * ((IZR b + (if 0 <? e then (IZR e + 1) / 2 else 0)) / IZR (b + e + a))))
            | 1 => Some (Fin (100 * ((IZR b + IZR e) / IZR (b + e + a))))
            | 2 => Some (Fin (100 * (IZR b / IZR (b + e + a))))
            | 3 => Some (Fin (100 * ((IZR b + IZR e / 2) / IZR (b + e + a))))
            | _ => None
            end).
  Proof.
    intros V NE. destruct (count_correct m p s l v V) as (b & e & a & E & O1 & O2 & O3 & B1 & B2 & B3 & B4).
    exists b, e, a. repeat (split; [assumption || lia|]).
    unfold percentileofscore_core_calc. rewrite E. cbn [bind].
    assert (N : IZR (Z.of_nat (length l)) <> 0%R).
    { apply not_0_IZR. destruct l; [congruence|]. cbn [length]. lia. }
    assert (D : forall z w, a_div earith (a_mul earith (a_ofZ earith z) (a_ofZ earith w)) (a_ofZ earith (Z.of_nat (length l)))
        = Fin (IZR z * IZR w / IZR (Z.of_nat (length l)))).
    { intros z w. cbn. apply ediv_Fin. exact N. }
    rewrite !D, B4.
    destruct (to_int32 kind) as [|q|q] eqn:K; cbn [Z.eqb].
    - destruct (Z.ltb_spec 0 e); unfold ret; do 3 f_equal;
        rewrite ?plus_IZR, ?mult_IZR, ?plus_IZR; try field; auto.
      replace e with 0 by lia. field. auto.
    - destruct q as [[q|q|]|[q|q|]|]; cbn [Z.eqb Pos.eqb]; unfold ret; try reflexivity;
      do 3 f_equal; rewrite ?plus_IZR, ?mult_IZR; field; auto.
    - reflexivity.
  Qed.
End Percentile.

Section PercentileOrder.
  Context {T : Type} (cmp : T -> T -> option comparison) (L : cmp_laws cmp).

  Definition pos_kind (kind b e n : Z) : R :=
    match kind with
    | 0 => 100 * ((IZR b + (if 0 <? e then (IZR e + 1) / 2 else 0)) / IZR n)
    | 1 => 100 * ((IZR b + IZR e) / IZR n)
    | 2 => 100 * (IZR b / IZR n)
    | _ => 100 * ((IZR b + IZR e / 2) / IZR n)
    end%R.

  (* RANK 0 WEAK 1 STRICT 2 MEAN 3: strict <= mean <= rank <= weak, within [0, 100] *)
  Lemma pos_kind_chain b e a n :
    0 <= b -> 0 <= e -> 0 <= a -> b + e + a = n -> 0 < n ->
    (0 <= pos_kind 2 b e n <= pos_kind 3 b e n /\ pos_kind 3 b e n <= pos_kind 0 b e n /\
     pos_kind 0 b e n <= pos_kind 1 b e n <= 100)%R.
  Proof.
    intros Hb He Ha En Hn. unfold pos_kind.
    apply IZR_le in Hb, He, Ha. assert (Hn' := IZR_lt _ _ Hn).
    assert (Es : (IZR b + IZR e + IZR a = IZR n)%R) by (rewrite <- En, !plus_IZR; reflexivity).
    assert (I : (0 < / IZR n)%R) by (apply Rinv_0_lt_compat; assumption).
    assert (M1 : forall x y, (x <= y -> 100 * (x / IZR n) <= 100 * (y / IZR n))%R).
    { intros x y H. unfold Rdiv. apply Rmult_le_compat_l; [lra|]. apply Rmult_le_compat_r; lra. }
    assert (Z0 : (0 = 100 * (0 / IZR n))%R) by (unfold Rdiv; ring).
    assert (Z1 : (100 = 100 * (IZR n / IZR n))%R) by (field; lra).
    repeat split.
    - rewrite Z0 at 1. apply M1; lra.
    - apply M1; lra.
    - apply M1. destruct (Z.ltb_spec 0 e) as [C|C]; [lra|].
      apply IZR_le in C. assert (IZR e = 0)%R by lra. lra.
    - apply M1. destruct (Z.ltb_spec 0 e) as [C|C]; [|lra].
      assert (1 <= e) by lia. apply IZR_le in H. lra.
    - rewrite Z1 at 2. apply M1; lra.
  Qed.

  Lemma pos_kind_strict b e a n :
    0 <= b -> 0 <= e -> 0 <= a -> b + e + a = n -> 0 < n ->
    forall kind, 0 <= kind <= 3 ->
    (pos_kind 2 b e n <= pos_kind kind b e n <= pos_kind 1 b e n)%R.
  Proof.
    intros Hb He Ha En Hn kind Hk.
    pose proof (pos_kind_chain b e a n Hb He Ha En Hn).
    assert (kind = 0 \/ kind = 1 \/ kind = 2 \/ kind = 3) as [->|[->|[->| ->]]] by lia; lra.
  Qed.

  Lemma pos_general m p s l v kind :
    view m p s l -> l <> [] -> 0 <= kind <= 3 ->
    exists b e a,
      occ (fun x => cmp x v = Some Lt) l b /\
      occ (fun x => cmp x v = Some Eq) l e /\
      occ (fun x => cmp x v = Some Gt \/ cmp x v = None) l a /\
      b + e + a = Z.of_nat (length l) /\ 0 <= b /\ 0 <= e /\ 0 <= a /\
      percentileofscore_core_calc cmp earith (Z.of_nat (length l)) m p s v kind =
      Some (Some (Fin (pos_kind kind b e (Z.of_nat (length l))))).
  Proof.
    intros V NE Hk. destruct (pos_correct cmp m p s l v kind V NE) as (b & e & a & H1 & H2 & H3 & H4 & H5 & H6 & H7 & E).
    exists b, e, a. repeat (split; [assumption|]). rewrite E, H4.
    assert (kind = 0 \/ kind = 1 \/ kind = 2 \/ kind = 3) as [->|[->|[->| ->]]] by lia; reflexivity.
  Qed.

  Lemma occ_le (P Q : T -> Prop) l a b :
    (forall x, In x l -> P x -> Q x) -> occ P l a -> occ Q l b -> a <= b.
  Proof.
    intros H Ha. revert b. induction Ha as [|x l c Px Hc IH|x l c Px Hc IH]; intros b Hb.
    - inversion Hb. lia.
    - inversion Hb as [|? ? c' Qx Hb'|? ? c' Qx Hb']; subst.
      + assert (c <= c') by (apply IH; auto; intros y Hy; apply H; simpl; auto). lia.
      + exfalso. apply Qx. apply H; simpl; auto.
    - inversion Hb as [|? ? c' Qx Hb'|? ? c' Qx Hb']; subst.
      + assert (c <= c') by (apply IH; auto; intros y Hy; apply H; simpl; auto). lia.
      + apply IH; auto; intros y Hy; apply H; simpl; auto.
  Qed.

  Lemma occ_unique (P : T -> Prop) l a b : occ P l a -> occ P l b -> a = b.
  Proof.
    intros Ha Hb. assert (a <= b) by (eapply occ_le; eauto). assert (b <= a) by (eapply occ_le; eauto). lia.
  Qed.

  Lemma occ_plus (P Q R : T -> Prop) l a b :
    (forall x, In x l -> (R x <-> P x \/ Q x)) -> (forall x, In x l -> P x -> ~ Q x) ->
    occ P l a -> occ Q l b -> occ R l (a + b).
  Proof.
    intros H1 H2 Ha. revert b. induction Ha as [|x l c Px Hc IH|x l c Px Hc IH]; intros b Hb.
    - inversion Hb. constructor.
    - inversion Hb as [|? ? c' Qx Hb'|? ? c' Qx Hb']; subst.
      + exfalso. apply (H2 x); simpl; auto.
      + replace (c + 1 + b) with (c + b + 1) by lia. apply occ_yes; [apply H1; simpl; auto|].
        apply IH; auto; intros y Hy; [apply H1|apply H2]; simpl; auto.
    - inversion Hb as [|? ? c' Qx Hb'|? ? c' Qx Hb']; subst.
      + replace (c + (c' + 1)) with (c + c' + 1) by lia. apply occ_yes; [apply H1; simpl; auto|].
        apply IH; auto; intros y Hy; [apply H1|apply H2]; simpl; auto.
      + apply occ_no; [intros R'; apply H1 in R'; simpl; tauto|].
        apply IH; auto; intros y Hy; [apply H1|apply H2]; simpl; auto.
  Qed.

  (** nondecreasing in the score *)
  Lemma pos_monotone m p s l v w kind :
    view m p s l -> l <> [] -> 0 <= kind <= 3 -> le_spec cmp v w ->
    exists rv rw,
      percentileofscore_core_calc cmp earith (Z.of_nat (length l)) m p s v kind = Some (Some (Fin rv)) /\
      percentileofscore_core_calc cmp earith (Z.of_nat (length l)) m p s w kind = Some (Some (Fin rw)) /\
      (rv <= rw)%R.
  Proof.
    intros V NE Hk Hvw.
    destruct (pos_general m p s l v kind V NE Hk) as (b & e & a & H1 & H2 & H3 & H4 & H5 & H6 & H7 & E).
    destruct (pos_general m p s l w kind V NE Hk) as (b' & e' & a' & H1' & H2' & H3' & H4' & H5' & H6' & H7' & E').
    do 2 eexists. split; [exact E|]. split; [exact E'|].
    assert (Hn : 0 < Z.of_nat (length l)) by (destruct l; [congruence|cbn [length]; lia]).
    destruct Hvw as [C|C].
    - assert (BE : b + e <= b').
      { eapply (occ_le (fun x => le_spec cmp x v) (fun x => cmp x w = Some Lt)).
        - intros x _ Hx. apply le_spec_leb in Hx. apply lt_spec_ltb in C. apply lt_spec_ltb.
          apply (le_lt_trans cmp L x v w); auto.
        - eapply (occ_plus (fun x => cmp x v = Some Lt) (fun x => cmp x v = Some Eq)); eauto.
          + intros x _. unfold le_spec. tauto.
          + intros x _ Q1 Q2. congruence.
        - exact H1'. }
      pose proof (pos_kind_strict b e a _ H5 H6 H7 H4 Hn kind Hk) as [_ Q1].
      pose proof (pos_kind_strict b' e' a' _ H5' H6' H7' H4' Hn kind Hk) as [Q2 _].
      assert (Q3 : (pos_kind 1 b e (Z.of_nat (length l)) <= pos_kind 2 b' e' (Z.of_nat (length l)))%R).
      { unfold pos_kind. apply IZR_lt in Hn. apply IZR_le in BE. rewrite plus_IZR in BE.
        apply Rmult_le_compat_l; [lra|]. unfold Rdiv. apply Rmult_le_compat_r; [|lra].
        left. apply Rinv_0_lt_compat. assumption. }
      lra.
    - assert (Q : forall x, cmp x v = cmp x w) by (intros x; apply (cmp_eq_r cmp L); exact C).
      assert (b = b').
      { eapply occ_unique; [exact H1|].
        revert H1'. clear - Q. intros H. induction H; [constructor|apply occ_yes|apply occ_no]; auto; rewrite Q; auto. }
      assert (e = e').
      { eapply occ_unique; [exact H2|].
        revert H2'. clear - Q. intros H. induction H; [constructor|apply occ_yes|apply occ_no]; auto; rewrite Q; auto. }
      subst. lra.
  Qed.
End PercentileOrder.

Lemma first_invalid_op :
  forall {T} (cmp : T -> T -> option comparison) op x target,
    ~ (0 <= op <= 5) -> ~ op_holds cmp op x target.
Proof. intros T cmp op x t H H'. unfold op_holds in H'. intuition Lia.lia. Qed.

Lemma ordered_nan_refuted :
  exists (l : list f64) mx,
    view mx 0 8 l /\ (exists x, In x l /\ is_nan f64_cmp x) /\
    ordered_core f64_cmp (Z.of_nat (length l)) mx 0 8 Py_LT = Some true /\
    (exists x y, nth_error l 0 = Some x /\ nth_error l 2 = Some y /\ f64_cmp x y = Some Gt).
Proof.
  exists [f64_ofZ 1; B754_nan; f64_ofZ 0], (mem_of 0 8 [f64_ofZ 1; B754_nan; f64_ofZ 0]).
  split; [apply view_mem_of; reflexivity|]. split.
  { exists B754_nan. split; [simpl; auto|reflexivity]. }
  split; [vm_compute; reflexivity|].
  do 2 eexists. split; [reflexivity|]. split; [reflexivity|]. vm_compute. reflexivity.
Qed.

Lemma ordered_invalid_op :
  forall {T} (cmp : T -> T -> option comparison) n mx px sx op,
    ~ (0 <= op <= 5) -> ordered_core cmp n mx px sx op = ordered_core cmp n mx px sx 5.
Proof.
  intros T cmp n mx px sx op H. unfold ordered_core, Py_LT, Py_LE, Py_EQ, Py_NE, Py_GT.
  replace (op =? 0) with false by (symmetry; apply Z.eqb_neq; Lia.lia).
  replace (op =? 1) with false by (symmetry; apply Z.eqb_neq; Lia.lia).
  replace (op =? 2) with false by (symmetry; apply Z.eqb_neq; Lia.lia).
  replace (op =? 3) with false by (symmetry; apply Z.eqb_neq; Lia.lia).
  replace (op =? 4) with false by (symmetry; apply Z.eqb_neq; Lia.lia).
  reflexivity.
Qed.

Lemma searchsorted_lr_safe :
  forall {T} (cmp : T -> T -> option comparison) ma pa step l v, view ma pa step l ->
    (exists r, searchsortedl cmp ma pa (Z.of_nat (length l)) step v = Some r /\ 0 <= r <= Z.of_nat (length l)) /\
    (exists r, searchsortedr cmp ma pa (Z.of_nat (length l)) step v = Some r /\ 0 <= r <= Z.of_nat (length l)).
Proof. intros T cmp ma pa step l v V. split; exact (searchsorted_safe _ ma pa step l v V). Qed.

Lemma pos_kinds_ordered :
  forall {T} (cmp : T -> T -> option comparison) mx px sx l v,
    view mx px sx l -> l <> [] ->
    exists rank weak strict mean,
      (forall kind r, nth_error [rank; weak; strict; mean] kind = Some r ->
         percentileofscore_core_calc cmp earith (Z.of_nat (length l)) mx px sx v (Z.of_nat kind)
         = Some (Some (Fin r))) /\
      (0 <= strict <= mean /\ mean <= rank <= weak /\ weak <= 100)%R.
Proof.
  intros T cmp mx px sx l v V NE.
  destruct (count_correct cmp mx px sx l v V) as (b & e & a & _ & O1 & O2 & O3 & B1 & B2 & B3 & B4).
  assert (Hn : 0 < Z.of_nat (length l)) by (destruct l; [congruence|cbn [length]; Lia.lia]).
  exists (pos_kind 0 b e (Z.of_nat (length l))), (pos_kind 1 b e (Z.of_nat (length l))),
         (pos_kind 2 b e (Z.of_nat (length l))), (pos_kind 3 b e (Z.of_nat (length l))).
  split.
  - intros kind r Hr.
    assert (Hk : (kind < 4)%nat) by (apply (nth_error_Some [pos_kind 0 b e (Z.of_nat (length l)); pos_kind 1 b e (Z.of_nat (length l));
         pos_kind 2 b e (Z.of_nat (length l)); pos_kind 3 b e (Z.of_nat (length l))] kind); congruence).
    destruct (pos_general cmp mx px sx l v (Z.of_nat kind) V NE ltac:(Lia.lia))
      as (b' & e' & a' & H1 & H2 & H3 & _ & _ & _ & _ & E).
    rewrite E. rewrite (occ_unique _ l b' b H1 O1), (occ_unique _ l e' e H2 O2).
    do 3 f_equal. destruct kind as [|[|[|[|kind]]]]; [| | | |Lia.lia];
      injection Hr as <-; reflexivity.
  - pose proof (pos_kind_chain b e a _ B1 B2 B3 B4 Hn). Lra.lra.
Qed.

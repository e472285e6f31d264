(** Proofs about M_Obj. *)
From Coq Require Import ZArith List Bool Lia.
From Verif Require Import CSem CSemP Num NumP M_Select S_Select P_Select M_Obj S_Obj.
Import ListNotations.
Open Scope Z_scope.

Lemma rich_err O a b op w w' : rich O a b op w = (None, w') -> err w' = true.
Proof.
  unfold rich. destruct (a =? b).
  - destruct (op =? Py_EQ); [discriminate|]. destruct (op =? Py_NE); [discriminate|].
    destruct (O _); [discriminate|]. intros H; injection H as <-. reflexivity.
  - destruct (O _); [discriminate|]. intros H; injection H as <-. reflexivity.
Qed.

Lemma rich_ok O a b op w r w' : rich O a b op w = (Some r, w') -> err w' = err w.
Proof.
  unfold rich. destruct (a =? b).
  - destruct (op =? Py_EQ); [intros H; injection H as _ <-; reflexivity|].
    destruct (op =? Py_NE); [intros H; injection H as _ <-; reflexivity|].
    destruct (O _); [|discriminate]. intros H; injection H as _ <-. reflexivity.
  - destruct (O _); [|discriminate]. intros H; injection H as _ <-. reflexivity.
Qed.

Section Scan.
  Context (O : oracle).

  (** common shape of first, argfirst, all_same and ordered *)
  Definition scan_body {R} (q : obj -> obj * obj * Z) (b : bool) (onerr : R -> R) (onhit : Z -> obj -> R)
             (k : Z) (x : obj) (st : R * world) : M (ctl (R * world) unit) :=
    let '(r, w) := st in
    match rich O (fst (fst (q x))) (snd (fst (q x))) (snd (q x)) w with
    | (None, w') => Some (Brk (onerr r, w'))
    | (Some a, w') => if Bool.eqb a b then Some (Brk (onhit k x, w')) else Some (Next (r, w'))
    end.

  Lemma lloop_scan {R} q b onerr onhit l k (r : R) w :
    exists r' w', lloop k l (scan_body q b onerr onhit) (r, w) = Some (inl (r', w')) /\
      ((answers O q (negb b) l w w' /\ r' = r) \/
       (exists pre x, decides O q b (Some b) l w pre x w' /\ r' = onhit (k + Z.of_nat (length pre)) x) \/
       (exists pre x, decides O q b None l w pre x w' /\ r' = onerr r)).
  Proof.
    revert k w. induction l as [|x l IH]; intros k w; cbn [lloop].
    - exists r, w. split; [reflexivity|]. left. split; [constructor|reflexivity].
    - unfold scan_body at 1.
      destruct (rich O (fst (fst (q x))) (snd (fst (q x))) (snd (q x)) w) as [[a|] w1] eqn:E.
      + destruct (Bool.eqb a b) eqn:Eab.
        * apply eqb_prop in Eab. subst a. exists (onhit k x), w1. split; [reflexivity|].
          right. left. exists [], x. split.
          -- exists l, w. split; [reflexivity|]. split; [constructor|assumption].
          -- f_equal. cbn. lia.
        * assert (Ha : a = negb b) by (clear - Eab; destruct a, b; cbn in *; congruence). subst a.
          destruct (IH (k + 1) w1) as (r' & w' & E' & H). exists r', w'. split; [exact E'|].
          destruct H as [[H1 H2]|[(pre & y & (post & w2 & H1 & H2 & H3) & H4)|(pre & y & (post & w2 & H1 & H2 & H3) & H4)]].
          -- left. split; [econstructor; eauto|assumption].
          -- right; left. exists (x :: pre), y. split.
             ++ exists post, w2. split; [simpl; congruence|]. split; [econstructor; eauto|assumption].
             ++ rewrite H4. f_equal. cbn [length]. lia.
          -- right; right. exists (x :: pre), y. split; [|assumption].
             exists post, w2. split; [simpl; congruence|]. split; [econstructor; eauto|assumption].
      + exists (onerr r), w1. split; [reflexivity|]. right; right. exists [], x. split; [|reflexivity].
        exists l, w. split; [reflexivity|]. split; [constructor|assumption].
  Qed.

  Lemma answers_err q b l w w' : answers O q b l w w' -> err w' = err w.
  Proof. induction 1; [reflexivity|]. rewrite IHanswers. eapply rich_ok; eauto. Qed.

  Definition qfirst (target : obj) (op : Z) (x : obj) : obj * obj * Z := (x, target, op).

  Lemma first_object_correct mx px sx l op target otherwise w :
    view mx px sx l -> 0 <= op <= 5 ->
    exists r w', first_core_calc_object O (Z.of_nat (length l)) mx px sx op target otherwise w = Some (r, w') /\
      ((answers O (fun x => (x, target, op)) false l w w' /\ r = Some otherwise /\ err w' = err w) \/
       (exists pre x, decides O (fun x => (x, target, op)) true (Some true) l w pre x w' /\ r = Some x /\ err w' = err w) \/
       (exists pre x, decides O (fun x => (x, target, op)) true None l w pre x w' /\ r = None /\ err w' = true)).
  Proof.
    intros V Hop. unfold first_core_calc_object.
    replace ((0 <=? op) && (op <=? 5)) with true by (symmetry; apply andb_true_intro; split; apply Z.leb_le; lia).
    rewrite (for_loop_view mx px sx l _
      (scan_body (fun x => (x, target, op)) true (fun _ => None) (fun _ x => Some x)) _ V).
    2:{ intros k [r0 w0] x _ Hg. rewrite Hg. cbn. destruct (rich O x target op w0) as [[[]|] w1]; reflexivity. }
    destruct (lloop_scan (fun x => (x, target, op)) true (fun _ => None) (fun _ x => Some x) l 0 (Some otherwise) w)
      as (r' & w' & E & H).
    rewrite E. exists r', w'. split; [reflexivity|].
    destruct H as [[H1 H2]|[(pre & y & H1 & H4)|(pre & y & H1 & H4)]].
    - left. repeat split; auto. eapply answers_err; eauto.
    - right; left. exists pre, y. repeat split; auto.
      destruct H1 as (post & w2 & _ & H2 & H3). rewrite (rich_ok _ _ _ _ _ _ _ H3). eapply answers_err; eauto.
    - right; right. exists pre, y. repeat split; auto.
      destruct H1 as (post & w2 & _ & H2 & H3). eapply rich_err; eauto.
  Qed.

  Lemma first_object_invalid mx px sx n op target otherwise w :
    ~ (0 <= op <= 5) ->
    first_core_calc_object O n mx px sx op target otherwise w = Some (Some otherwise, w).
  Proof.
    intros H. unfold first_core_calc_object.
    destruct (Z.leb_spec 0 op); cbn [andb]; [|reflexivity].
    destruct (Z.leb_spec op 5); [lia|reflexivity].
  Qed.

  Lemma argfirst_object_correct mx px sx l op target w :
    view mx px sx l -> 0 <= op <= 5 ->
    exists r w', argfirst_core_calc_object O (Z.of_nat (length l)) mx px sx op target w = Some (r, w') /\
      ((answers O (fun x => (x, target, op)) false l w w' /\ r = -1 /\ err w' = err w) \/
       (exists pre x, decides O (fun x => (x, target, op)) true (Some true) l w pre x w' /\ r = Z.of_nat (length pre) /\ err w' = err w) \/
       (exists pre x, decides O (fun x => (x, target, op)) true None l w pre x w' /\ r = -2 /\ err w' = true)).
  Proof.
    intros V Hop. unfold argfirst_core_calc_object.
    replace ((0 <=? op) && (op <=? 5)) with true by (symmetry; apply andb_true_intro; split; apply Z.leb_le; lia).
    rewrite (for_loop_view mx px sx l _
      (scan_body (fun x => (x, target, op)) true (fun _ => -2) (fun k _ => k)) _ V).
    2:{ intros k [r0 w0] x _ Hg. rewrite Hg. cbn. destruct (rich O x target op w0) as [[[]|] w1]; reflexivity. }
    destruct (lloop_scan (fun x => (x, target, op)) true (fun _ => -2) (fun k _ => k) l 0 (-1) w)
      as (r' & w' & E & H).
    rewrite E. exists r', w'. split; [reflexivity|].
    destruct H as [[H1 H2]|[(pre & y & H1 & H4)|(pre & y & H1 & H4)]].
    - left. repeat split; auto. eapply answers_err; eauto.
    - right; left. exists pre, y. repeat split; auto.
      destruct H1 as (post & w2 & _ & H2 & H3). rewrite (rich_ok _ _ _ _ _ _ _ H3). eapply answers_err; eauto.
    - right; right. exists pre, y. repeat split; auto.
      destruct H1 as (post & w2 & _ & H2 & H3). eapply rich_err; eauto.
  Qed.

  Lemma all_same_object_correct mx px sx x0 l w :
    view mx px sx (x0 :: l) ->
    exists r w', all_same_core_object O (Z.of_nat (length (x0 :: l))) mx px sx w = Some (r, w') /\
      ((answers O (fun x => (x, x0, 3)) false l w w' /\ r = true /\ err w' = err w) \/
       (exists pre x, decides O (fun x => (x, x0, 3)) true (Some true) l w pre x w' /\ r = false /\ err w' = err w) \/
       (exists pre x, decides O (fun x => (x, x0, 3)) true None l w pre x w' /\ r = true /\ err w' = true)).
  Proof.
    intros V. unfold all_same_core_object.
    destruct l as [|x1 l].
    { exists true, w. split; [reflexivity|]. left. repeat split; constructor. }
    replace (1 <? Z.of_nat (length (x0 :: x1 :: l))) with true by (symmetry; apply Z.ltb_lt; cbn [length]; lia).
    rewrite (view_load mx px sx x0 (x1 :: l) V). cbn [bind].
    rewrite (for_loop_tail mx px sx x0 (x1 :: l) _
      (scan_body (fun x => (x, x0, 3)) true (fun r => r) (fun _ _ => false)) _ V).
    2:{ intros k [r0 w0] x Hg. rewrite Hg. cbn. unfold Py_NE. destruct (rich O x x0 3 w0) as [[[]|] w1]; reflexivity. }
    destruct (lloop_scan (fun x => (x, x0, 3)) true (fun r => r) (fun _ _ => false) (x1 :: l) 1 true w)
      as (r' & w' & E & H).
    rewrite E. exists r', w'. split; [reflexivity|].
    destruct H as [[H1 H2]|[(pre & y & H1 & H4)|(pre & y & H1 & H4)]].
    - left. repeat split; auto. eapply answers_err; eauto.
    - right; left. exists pre, y. repeat split; auto.
      destruct H1 as (post & w2 & _ & H2 & H3). rewrite (rich_ok _ _ _ _ _ _ _ H3). eapply answers_err; eauto.
    - right; right. exists pre, y. repeat split; auto.
      destruct H1 as (post & w2 & _ & H2 & H3). eapply rich_err; eauto.
  Qed.

  Lemma ordered_object_correct mx px sx x0 l op w :
    view mx px sx (x0 :: l) ->
    exists r w', ordered_core_object O (Z.of_nat (length (x0 :: l))) mx px sx op w = Some (r, w') /\
      ((answers O (fun x => (x0, x, op)) true l w w' /\ r = true /\ err w' = err w) \/
       (exists pre x, decides O (fun x => (x0, x, op)) false (Some false) l w pre x w' /\ r = false /\ err w' = err w) \/
       (exists pre x, decides O (fun x => (x0, x, op)) false None l w pre x w' /\ r = true /\ err w' = true)).
  Proof.
    intros V. unfold ordered_core_object.
    destruct l as [|x1 l].
    { exists true, w. split; [reflexivity|]. left. repeat split; constructor. }
    replace (1 <? Z.of_nat (length (x0 :: x1 :: l))) with true by (symmetry; apply Z.ltb_lt; cbn [length]; lia).
    rewrite (view_load mx px sx x0 (x1 :: l) V). cbn [bind].
    rewrite (for_loop_tail mx px sx x0 (x1 :: l) _
      (scan_body (fun x => (x0, x, op)) false (fun r => r) (fun _ _ => false)) _ V).
    2:{ intros k [r0 w0] x Hg. rewrite Hg. cbn. destruct (rich O x0 x op w0) as [[[]|] w1]; reflexivity. }
    destruct (lloop_scan (fun x => (x0, x, op)) false (fun r => r) (fun _ _ => false) (x1 :: l) 1 true w)
      as (r' & w' & E & H).
    rewrite E. exists r', w'. split; [reflexivity|].
    destruct H as [[H1 H2]|[(pre & y & H1 & H4)|(pre & y & H1 & H4)]].
    - left. repeat split; auto. eapply answers_err; eauto.
    - right; left. exists pre, y. repeat split; auto.
      destruct H1 as (post & w2 & _ & H2 & H3). rewrite (rich_ok _ _ _ _ _ _ _ H3). eapply answers_err; eauto.
    - right; right. exists pre, y. repeat split; auto.
      destruct H1 as (post & w2 & _ & H2 & H3). eapply rich_err; eauto.
  Qed.

  (** extremum scans: outputs are written iff no comparison raised *)
  Definition ext_body (op : Z) (k : Z) (x : obj) (st : obj * Z * world) : M (ctl (obj * Z * world) world) :=
    let '(xm, im, w) := st in
    match rich O x xm op w with
    | (None, w') => Some (Ret w')
    | (Some true, w') => Some (Next (x, k, w'))
    | (Some false, w') => Some (Next (xm, im, w'))
    end.

  Lemma ext_list op mx px sx x0 l w :
    view mx px sx (x0 :: l) ->
    ext_argext_object O op (Z.of_nat (length (x0 :: l))) mx px sx w =
    bind (lloop 1 l (ext_body op) (x0, 0, w))
         (fun r => Some (match r with inl (xm, im, w') => (Some (xm, im), w') | inr w' => (None, w') end)).
  Proof.
    intros V. unfold ext_argext_object. rewrite (view_load mx px sx x0 l V). cbn [bind].
    rewrite (for_loop_tail mx px sx x0 l _ (ext_body op) _ V).
    2:{ intros k [[a b] c] x Hg. rewrite Hg. cbn. destruct (rich O x a op c) as [[[]|] ?]; reflexivity. }
    reflexivity.
  Qed.

  Lemma ext_error op mx px sx x0 l w :
    view mx px sx (x0 :: l) -> err w = false ->
    exists r w', ext_argext_object O op (Z.of_nat (length (x0 :: l))) mx px sx w = Some (r, w') /\
      (r = None <-> err w' = true).
  Proof.
    intros V Hw. rewrite ext_list by assumption.
    assert (G : forall l k a i w, err w = false -> exists r,
       lloop k l (ext_body op) (a, i, w) = Some r /\
       match r with inl (_, _, w') => err w' = false | inr w' => err w' = true end).
    { clear. induction l as [|x l IH]; intros k a i w Hw; cbn [lloop].
      - eexists. split; [reflexivity|assumption].
      - unfold ext_body at 1. destruct (rich O x a op w) as [[[]|] w1] eqn:E.
        + apply IH. rewrite (rich_ok _ _ _ _ _ _ _ E). assumption.
        + apply IH. rewrite (rich_ok _ _ _ _ _ _ _ E). assumption.
        + eexists. split; [reflexivity|]. eapply rich_err; eauto. }
    destruct (G l 1 x0 0 w Hw) as (r & E & H). rewrite E. cbn [bind].
    destruct r as [[[xm im] w']|w']; do 2 eexists; (split; [reflexivity|]); rewrite H; split; congruence.
  Qed.

  Definition mm_body (k : Z) (x : obj) (st : obj * obj * Z * Z * world)
    : M (ctl (obj * obj * Z * Z * world) world) :=
    let '(xmin, xmax, imin, imax, w) := st in
    match rich O x xmin Py_LT w with
    | (None, w') => Some (Ret w')
    | (Some true, w') => Some (Next (x, xmax, k, imax, w'))
    | (Some false, w') =>
        match rich O x xmax Py_GT w' with
        | (None, w'') => Some (Ret w'')
        | (Some true, w'') => Some (Next (xmin, x, imin, k, w''))
        | (Some false, w'') => Some (Next (xmin, xmax, imin, imax, w''))
        end
    end.

  Lemma mm_list mx px sx x0 l w :
    view mx px sx (x0 :: l) ->
    minmax_scan_object O (Z.of_nat (length (x0 :: l))) mx px sx w =
    bind (lloop 1 l mm_body (x0, x0, 0, 0, w))
         (fun r => Some (match r with inl (a, b, i, j, w') => (Some (a, b, i, j), w') | inr w' => (None, w') end)).
  Proof.
    intros V. unfold minmax_scan_object. rewrite (view_load mx px sx x0 l V). cbn [bind].
    rewrite (for_loop_tail mx px sx x0 l _ mm_body _ V).
    2:{ intros k [[[[a b] c] d] w0] x Hg. rewrite Hg. cbn. unfold mm_body.
        destruct (rich O x a Py_LT w0) as [[[]|] w1]; reflexivity. }
    reflexivity.
  Qed.

  Lemma mm_error mx px sx x0 l w :
    view mx px sx (x0 :: l) -> err w = false ->
    exists r w', minmax_scan_object O (Z.of_nat (length (x0 :: l))) mx px sx w = Some (r, w') /\
      (r = None <-> err w' = true).
  Proof.
    intros V Hw. rewrite mm_list by assumption.
    assert (G : forall l k st w, err w = false -> exists r,
       lloop k l mm_body (st, w) = Some r /\
       match r with inl (_, _, _, _, w') => err w' = false | inr w' => err w' = true end).
    { clear. induction l as [|x l IH]; intros k [[[a b] i] j] w Hw; cbn [lloop].
      - eexists. split; [reflexivity|assumption].
      - unfold mm_body at 1. destruct (rich O x a Py_LT w) as [[[]|] w1] eqn:E.
        + apply IH. rewrite (rich_ok _ _ _ _ _ _ _ E). assumption.
        + assert (Hw1 : err w1 = false) by (rewrite (rich_ok _ _ _ _ _ _ _ E); assumption).
          destruct (rich O x b Py_GT w1) as [[[]|] w2] eqn:E2.
          * apply IH. rewrite (rich_ok _ _ _ _ _ _ _ E2). assumption.
          * apply IH. rewrite (rich_ok _ _ _ _ _ _ _ E2). assumption.
          * eexists. split; [reflexivity|]. eapply rich_err; eauto.
        + eexists. split; [reflexivity|]. eapply rich_err; eauto. }
    destruct (G l 1 (x0, x0, 0, 0) w Hw) as (r & E & H). rewrite E. cbn [bind].
    destruct r as [[[[[a b] i] j] w']|w']; do 2 eexists; (split; [reflexivity|]); rewrite H; split; congruence.
  Qed.
End Scan.

(** ** Agreement with the typed cores for well-behaved objects *)
Section Typed.
  Context {T : Type} (cmp : T -> T -> option comparison) (L : cmp_laws cmp).
  Context (O : oracle) (val : obj -> T) (MO : models_order O val cmp).

  Lemma vmem_view mx px sx l : view mx px sx l -> view (vmem val mx) px sx (map val l).
  Proof.
    intros V k Hk. rewrite map_length in Hk. unfold vmem. rewrite (V k Hk).
    rewrite nth_error_map. reflexivity.
  Qed.

  Lemma rich_typed a b op w : 0 <= op <= 5 ->
    exists w', rich O a b op w = (Some (opb cmp op (val a) (val b)), w') /\ err w' = err w.
  Proof.
    intros Hop. destruct MO as [RF OR].
    assert (ASK : exists w', (match O ((a, b, op) :: hist w) with
        | Some r => (Some r, mkW ((a, b, op) :: hist w) (err w))
        | None => (None, mkW ((a, b, op) :: hist w) true) end) = (Some (opb cmp op (val a) (val b)), w') /\ err w' = err w).
    { destruct (OR a b op (hist w) Hop) as (r & E & Hr). rewrite E.
      assert (Q : r = opb cmp op (val a) (val b)).
      { destruct r, (opb cmp op (val a) (val b)) eqn:Q; try reflexivity.
        - exfalso. apply opb_holds_false in Q. apply Q. apply Hr. reflexivity.
        - apply opb_holds in Q. apply Hr in Q. discriminate. }
      rewrite Q. eexists. split; reflexivity. }
    unfold rich. destruct (Z.eqb_spec a b) as [->|_]; [|exact ASK].
    destruct (Z.eqb_spec op Py_EQ) as [->|NE].
    { exists w. split; [|reflexivity]. unfold opb, cmp_op, eqb. cbn. rewrite RF. reflexivity. }
    destruct (Z.eqb_spec op Py_NE) as [->|NN].
    { exists w. split; [|reflexivity]. unfold opb, cmp_op, neb, eqb. cbn. rewrite RF. reflexivity. }
    exact ASK.
  Qed.

  Lemma first_object_typed mx px sx l op tgt oth w :
    view mx px sx l -> 0 <= op <= 5 ->
    exists r w', first_core_calc_object O (Z.of_nat (length l)) mx px sx op tgt oth w = Some (Some r, w') /\
      err w' = err w /\
      first_core_calc cmp (Z.of_nat (length l)) (vmem val mx) px sx op (val tgt) (val oth) = Some (val r).
  Proof.
    intros V Hop. pose proof (vmem_view mx px sx l V) as V'.
    pose proof (first_list cmp (vmem val mx) px sx (map val l) op (val tgt) (val oth) V') as F.
    rewrite map_length in F. rewrite F. clear F.
    unfold first_core_calc_object.
    replace ((0 <=? op) && (op <=? 5)) with true by (symmetry; apply andb_true_intro; split; apply Z.leb_le; lia).
    rewrite (for_loop_view mx px sx l _
      (scan_body O (fun x => (x, tgt, op)) true (fun _ => None) (fun _ x => Some x)) _ V).
    2:{ intros k [r0 w0] x _ Hg. rewrite Hg. cbn. destruct (rich O x tgt op w0) as [[[]|] w1]; reflexivity. }
    assert (G : forall l k w, exists r w', lloop k l (scan_body O (fun x => (x, tgt, op)) true (fun _ => None) (fun _ x => Some x)) (Some oth, w)
        = Some (inl (Some r, w')) /\ err w' = err w /\
        match findi (fun v => opb cmp op v (val tgt)) (map val l) with Some (_, x) => x | None => val oth end = val r).
    { clear V V' l w. induction l as [|x l IH]; intros k w; cbn [lloop map findi].
      - exists oth, w. repeat split; reflexivity.
      - unfold scan_body at 1. cbn [fst snd].
        destruct (rich_typed x tgt op w Hop) as (w1 & E & Ew). rewrite E.
        destruct (opb cmp op (val x) (val tgt)); cbn [Bool.eqb].
        + exists x, w1. repeat split; auto.
        + destruct (IH (k + 1) w1) as (r & w' & E' & Ew' & H). exists r, w'. split; [exact E'|].
          split; [congruence|]. destruct (findi _ (map val l)) as [[? ?]|]; exact H. }
    destruct (G l 0 w) as (r & w' & E & Ew & H). exists r, w'. rewrite E. repeat split; auto. congruence.
  Qed.

  Lemma argfirst_object_typed mx px sx l op tgt w :
    view mx px sx l -> 0 <= op <= 5 ->
    exists r w', argfirst_core_calc_object O (Z.of_nat (length l)) mx px sx op tgt w = Some (r, w') /\
      err w' = err w /\
      argfirst_core_calc cmp (Z.of_nat (length l)) (vmem val mx) px sx op (val tgt) = Some r.
  Proof.
    intros V Hop. pose proof (vmem_view mx px sx l V) as V'.
    pose proof (argfirst_list cmp (vmem val mx) px sx (map val l) op (val tgt) V') as F.
    rewrite map_length in F. rewrite F. clear F.
    unfold argfirst_core_calc_object.
    replace ((0 <=? op) && (op <=? 5)) with true by (symmetry; apply andb_true_intro; split; apply Z.leb_le; lia).
    rewrite (for_loop_view mx px sx l _
      (scan_body O (fun x => (x, tgt, op)) true (fun _ => -2) (fun k _ => k)) _ V).
    2:{ intros k [r0 w0] x _ Hg. rewrite Hg. cbn. destruct (rich O x tgt op w0) as [[[]|] w1]; reflexivity. }
    assert (G : forall l k w, exists r w', lloop k l (scan_body O (fun x => (x, tgt, op)) true (fun _ => -2) (fun k _ => k)) (-1, w)
        = Some (inl (r, w')) /\ err w' = err w /\
        match findi (fun v => opb cmp op v (val tgt)) (map val l) with Some (i, _) => k + Z.of_nat i | None => -1 end = r).
    { clear V V' l w. induction l as [|x l IH]; intros k w; cbn [lloop map findi].
      - exists (-1), w. repeat split; reflexivity.
      - unfold scan_body at 1. cbn [fst snd].
        destruct (rich_typed x tgt op w Hop) as (w1 & E & Ew). rewrite E.
        destruct (opb cmp op (val x) (val tgt)); cbn [Bool.eqb].
        + exists k, w1. repeat split; auto. lia.
        + destruct (IH (k + 1) w1) as (r & w' & E' & Ew' & H). exists r, w'. split; [exact E'|].
          split; [congruence|]. destruct (findi _ (map val l)) as [[? ?]|]; [lia|exact H]. }
    destruct (G l 0 w) as (r & w' & E & Ew & H). exists r, w'. rewrite E. repeat split; auto.
    destruct (findi _ _) as [[? ?]|]; f_equal; lia.
  Qed.

  Lemma all_same_object_typed mx px sx l w :
    view mx px sx l ->
    exists r w', all_same_core_object O (Z.of_nat (length l)) mx px sx w = Some (r, w') /\
      err w' = err w /\
      all_same_core (neb cmp) (Z.of_nat (length l)) (vmem val mx) px sx = Some r.
  Proof.
    intros V. pose proof (vmem_view mx px sx l V) as V'.
    pose proof (all_same_list (neb cmp) (vmem val mx) px sx (map val l) V') as F.
    rewrite map_length in F. rewrite F. clear F.
    destruct l as [|x0 l]; [exists true, w; repeat split; reflexivity|].
    destruct l as [|x1 l]; [exists true, w; repeat split; reflexivity|].
    unfold all_same_core_object.
    replace (1 <? Z.of_nat (length (x0 :: x1 :: l))) with true by (symmetry; apply Z.ltb_lt; cbn [length]; lia).
    rewrite (view_load mx px sx x0 (x1 :: l) V). cbn [bind].
    rewrite (for_loop_tail mx px sx x0 (x1 :: l) _
      (scan_body O (fun x => (x, x0, 3)) true (fun r => r) (fun _ _ => false)) _ V).
    2:{ intros k [r0 w0] x Hg. rewrite Hg. cbn. unfold Py_NE. destruct (rich O x x0 3 w0) as [[[]|] w1]; reflexivity. }
    assert (G : forall l k w, exists w', lloop k l (scan_body O (fun x => (x, x0, 3)) true (fun r => r) (fun _ _ => false)) (true, w)
        = Some (inl (forallb (fun y => negb (neb cmp y (val x0))) (map val l), w')) /\ err w' = err w).
    { clear V V' l w. induction l as [|x l IH]; intros k w; cbn [lloop map forallb].
      - exists w. repeat split; reflexivity.
      - unfold scan_body at 1. cbn [fst snd].
        destruct (rich_typed x x0 3 w ltac:(lia)) as (w1 & E & Ew). rewrite E.
        change (opb cmp 3 (val x) (val x0)) with (neb cmp (val x) (val x0)).
        destruct (neb cmp (val x) (val x0)); cbn [Bool.eqb negb andb].
        + exists w1. repeat split; auto.
        + destruct (IH (k + 1) w1) as (w' & E' & Ew'). exists w'. split; [exact E'|congruence]. }
    destruct (G (x1 :: l) 1 w) as (w' & E & Ew). do 2 eexists. rewrite E. repeat split; eauto.
  Qed.

  (** what ordered computes on objects: every element is compared with the first *)
  Lemma ordered_object_typed mx px sx x0 l op w :
    view mx px sx (x0 :: l) -> 0 <= op <= 5 ->
    exists r w', ordered_core_object O (Z.of_nat (length (x0 :: l))) mx px sx op w = Some (r, w') /\
      err w' = err w /\ (r = true <-> forall x, In x l -> op_holds cmp op (val x0) (val x)).
  Proof.
    intros V Hop. destruct (ordered_object_correct O mx px sx x0 l op w V) as (r & w' & E & H).
    exists r, w'. split; [exact E|].
    assert (A : forall l w w', answers O (fun x => (x0, x, op)) true l w w' -> forall x, In x l -> op_holds cmp op (val x0) (val x)).
    { clear - MO Hop. induction 1 as [|y l w w1 w2 Hr Ha IH]; intros x Hx; [destruct Hx|].
      destruct Hx as [<-|Hx]; [|auto]. cbn [fst snd] in Hr.
      destruct (rich_typed x0 y op w Hop) as (w3 & E & _). rewrite E in Hr. injection Hr as Hq _.
      apply opb_holds. assumption. }
    destruct H as [(H1 & H2 & H3)|[(pre & x & (post & w1 & H1 & H2 & H3) & H4 & H5)|(pre & x & (post & w1 & H1 & H2 & H3) & H4 & H5)]].
    - split; [assumption|]. split; [intros _; eauto|auto].
    - split; [assumption|]. split; [congruence|]. intros Q. exfalso. cbn [fst snd] in H3.
      destruct (rich_typed x0 x op w1 Hop) as (w3 & E' & _). rewrite E' in H3. injection H3 as Hq _.
      apply opb_holds_false in Hq. apply Hq. apply Q. rewrite H1. apply in_or_app; right; simpl; auto.
    - exfalso. cbn [fst snd] in H3. destruct (rich_typed x0 x op w1 Hop) as (w3 & E' & _). congruence.
  Qed.

  Lemma ext_object_typed mx px sx x0 l w :
    view mx px sx (x0 :: l) ->
    (exists x i w', min_argmin_object_core O (Z.of_nat (length (x0 :: l))) mx px sx w = Some (Some (x, i), w') /\
       err w' = err w /\ min_argmin_core cmp (Z.of_nat (length (x0 :: l))) (vmem val mx) px sx = Some (val x, i)) /\
    (exists x i w', max_argmax_object_core O (Z.of_nat (length (x0 :: l))) mx px sx w = Some (Some (x, i), w') /\
       err w' = err w /\ max_argmax_core cmp (Z.of_nat (length (x0 :: l))) (vmem val mx) px sx = Some (val x, i)).
  Proof.
    intros V. pose proof (vmem_view mx px sx _ V) as V'. cbn [map] in V'.
    unfold min_argmin_object_core, max_argmax_object_core. rewrite !ext_list by assumption.
    assert (EL : length (x0 :: l) = length (val x0 :: map val l)) by (cbn; rewrite map_length; reflexivity).
    rewrite EL. rewrite (max_argmax_flip cmp L). rewrite !min_argmin_list by assumption.
    assert (G : forall op c, 0 <= op <= 5 -> (forall a b, opb cmp op a b = ltb c a b) ->
      forall l k a i w, exists x j w', lloop k l (ext_body O op) (a, i, w) = Some (inl (x, j, w')) /\ err w' = err w /\
        liter k (map val l) (fmin c) (val a, i) = Some (val x, j)).
    { clear - MO. intros op c Hop Hc. induction l as [|x l IH]; intros k a i w; cbn [lloop map liter].
      - exists a, i, w. repeat split; reflexivity.
      - unfold ext_body at 1. destruct (rich_typed x a op w Hop) as (w1 & E & Ew). rewrite E.
        unfold fmin at 1. rewrite Hc. destruct (ltb c (val x) (val a)); cbn [bind].
        + destruct (IH (k + 1) x k w1) as (y & j & w' & E1 & E2 & E3). exists y, j, w'. repeat split; auto. congruence.
        + destruct (IH (k + 1) a i w1) as (y & j & w' & E1 & E2 & E3). exists y, j, w'. repeat split; auto. congruence. }
    split.
    - destruct (G Py_LT cmp ltac:(unfold Py_LT; lia) ltac:(reflexivity) l 1 x0 0 w) as (x & j & w' & E1 & E2 & E3).
      exists x, j, w'. rewrite E1. repeat split; auto.
    - destruct (G Py_GT (flip cmp) ltac:(unfold Py_GT; lia)) with (l := l) (k := 1) (a := x0) (i := 0) (w := w) as (x & j & w' & E1 & E2 & E3).
      { intros a b. change (opb cmp Py_GT a b) with (gtb cmp a b). apply gtb_flip; assumption. }
      exists x, j, w'. rewrite E1. repeat split; auto.
  Qed.

  Lemma minmax_object_typed mx px sx x0 l w :
    view mx px sx (x0 :: l) ->
    exists a b i j w',
      minmax_object_core O (Z.of_nat (length (x0 :: l))) mx px sx w = Some (Some (a, b), w') /\
      argminmax_object_core O (Z.of_nat (length (x0 :: l))) mx px sx w = Some (Some (i, j), w') /\
      err w' = err w /\
      minmax_core cmp (Z.of_nat (length (x0 :: l))) (vmem val mx) px sx = Some (val a, val b) /\
      argminmax_core cmp (Z.of_nat (length (x0 :: l))) (vmem val mx) px sx = Some (i, j).
  Proof.
    intros V. pose proof (vmem_view mx px sx _ V) as V'. cbn [map] in V'.
    assert (EL : length (x0 :: l) = length (val x0 :: map val l)) by (cbn; rewrite map_length; reflexivity).
    destruct (minmax_agrees cmp L (vmem val mx) px sx (val x0) (map val l) V')
      as (xmin & imin & xmax & imax & _ & _ & E3 & E4 & _).
    rewrite <- EL in E3, E4. rewrite E3, E4.
    unfold minmax_object_core, argminmax_object_core. rewrite !mm_list by assumption.
    assert (G : forall l k a b i j w, exists a' b' i' j' w',
       lloop k l (mm_body O) (a, b, i, j, w) = Some (inl (a', b', i', j', w')) /\ err w' = err w /\
       liter k (map val l) (fargmm cmp) (val a, val b, i, j) = Some (val a', val b', i', j')).
    { clear - MO. induction l as [|x l IH]; intros k a b i j w; cbn [lloop map liter].
      - exists a, b, i, j, w. repeat split; reflexivity.
      - unfold mm_body at 1, fargmm at 1.
        destruct (rich_typed x a Py_LT w ltac:(unfold Py_LT; lia)) as (w1 & E & Ew). rewrite E.
        change (opb cmp Py_LT (val x) (val a)) with (ltb cmp (val x) (val a)).
        destruct (ltb cmp (val x) (val a)); cbn [bind].
        + destruct (IH (k + 1) x b k j w1) as (a' & b' & i' & j' & w' & E1 & E2 & E3). exists a', b', i', j', w'. split; [exact E1|]. split; [congruence|exact E3].
        + destruct (rich_typed x b Py_GT w1 ltac:(unfold Py_GT; lia)) as (w2 & E' & Ew'). rewrite E'.
          change (opb cmp Py_GT (val x) (val b)) with (gtb cmp (val x) (val b)).
          destruct (gtb cmp (val x) (val b)); cbn [bind].
          * destruct (IH (k + 1) a x i k w2) as (a' & b' & i' & j' & w' & E1 & E2 & E3). exists a', b', i', j', w'. split; [exact E1|]. split; [congruence|exact E3].
          * destruct (IH (k + 1) a b i j w2) as (a' & b' & i' & j' & w' & E1 & E2 & E3). exists a', b', i', j', w'. split; [exact E1|]. split; [congruence|exact E3]. }
    destruct (G l 1 x0 x0 0 0 w) as (a & b & i & j & w' & E1 & E2 & E3').
    rewrite E1. cbn.
    exists a, b, i, j, w'. do 3 (split; [auto|]).
    (* the typed scan with values is the typed argminmax scan *)
    assert (A : argminmax_core cmp (Z.of_nat (length (val x0 :: map val l))) (vmem val mx) px sx = Some (i, j)).
    { unfold argminmax_core. rewrite (view_load _ _ _ _ _ V'). cbn [bind].
      rewrite (for_each_tail (vmem val mx) px sx (val x0) (map val l) _ (fargmm cmp) _ V').
      2:{ intros k [[[? ?] ?] ?] x Hg. rewrite Hg. reflexivity. }
      rewrite E3'. reflexivity. }
    rewrite <- EL, E4 in A. injection A as -> ->. split; [|reflexivity].
    (* values: both scans keep the same extrema *)
    destruct (minmax_agrees cmp L (vmem val mx) px sx (val x0) (map val l) V')
      as (xmin' & imin' & xmax' & imax' & Q1 & Q2 & Q3 & Q4 & _).
    rewrite <- EL in Q3, Q4. rewrite E3 in Q3. rewrite E4 in Q4.
    injection Q3 as <- <-. injection Q4 as <- <-.
    rewrite (max_argmax_flip cmp L) in Q2. rewrite !min_argmin_list in * by assumption.
    assert (K : forall l k a b i j a' b' i' j', (is_nan cmp a /\ is_nan cmp b) \/ leb cmp a b = true ->
        liter k l (fargmm cmp) (a, b, i, j) = Some (a', b', i', j') ->
        liter k l (fmin cmp) (a, i) = Some (a', i') /\ liter k l (fmin (flip cmp)) (b, j) = Some (b', j')).
    { clear - L. induction l as [|x l IH]; intros k a b i j a' b' i' j' Hab; cbn [liter].
      - intros H; injection H as <- <- <- <-. split; reflexivity.
      - unfold fargmm at 1, fmin at 1 3. change (ltb (flip cmp) x b) with (ltb cmp b x).
        rewrite (gtb_ltb cmp L x b).
        destruct (ltb cmp x a) eqn:C1; cbn [bind].
        + assert (C2 : ltb cmp b x = false).
          { destruct Hab as [[Na Nb]|Hab].
            - apply (ltb_nan_l cmp L). apply isnan_none; assumption.
            - apply (le_not_lt cmp L). apply (ltb_leb cmp). eapply lt_le_trans; eauto. }
          rewrite C2. cbn [bind]. apply IH. right.
          destruct Hab as [[Na Nb]|Hab].
          * rewrite (ltb_nan_r cmp L) in C1 by (apply isnan_none; assumption). discriminate.
          * apply (ltb_leb cmp). eapply lt_le_trans; eauto.
        + destruct (ltb cmp b x) eqn:C2; cbn [bind]; apply IH; [right|assumption].
          destruct Hab as [[Na Nb]|Hab].
          * rewrite (ltb_nan_l cmp L) in C2 by (apply isnan_none; assumption). discriminate.
          * apply (ltb_leb cmp). eapply le_lt_trans; eauto. }
    destruct (K (map val l) 1 (val x0) (val x0) 0 0 _ _ _ _
      ltac:(right; apply eqb_leb; unfold eqb; rewrite (proj1 MO); reflexivity) E3') as [K1 K2].
    rewrite K1 in Q1. rewrite K2 in Q2. congruence.
  Qed.

  Lemma bisect_object_typed right fuel ma pa step v : forall lo hi w,
    match bisect (if right : bool then goright_r cmp else goright_l cmp) fuel (vmem val ma) pa step (val v) lo hi with
    | Some r => exists w', bisect_object O right fuel ma pa step v lo hi w = Some (r, w') /\ err w' = err w
    | None => bisect_object O right fuel ma pa step v lo hi w = None
    end.
  Proof.
    induction fuel as [|fuel IH]; intros lo hi w; cbn [bisect bisect_object].
    - destruct (lo <? hi); [reflexivity|]. exists w. split; reflexivity.
    - destruct (lo <? hi); [|exists w; split; reflexivity].
      set (mid := Z.quot (lo + hi) 2). unfold vmem at 1, load.
      destruct (ma (pa + mid * step)) as [m|]; cbn [option_map bind]; [|reflexivity].
      destruct right.
      + destruct (rich_typed v m Py_LT w ltac:(unfold Py_LT; lia)) as (w1 & E & Ew). rewrite E.
        change (opb cmp Py_LT (val v) (val m)) with (ltb cmp (val v) (val m)). unfold goright_r at 1.
        destruct (ltb cmp (val v) (val m)); cbn [negb].
        * specialize (IH lo mid w1). destruct (bisect _ _ _ _ _ _ lo mid); [|exact IH].
          destruct IH as (w' & E1 & E2). exists w'. split; [exact E1|congruence].
        * specialize (IH (mid + 1) hi w1). destruct (bisect _ _ _ _ _ _ (mid + 1) hi); [|exact IH].
          destruct IH as (w' & E1 & E2). exists w'. split; [exact E1|congruence].
      + destruct (rich_typed m v Py_LT w ltac:(unfold Py_LT; lia)) as (w1 & E & Ew). rewrite E.
        change (opb cmp Py_LT (val m) (val v)) with (ltb cmp (val m) (val v)). unfold goright_l at 1.
        destruct (ltb cmp (val m) (val v)).
        * specialize (IH (mid + 1) hi w1). destruct (bisect _ _ _ _ _ _ (mid + 1) hi); [|exact IH].
          destruct IH as (w' & E1 & E2). exists w'. split; [exact E1|congruence].
        * specialize (IH lo mid w1). destruct (bisect _ _ _ _ _ _ lo mid); [|exact IH].
          destruct IH as (w' & E1 & E2). exists w'. split; [exact E1|congruence].
  Qed.
End Typed.

(** searchsorted on objects: -1 exactly when a comparison raised *)
Lemma bisect_object_error O right fuel ma pa step l v : forall lo hi w,
  view ma pa step l -> 0 <= lo <= hi -> hi <= Z.of_nat (length l) -> hi - lo <= Z.of_nat fuel ->
  err w = false ->
  exists r w', bisect_object O right fuel ma pa step v lo hi w = Some (r, w') /\
    ((err w' = false /\ lo <= r <= hi) \/ (err w' = true /\ r = -1)).
Proof.
  induction fuel as [|fuel IH]; intros lo hi w V H1 H2 H3 Hw; cbn [bisect_object].
  - replace (lo <? hi) with false by (symmetry; apply Z.ltb_ge; lia).
    exists lo, w. split; [reflexivity|]. left. split; [assumption|lia].
  - destruct (Z.ltb_spec lo hi) as [Hlt|Hge].
    2:{ exists lo, w. split; [reflexivity|]. left. split; [assumption|lia]. }
    set (mid := Z.quot (lo + hi) 2).
    assert (Hm : lo <= mid < hi).
    { unfold mid. rewrite Z.quot_div_nonneg by lia.
      split; [apply Z.div_le_lower_bound; lia|apply Z.div_lt_upper_bound; lia]. }
    destruct (nth_error l (Z.to_nat mid)) as [x|] eqn:Ex.
    2:{ apply nth_error_None in Ex. lia. }
    assert (E : load ma (pa + mid * step) = Some x).
    { pose proof (view_get ma pa step l _ x V Ex) as G. rewrite Z2Nat.id in G by lia. exact G. }
    rewrite E. cbn [bind].
    assert (GO : forall lo' hi' w1, lo <= lo' <= hi' -> hi' <= hi -> hi' - lo' <= Z.of_nat fuel -> err w1 = false ->
       exists r w', bisect_object O right fuel ma pa step v lo' hi' w1 = Some (r, w') /\
       ((err w' = false /\ lo <= r <= hi) \/ (err w' = true /\ r = -1))).
    { intros lo' hi' w1 A1 A2 A3 A4. destruct (IH lo' hi' w1 V) as (r & w' & Er & Hr); try lia; auto.
      exists r, w'. split; [exact Er|]. destruct Hr as [[? ?]|[? ?]]; [left|right]; split; auto; lia. }
    destruct right.
    + destruct (rich O v x Py_LT w) as [[[]|] w1] eqn:R.
      * apply GO; try lia. rewrite (rich_ok _ _ _ _ _ _ _ R). assumption.
      * apply GO; try lia. rewrite (rich_ok _ _ _ _ _ _ _ R). assumption.
      * exists (-1), w1. split; [reflexivity|]. right. split; [eapply rich_err; eauto|reflexivity].
    + destruct (rich O x v Py_LT w) as [[[]|] w1] eqn:R.
      * apply GO; try lia. rewrite (rich_ok _ _ _ _ _ _ _ R). assumption.
      * apply GO; try lia. rewrite (rich_ok _ _ _ _ _ _ _ R). assumption.
      * exists (-1), w1. split; [reflexivity|]. right. split; [eapply rich_err; eauto|reflexivity].
Qed.

Lemma searchsorted_object_error :
  forall (O : oracle) ma pa step (l : list obj) v w,
    view ma pa step l -> err w = false ->
    forall right : bool,
    exists r w',
      (if right then searchsortedr_object else searchsortedl_object) O ma pa (Z.of_nat (length l)) step v w = Some (r, w') /\
      ((err w' = false /\ 0 <= r <= Z.of_nat (length l)) \/ (err w' = true /\ r = -1)).
Proof.
  intros O ma pa step l v w V Hw right.
  destruct right; apply (bisect_object_error O _ _ ma pa step l v 0 _ w V); auto; lia.
Qed.

Lemma searchsorted_object_typed {T} (cmp : T -> T -> option comparison) (O : oracle) val :
  models_order O val cmp ->
  forall ma pa step (l : list obj) v w, view ma pa step l ->
  (exists r w', searchsortedl_object O ma pa (Z.of_nat (length l)) step v w = Some (r, w') /\ err w' = err w /\
     searchsortedl cmp (vmem val ma) pa (Z.of_nat (length l)) step (val v) = Some r) /\
  (exists r w', searchsortedr_object O ma pa (Z.of_nat (length l)) step v w = Some (r, w') /\ err w' = err w /\
     searchsortedr cmp (vmem val ma) pa (Z.of_nat (length l)) step (val v) = Some r).
Proof.
  intros MO ma pa step l v w V.
  pose proof (vmem_view val ma pa step l V) as V'.
  assert (SF : forall go : T -> T -> bool, exists r, bisect go (length l) (vmem val ma) pa step (val v) 0 (Z.of_nat (length l)) = Some r).
  { intros go. destruct (searchsorted_safe go (vmem val ma) pa step (map val l) (val v) V') as (r & E & _).
    rewrite map_length in E. rewrite ?Nat2Z.id in E. eauto. }
  unfold searchsortedl_object, searchsortedr_object, searchsortedl, searchsortedr. rewrite Nat2Z.id. split.
  - destruct (SF (goright_l cmp)) as (r & E).
    pose proof (bisect_object_typed cmp O val MO false (length l) ma pa step v 0 (Z.of_nat (length l)) w) as B.
    cbn beta iota in B. rewrite E in B. destruct B as (w' & B1 & B2). exists r, w'. auto.
  - destruct (SF (goright_r cmp)) as (r & E).
    pose proof (bisect_object_typed cmp O val MO true (length l) ma pa step v 0 (Z.of_nat (length l)) w) as B.
    cbn beta iota in B. rewrite E in B. destruct B as (w' & B1 & B2). exists r, w'. auto.
Qed.

(** peaktopeak on objects *)
Lemma peaktopeak_object_error O sub mx px sx x0 l w :
  view mx px sx (x0 :: l) -> err w = false ->
  exists r w', peaktopeak_object O sub (Z.of_nat (length (x0 :: l))) mx px sx w = Some (r, w') /\
    (r = None <-> err w' = true).
Proof.
  intros V Hw. destruct (mm_error O mx px sx x0 l w V Hw) as (r & w' & E & H).
  unfold peaktopeak_object. rewrite E. cbn [bind].
  destruct r as [[[[a b] i] j]|].
  - assert (He : err w' = false).
    { destruct (err w'); [|reflexivity]. destruct H as [_ H]. specialize (H eq_refl). discriminate. }
    destruct (sub b a (hist w')) as [d|]; do 2 eexists; (split; [reflexivity|]); cbn; rewrite ?He; split; congruence.
  - do 2 eexists. split; [reflexivity|]. split; [intros _; apply H; reflexivity|reflexivity].
Qed.

Lemma minmax_object_error O mx px sx x0 l w :
  view mx px sx (x0 :: l) -> err w = false ->
  (exists r w', minmax_object_core O (Z.of_nat (length (x0 :: l))) mx px sx w = Some (r, w') /\ (r = None <-> err w' = true)) /\
  (exists r w', argminmax_object_core O (Z.of_nat (length (x0 :: l))) mx px sx w = Some (r, w') /\ (r = None <-> err w' = true)) /\
  (exists r w', min_argmin_object_core O (Z.of_nat (length (x0 :: l))) mx px sx w = Some (r, w') /\ (r = None <-> err w' = true)) /\
  (exists r w', max_argmax_object_core O (Z.of_nat (length (x0 :: l))) mx px sx w = Some (r, w') /\ (r = None <-> err w' = true)) /\
  (exists r w', argmin_object_core O (Z.of_nat (length (x0 :: l))) mx px sx w = Some (r, w') /\ (r = None <-> err w' = true)) /\
  (exists r w', argmax_object_core O (Z.of_nat (length (x0 :: l))) mx px sx w = Some (r, w') /\ (r = None <-> err w' = true)).
Proof.
  intros V Hw.
  destruct (mm_error O mx px sx x0 l w V Hw) as (r & w' & E & H).
  destruct (ext_error O Py_LT mx px sx x0 l w V Hw) as (r1 & w1 & E1 & H1).
  destruct (ext_error O Py_GT mx px sx x0 l w V Hw) as (r2 & w2 & E2 & H2).
  unfold minmax_object_core, argminmax_object_core, min_argmin_object_core, max_argmax_object_core, argmin_object_core, argmax_object_core.
  rewrite E, E1, E2. cbn [bind fst snd].
  assert (OM : forall A B (f : A -> B) o, option_map f o = None <-> o = None) by (intros A B f [y|]; cbn; split; congruence).
  repeat split; do 2 eexists; (split; [reflexivity|]); rewrite ?OM; auto.
Qed.

Lemma minmax_object_typed_all {T} (cmp : T -> T -> option comparison) (O : oracle) val :
  cmp_laws cmp -> models_order O val cmp ->
  forall mx px sx x0 l w, view mx px sx (x0 :: l) ->
  let n := Z.of_nat (length (x0 :: l)) in
  exists a b i j w1 w2 w3,
    minmax_object_core O n mx px sx w = Some (Some (a, b), w1) /\
    argminmax_object_core O n mx px sx w = Some (Some (i, j), w1) /\
    (exists a', min_argmin_object_core O n mx px sx w = Some (Some (a', i), w2) /\ val a' = val a) /\
    (exists b', max_argmax_object_core O n mx px sx w = Some (Some (b', j), w3) /\ val b' = val b) /\
    argmin_object_core O n mx px sx w = Some (Some i, w2) /\
    argmax_object_core O n mx px sx w = Some (Some j, w3) /\
    err w1 = err w /\ err w2 = err w /\ err w3 = err w /\
    minmax_core cmp n (vmem val mx) px sx = Some (val a, val b) /\
    argminmax_core cmp n (vmem val mx) px sx = Some (i, j).
Proof.
  intros L MO mx px sx x0 l w V n.
  destruct (minmax_object_typed cmp L O val MO mx px sx x0 l w V) as (a & b & i & j & w1 & A1 & A2 & A3 & A4 & A5).
  destruct (ext_object_typed cmp L O val MO mx px sx x0 l w V) as [(x & i' & w2 & B1 & B2 & B3) (y & j' & w3 & C1 & C2 & C3)].
  pose proof (vmem_view val mx px sx _ V) as V'. cbn [map] in V'.
  destruct (minmax_agrees cmp L (vmem val mx) px sx (val x0) (map val l) V')
      as (xmin & imin & xmax & imax & Q1 & Q2 & Q3 & Q4 & _).
  assert (EL : length (x0 :: l) = length (val x0 :: map val l)) by (cbn; rewrite map_length; reflexivity).
  rewrite <- EL in Q1, Q2, Q3, Q4. rewrite A4 in Q3. rewrite A5 in Q4. rewrite B3 in Q1. rewrite C3 in Q2.
  injection Q1 as Q1 ->. injection Q2 as Q2 ->. injection Q3 as <- <-. injection Q4 as <- <-.
  exists a, b, i, j, w1, w2, w3. fold n in A1, A2, A4, A5, B1, C1.
  split; [exact A1|]. split; [exact A2|]. split; [exists x; auto|]. split; [exists y; auto|].
  split; [unfold argmin_object_core; unfold min_argmin_object_core in B1; rewrite B1; reflexivity|].
  split; [unfold argmax_object_core; unfold max_argmax_object_core in C1; rewrite C1; reflexivity|].
  auto 8.
Qed.

(** integers as objects: comparisons are those of Z *)
Lemma zoracle_models : models_order zoracle (fun a => a) Zcmp.
Proof.
  split.
  - intros a. unfold Zcmp. rewrite Z.compare_refl. reflexivity.
  - intros a b op h Hop. eexists. split; [reflexivity|].
    rewrite <- opb_holds. unfold opb, cmp_op, ltb, leb, gtb, geb, neb, eqb, Zcmp, Py_LT, Py_LE, Py_EQ, Py_NE, Py_GT, Py_GE.
    assert (C : op = 0 \/ op = 1 \/ op = 2 \/ op = 3 \/ op = 4 \/ op = 5) by lia.
    destruct C as [->|[->|[->|[->|[->| ->]]]]]; cbn;
      destruct (Z.compare_spec a b) as [H|H|H]; cbn; lia.
Qed.

Lemma ordered_object_refuted :
  exists (O : oracle) (mx : mem obj) (w : world),
    models_order O (fun a => a) Zcmp /\ view mx 0 8 [1; 3; 2] /\ err w = false /\
    exists w', ordered_core_object O 3 mx 0 8 0 w = Some (true, w') /\ err w' = false /\
    ~ (forall k a b, nth_error [1; 3; 2] k = Some a -> nth_error [1; 3; 2] (S k) = Some b -> op_holds Zcmp 0 a b).
Proof.
  exists zoracle, (mem_of 0 8 [1; 3; 2]), (mkW [] false).
  split; [exact zoracle_models|]. split; [apply view_mem_of; lia|]. split; [reflexivity|].
  eexists. split; [vm_compute; reflexivity|]. split; [reflexivity|].
  intros H. specialize (H 1%nat 3 2 eq_refl eq_refl). apply (opb_holds Zcmp 0 3 2) in H. vm_compute in H. discriminate.
Qed.

(** * P_Types: proofs about the choice of inner loops *)
From Coq Require Import ZArith Reals Bool String List Lia Lra.
From Flocq Require Import Core.
From Verif Require Import M_Gen M_Types S_Types.
Import ListNotations.
Local Open Scope Z_scope.

(** ** safe casts preserve values *)
Lemma int_value_le a b c d x : c <= a -> b <= d -> int_value a b x -> int_value c d x.
Proof. intros ? ? [z [-> ?]]. exists z. split; auto. lia. Qed.

Lemma int_value_float prec emax a b x :
  0 < prec -> prec < emax -> - 2 ^ prec <= a -> b <= 2 ^ prec -> int_value a b x -> float_value prec emax x.
Proof.
  intros Hp He Ha Hb [z [-> Hz]].
  assert (Z2 : Z.abs z <= 2 ^ prec) by lia.
  assert (P2 : (IZR (2 ^ prec) = bpow radix2 prec)%R).
  { rewrite <- IZR_Zpower by lia. reflexivity. }
  split.
  - destruct (Z.eq_dec (Z.abs z) (2 ^ prec)) as [E | E].
    + assert (G : generic_format radix2 (FLT_exp (3 - emax - prec) prec) (bpow radix2 prec)).
      { apply generic_format_bpow. unfold FLT_exp. lia. }
      destruct (Z.abs_eq_or_opp z) as [A | A].
      * rewrite <- A, E, P2. exact G.
      * replace (IZR z) with (- bpow radix2 prec)%R; [now apply generic_format_opp |].
        rewrite <- P2, <- E, A, opp_IZR. lra.
    + apply generic_format_FLT. apply FLT_spec with (f := Float radix2 z 0); cbn [Fnum Fexp].
      * unfold F2R. simpl. lra.
      * assert (L : Z.abs z < 2 ^ prec) by lia. exact L.
      * lia.
  - rewrite <- abs_IZR. apply Rle_lt_trans with (IZR (2 ^ prec)).
    + now apply IZR_le.
    + rewrite P2. now apply bpow_lt.
Qed.

Lemma float_value_le p e p' e' x :
  0 < p -> 0 < p' -> p <= p' -> e <= e' -> 3 - e' - p' <= 3 - e - p -> float_value p e x -> float_value p' e' x.
Proof.
  intros H0 H1 Hp He Hm [G B]. split.
  - apply FLT_format_generic in G; [| exact H0]. destruct G as [f E M X].
    apply generic_format_FLT. apply FLT_spec with (f := f); auto.
    + apply Z.lt_le_trans with (1 := M). apply Z.pow_le_mono_r; simpl; lia.
    + lia.
  - apply Rlt_le_trans with (1 := B). now apply bpow_le.
Qed.

Lemma float_value_0 p e : 0 < p -> 0 < e -> float_value p e 0.
Proof.
  intros Hp He. split.
  - apply generic_format_0.
  - rewrite Rabs_R0. apply bpow_gt_0.
Qed.

Lemma bool_int x : x = 0%R \/ x = 1%R -> int_value 0 1 x.
Proof. intros [-> | ->]; [exists 0 | exists 1]; split; auto; lia. Qed.

Lemma int_small lo hi x : int_value lo hi x -> (Rabs x <= IZR (2 ^ 53))%R -> int_value (- 2 ^ 53) (2 ^ 53) x.
Proof.
  intros [z [-> Hz]] B. exists z. split; auto. rewrite <- abs_IZR in B. apply le_IZR in B. lia.
Qed.

Ltac vcase :=
  match goal with
  | H : value _ _ _ |- _ => unfold value in H |- *; try destruct H as [H ?H]; subst
  end;
  repeat match goal with |- _ /\ _ => split end;
  try exact I; auto;
  try (apply float_value_0; lia);
  try (eapply int_value_le; [| | eassumption]; lia);
  try (eapply int_value_le; [| | now apply bool_int]; lia);
  try (eapply int_value_float; [| | | | eassumption]; lia);
  try (eapply int_value_float; [| | | | now apply bool_int]; lia);
  try (eapply float_value_le; [| | | | | eassumption]; lia).

Lemma cast_value a b x y :
  can_cast a b = true -> value a x y -> (~ int64 a \/ (Rabs x <= IZR (2 ^ 53))%R) -> value b x y.
Proof.
  intros C V S.
  destruct a; destruct b; try (vm_compute in C; discriminate C); clear C;
    try (destruct S as [S | S]; [exfalso; exact (S I) |]);
    try solve [vcase];
    (unfold value in V |- *; destruct V as [V ->]; split;
     [(eapply int_value_float; [| | | | eapply int_small; eassumption]; lia)
     | first [reflexivity | apply float_value_0; lia]]).
Qed.

(** ** the search *)
Lemma forall2b_nth {A B} (e : A -> B -> bool) a b k x y :
  forall2b e a b = true -> nth_error a k = Some x -> nth_error b k = Some y -> e x y = true.
Proof.
  revert b k. induction a as [| h a IH]; intros [| g b] [| k]; simpl; try discriminate.
  - intros E X Y. injection X as <-. injection Y as <-. now apply andb_prop in E.
  - intros E. apply andb_prop in E as [_ E]. now apply IH.
Qed.
Lemma forall2b_length {A B} (e : A -> B -> bool) a b : forall2b e a b = true -> length a = length b.
Proof.
  revert b. induction a as [| h a IH]; intros [| g b]; simpl; try discriminate; auto.
  intros E. apply andb_prop in E as [_ E]. f_equal. now apply IH.
Qed.
Lemma dt_eqb_eq a b : dt_eqb a b = true <-> a = b.
Proof. split; [destruct a, b; simpl; congruence || auto | intros ->; destruct b; reflexivity]. Qed.
Lemma list_eqb_eq a b : list_eqb dt_eqb a b = true <-> a = b.
Proof.
  revert b. induction a as [| h a IH]; intros [| g b]; simpl; split; try discriminate; auto.
  - intros E. apply andb_prop in E as [E1 E2]. apply dt_eqb_eq in E1. apply IH in E2. congruence.
  - intros E. injection E as -> ->. apply andb_true_intro. split; [now apply dt_eqb_eq | now apply IH].
Qed.
Lemma can_cast_refl a : can_cast a a = true.
Proof. destruct a; reflexivity. Qed.

Lemma resolve_cast t args r : resolve t args = Some r -> In r t /\ forall2b can_cast args (fst r) = true.
Proof.
  unfold resolve, exact, linear.
  destruct (find (fun r0 => list_eqb dt_eqb (fst r0) args) t) as [r' |] eqn:E.
  - intros H. injection H as <-. apply find_some in E as [I E]. split; [exact I |].
    apply list_eqb_eq in E. rewrite E. clear. induction args as [| a l IH]; simpl; auto.
    now rewrite can_cast_refl, IH.
  - intros H. apply find_some in H as [I H]. split; [exact I |]. now apply andb_prop in H.
Qed.

Lemma resolve_values t args r :
  resolve t args = Some r ->
  In r t /\ length (fst r) = length args
  /\ forall k a b x y, nth_error args k = Some a -> nth_error (fst r) k = Some b ->
       value a x y -> (~ int64 a \/ (Rabs x <= IZR (2 ^ 53))%R) -> value b x y.
Proof.
  intros H. apply resolve_cast in H as [I C]. split; [exact I |]. split.
  - symmetry. exact (forall2b_length _ _ _ C).
  - intros k a b x y A B V S. exact (cast_value a b x y (forall2b_nth _ _ _ _ _ _ C A B) V S).
Qed.

(** ** finite checks over the registered tables *)
Definition row_eqb (a b : row) : bool := list_eqb dt_eqb (fst a) (fst b) && list_eqb dt_eqb (snd a) (snd b).
Lemma row_eqb_eq a b : row_eqb a b = true -> a = b.
Proof.
  unfold row_eqb. intros E. apply andb_prop in E as [E1 E2]. apply list_eqb_eq in E1, E2.
  destruct a, b; simpl in *; congruence.
Qed.

Definition own_check : bool :=
  forallb (fun p => match snd p with
                    | Some t => forallb (fun r => match resolve t (fst r) with
                                                  | Some r' => row_eqb r' r
                                                  | None => false
                                                  end) t
                    | None => false
                    end) all_tables.
Lemma own_check_ok : own_check = true.
Proof. vm_compute. reflexivity. Qed.

Lemma own_loop n o : In (n, o) all_tables -> exists t, o = Some t /\ forall r, In r t -> resolve t (fst r) = Some r.
Proof.
  intros I. pose proof own_check_ok as C. unfold own_check in C. rewrite forallb_forall in C.
  specialize (C _ I). cbn beta iota delta [snd] in C. destruct o as [t |]; [| discriminate C].
  exists t. split; [reflexivity |]. intros r R. rewrite forallb_forall in C. specialize (C _ R).
  destruct (resolve t (fst r)) as [r' |]; [| discriminate C]. apply row_eqb_eq in C. congruence.
Qed.

Definition norm64 (t : dt) : dt := match t with Tlonglong => Ti64 | Tulonglong => Tu64 | _ => t end.
Definition norm_row (r : row) : row := (map norm64 (fst r), map norm64 (snd r)).
Lemma same_norm a b : norm64 a = norm64 b -> same_values a b.
Proof. intros E x y. destruct a, b; try discriminate E; reflexivity. Qed.
Lemma same_list a b : map norm64 a = map norm64 b -> Forall2 same_values a b.
Proof.
  revert b. induction a as [| h a IH]; intros [| g b]; simpl; try discriminate; constructor.
  - apply same_norm. congruence.
  - apply IH. congruence.
Qed.
Definition linear_check : bool :=
  forallb (fun p => match snd p with
                    | Some t => forallb (fun r => match linear t (fst r) with
                                                  | Some r' => row_eqb (norm_row r') (norm_row r)
                                                  | None => false
                                                  end) t
                    | None => false
                    end) all_tables.
Lemma linear_check_ok : linear_check = true.
Proof. vm_compute. reflexivity. Qed.
Lemma linear_own n t r :
  In (n, Some t) all_tables -> In r t ->
  exists r', linear t (fst r) = Some r' /\ Forall2 same_values (fst r') (fst r) /\ Forall2 same_values (snd r') (snd r).
Proof.
  intros I R. pose proof linear_check_ok as C. unfold linear_check in C. rewrite forallb_forall in C.
  specialize (C _ I). cbn beta iota delta [snd] in C. rewrite forallb_forall in C. specialize (C _ R).
  destruct (linear t (fst r)) as [r' |]; [| discriminate C]. exists r'. split; [reflexivity |].
  apply row_eqb_eq in C. unfold norm_row in C. injection C as C1 C2. split; now apply same_list.
Qed.

(** ** uniform floating tables *)
Lemma has_object_In l : has_object l = true <-> In Tobject l.
Proof.
  unfold has_object. rewrite existsb_exists. split.
  - intros [x [I E]]. apply dt_eqb_eq in E. now subst.
  - intros I. exists Tobject. split; auto.
Qed.
Lemma In_repeat {A} (c x : A) n : In x (repeat c n) -> x = c.
Proof. induction n; simpl; [contradiction | intros [-> | I]; auto]. Qed.

Lemma forall2b_repeat args c : forall2b can_cast args (repeat c (length args)) = forallb (fun a => can_cast a c) args.
Proof. induction args; simpl; auto. now rewrite IHargs. Qed.

Lemma cast_complex a c : real_dt c -> complex_dt a -> can_cast a c = false.
Proof. destruct a, c; simpl; try contradiction; reflexivity. Qed.

Lemma real_max a : real_dt a -> can_cast a Tlongdouble = true.
Proof. destruct a; simpl; try contradiction; reflexivity. Qed.
Lemma cast_mono a b c : In b reals -> In c reals -> size_rank b <= size_rank c -> can_cast a b = true -> can_cast a c = true.
Proof.
  intros B C R H. simpl in B, C.
  destruct B as [<- | [<- | [<- | []]]]; destruct C as [<- | [<- | [<- | []]]]; simpl in R; try lia; auto;
    destruct a; try discriminate H; reflexivity.
Qed.

Lemma forallb_Forall {A} (p : A -> bool) l : forallb p l = true <-> Forall (fun a => p a = true) l.
Proof. rewrite forallb_forall, Forall_forall. reflexivity. Qed.

Lemma usable_real t nin out c args :
  (forall c, In c reals -> ~ In Tobject (out c)) -> In c reals -> Forall real_dt args -> length args = nin ->
  usable t args (repeat c nin, out c) = forallb (fun a => can_cast a c) args.
Proof.
  intros O C R <-. unfold usable. cbn [fst snd].
  replace (has_object (repeat c (length args) ++ out c)) with false; [cbn [negb orb andb]; apply forall2b_repeat |].
  symmetry. destruct (has_object _) eqn:E; [| reflexivity]. exfalso.
  apply has_object_In, in_app_or in E as [E | E]; [| exact (O c C E)].
  apply In_repeat in E. simpl in C. destruct C as [<- | [<- | [<- | []]]]; discriminate E.
Qed.

Lemma exact_rest args rest :
  Forall real_dt args -> Forall (fun r : row => exists c, In c (fst r) /\ complex_dt c) rest ->
  find (fun r => list_eqb dt_eqb (fst r) args) rest = None.
Proof.
  intros R F. destruct (find (fun r => list_eqb dt_eqb (fst r) args) rest) as [r |] eqn:E; [| reflexivity]. exfalso.
  apply find_some in E as [I E]. apply list_eqb_eq in E. rewrite Forall_forall in F.
  destruct (F _ I) as [c [IC C]]. rewrite E in IC. rewrite Forall_forall in R. specialize (R _ IC).
  destruct c; simpl in *; contradiction.
Qed.

Lemma repeat_reals_cast c c' n : In c reals -> In c' reals -> (0 < n)%nat ->
  forallb (fun a => can_cast a c') (repeat c n) = true -> size_rank c <= size_rank c'.
Proof.
  intros C C' N E. destruct n as [| n]; [lia |]. cbn [repeat forallb] in E. apply andb_prop in E as [E _].
  simpl in C, C'. destruct C as [<- | [<- | [<- | []]]]; destruct C' as [<- | [<- | [<- | []]]];
    simpl; try lia; discriminate E.
Qed.

Lemma real_least nin out rest t args :
  real_table nin out rest t -> length args = nin -> Forall real_dt args ->
  exists c, In c reals /\ resolve t args = Some (repeat c nin, out c)
    /\ Forall (fun a => can_cast a c = true) args
    /\ forall c', In c' reals -> Forall (fun a => can_cast a c' = true) args -> size_rank c <= size_rank c'.
Proof.
  intros [-> [N [O F]]] L R.
  assert (G : forall c, In c reals -> list_eqb dt_eqb (repeat c nin) args = true ->
              exists c0, In c0 reals /\ Some (repeat c nin, out c) = Some (repeat c0 nin, out c0)
                /\ Forall (fun a => can_cast a c0 = true) args
                /\ forall c', In c' reals -> Forall (fun a => can_cast a c' = true) args -> size_rank c0 <= size_rank c').
  { intros c C E. apply list_eqb_eq in E. exists c. split; [exact C |]. split; [reflexivity |]. subst args. split.
    - apply Forall_forall. intros x X. apply In_repeat in X. subst x. apply can_cast_refl.
    - intros c' C' H. apply forallb_Forall in H. exact (repeat_reals_cast c c' nin C C' N H). }
  assert (I1 : In Tfloat reals) by (simpl; auto). assert (I2 : In Tdouble reals) by (simpl; auto).
  assert (I3 : In Tlongdouble reals) by (simpl; auto).
  unfold resolve, exact, linear. cbn [reals map app find fst].
  destruct (list_eqb dt_eqb (repeat Tfloat nin) args) eqn:E1; [now apply G |].
  destruct (list_eqb dt_eqb (repeat Tdouble nin) args) eqn:E2; [now apply G |].
  destruct (list_eqb dt_eqb (repeat Tlongdouble nin) args) eqn:E3; [now apply G |].
  rewrite exact_rest by assumption.
  rewrite !(usable_real _ nin out) by assumption.
  destruct (forallb (fun a => can_cast a Tfloat) args) eqn:F1.
  { exists Tfloat. repeat split; auto. 
    - now apply forallb_Forall.
    - intros c' C' _. simpl in C'. destruct C' as [<- | [<- | [<- | []]]]; simpl; lia. }
  destruct (forallb (fun a => can_cast a Tdouble) args) eqn:F2.
  { exists Tdouble. repeat split; auto.
    - now apply forallb_Forall.
    - intros c' C' H. apply forallb_Forall in H. simpl in C'.
      destruct C' as [<- | [<- | [<- | []]]]; simpl; try lia. congruence. }
  assert (F3 : forallb (fun a => can_cast a Tlongdouble) args = true).
  { apply forallb_Forall. eapply Forall_impl; [| exact R]. intros a. apply real_max. }
  rewrite F3. exists Tlongdouble. repeat split; auto.
  - now apply forallb_Forall.
  - intros c' C' H. apply forallb_Forall in H. simpl in C'.
    destruct C' as [<- | [<- | [<- | []]]]; simpl; try lia; congruence.
Qed.

(** the named functions have such tables *)
Definition real_table_check (t : list row) : bool :=
  match t with
  | (i1, o1) :: (i2, o2) :: (i3, o3) :: rest =>
      list_eqb dt_eqb i1 (repeat Tfloat (length i1)) && list_eqb dt_eqb i2 (repeat Tdouble (length i1))
      && list_eqb dt_eqb i3 (repeat Tlongdouble (length i1)) && negb (Nat.eqb (length i1) 0)
      && negb (has_object o1) && negb (has_object o2) && negb (has_object o3)
      && forallb (fun r : row => existsb (fun c => match complex_rank c with Some _ => true | None => false end) (fst r)) rest
  | _ => false
  end.
Lemma real_table_ok t :
  real_table_check t = true ->
  exists nin out rest, real_table nin out rest t /\ forall r, hd_error t = Some r -> length (fst r) = nin.
Proof.
  destruct t as [| [i1 o1] [| [i2 o2] [| [i3 o3] rest]]]; try discriminate. cbn [real_table_check]. intros E.
  repeat match type of E with (_ && _ = true) => let F := fresh "F" in apply andb_prop in E as [E F] end.
  apply list_eqb_eq in E, F5, F4.
  exists (length i1), (fun c => match c with Tfloat => o1 | Tdouble => o2 | _ => o3 end), rest. split.
  - unfold real_table. split; [| split; [| split]].
    + cbn [reals map app]. rewrite <- E, <- F5, <- F4. reflexivity.
    + destruct (length i1); [discriminate F3 | lia].
    + assert (H : forall o, negb (has_object o) = true -> ~ In Tobject o).
      { intros o N I. apply has_object_In in I. rewrite I in N. discriminate N. }
      intros c C. simpl in C. destruct C as [<- | [<- | [<- | []]]]; now apply H.
    + apply Forall_forall. intros r R. rewrite forallb_forall in F. specialize (F _ R).
      apply existsb_exists in F as [c [I C]]. exists c. split; [exact I |]. destruct c; try discriminate C; exact Logic.I.
  - intros r R. injection R as <-. reflexivity.
Qed.

Lemma eqs_eq a b : eqs a b = true <-> a = b.
Proof.
  revert b. induction a as [| h a IH]; intros [| g b]; simpl; split; try discriminate; auto.
  - intros E. apply andb_prop in E as [E1 E2]. apply Ascii.eqb_eq in E1. apply IH in E2. congruence.
  - intros E. injection E as -> ->. apply andb_true_intro. split; [apply Ascii.eqb_refl | now apply IH].
Qed.
Definition named_check : bool :=
  forallb (fun p => negb (existsb (eqs (fst p)) real_functions)
                    || match snd p with Some t => real_table_check t | None => false end) all_tables.
Lemma named_check_ok : named_check = true.
Proof. vm_compute. reflexivity. Qed.

Lemma named_least n t args :
  In n real_functions -> In (n, Some t) all_tables -> Forall real_dt args ->
  (forall r, hd_error t = Some r -> length args = length (fst r)) ->
  exists c outs, In c reals /\ resolve t args = Some (repeat c (length args), outs)
    /\ Forall (fun a => can_cast a c = true) args
    /\ forall c', In c' reals -> Forall (fun a => can_cast a c' = true) args -> size_rank c <= size_rank c'.
Proof.
  intros N I R L. pose proof named_check_ok as C. unfold named_check in C. rewrite forallb_forall in C.
  specialize (C _ I). cbn beta iota delta [fst snd] in C. apply orb_prop in C as [C | C].
  - exfalso. assert (E : existsb (eqs n) real_functions = true).
    { apply existsb_exists. exists n. split; [exact N | now apply eqs_eq]. }
    rewrite E in C. discriminate C.
  - destruct (real_table_ok t C) as [nin [out [rest [T H]]]].
    assert (LN : length args = nin).
    { destruct t as [| r t]; [discriminate C |]. rewrite (L r eq_refl). now apply H. }
    destruct (real_least nin out rest t args T LN R) as [c [A [B D]]].
    exists c, (out c). rewrite LN. auto.
Qed.

Definition named_present : bool :=
  forallb (fun n => existsb (fun p => eqs n (fst p)) all_tables) real_functions.
Lemma named_exists n : In n real_functions -> exists t, In (n, Some t) all_tables.
Proof.
  intros N. assert (C : named_present = true) by (vm_compute; reflexivity).
  unfold named_present in C. rewrite forallb_forall in C. specialize (C _ N).
  apply existsb_exists in C as [[m o] [I E]]. apply eqs_eq in E. cbn [fst] in E. subst m.
  destruct (own_loop _ _ I) as [t [-> _]]. now exists t.
Qed.

(** ** hand-written modules *)
Definition consistent_check (m : cmod) : bool :=
  Nat.eqb (length (cm_loops m)) (cm_ntypes m)
  && Nat.eqb (length (cm_codes m)) (cm_ntypes m * (cm_nin m + cm_nout m))
  && Nat.leb (cm_ntypes m) (cm_data m)
  && forallb (fun k => match code_row m k, loop_row m k with
                       | Some r, Some r' => row_eqb r r' && Nat.eqb (length (fst r)) (cm_nin m)
                                            && Nat.eqb (length (snd r)) (cm_nout m)
                       | _, _ => false
                       end) (seq 0 (cm_ntypes m)).
Lemma mods_ok : forallb consistent_check c_mods = true.
Proof. vm_compute. reflexivity. Qed.
Lemma mods_consistent m : In m c_mods -> consistent m.
Proof.
  intros I. pose proof mods_ok as C. rewrite forallb_forall in C. specialize (C _ I). unfold consistent_check in C.
  apply andb_prop in C as [C C4]. apply andb_prop in C as [C C3]. apply andb_prop in C as [C1 C2].
  split; [now apply Nat.eqb_eq |]. split; [now apply Nat.eqb_eq |]. split; [now apply Nat.leb_le |].
  intros k K. rewrite forallb_forall in C4. assert (S : In k (seq 0 (cm_ntypes m))) by (apply in_seq; lia).
  specialize (C4 _ S). destruct (code_row m k) as [r |]; [| discriminate C4].
  destruct (loop_row m k) as [r' |]; [| discriminate C4].
  apply andb_prop in C4 as [C4 C6]. apply andb_prop in C4 as [C4 C5]. apply row_eqb_eq in C4. subst r'.
  exists r. repeat split; auto; now apply Nat.eqb_eq.
Qed.

(** ** losses *)
Lemma not_double : ~ float_value 53 1024 (IZR (2 ^ 53 + 1)).
Proof.
  intros [G _]. apply FLT_format_generic in G; [| reflexivity]. destruct G as [[m e] E M X].
  cbn [Fnum Fexp] in *. unfold F2R in E. cbn [Fnum Fexp] in E.
  change (3 - 1024 - 53) with (-1074) in X.
  assert (M' : Z.abs m < 2 ^ 53) by exact M.
  destruct (Z_le_gt_dec 1 e) as [P | P].
  - rewrite <- IZR_Zpower in E by lia. rewrite <- mult_IZR in E. apply eq_IZR in E.
    replace e with (1 + (e - 1)) in E by lia. rewrite Zpower_plus in E by lia.
    change (radix2 ^ 1) with 2 in E. assert (D : (2 ^ 53 + 1) mod 2 = 0).
    { rewrite E. replace (m * (2 * radix2 ^ (e - 1))) with (m * radix2 ^ (e - 1) * 2) by ring. apply Z_mod_mult. }
    vm_compute in D. discriminate D.
  - assert (B : (bpow radix2 e <= 1)%R) by (change 1%R with (bpow radix2 0); apply bpow_le; lia).
    assert (A : (Rabs (IZR (2 ^ 53 + 1)) <= IZR (2 ^ 53))%R).
    { rewrite E, Rabs_mult, <- abs_IZR. rewrite (Rabs_pos_eq (bpow radix2 e)) by apply bpow_ge_0.
      apply Rle_trans with (IZR (Z.abs m) * 1)%R.
      - apply Rmult_le_compat_l; [apply IZR_le; lia | exact B].
      - rewrite Rmult_1_r. apply IZR_le. lia. }
    rewrite <- abs_IZR in A. apply le_IZR in A. vm_compute in A. now apply A.
Qed.
Lemma cast_loss :
  exists t r x, In (S_ "searchsortedl", Some t) all_tables
    /\ resolve t [Ti64; Tu64] = Some r /\ fst r = [Tdouble; Tdouble]
    /\ value Ti64 x 0 /\ ~ value Tdouble x 0.
Proof.
  exists (match table_of_cmod (nth 10 c_mods (CMod [] 0 0 0 0 [] [])) with Some t => t | None => [] end).
  exists ([Tdouble; Tdouble], [Ti64]), (IZR (2 ^ 53 + 1)).
  split; [| split; [vm_compute; reflexivity | split; [reflexivity | split]]].
  - unfold all_tables. apply in_or_app. right. apply in_map_iff.
    exists (nth 10 c_mods (CMod [] 0 0 0 0 [] [])). split; [vm_compute; reflexivity |].
    apply nth_In. vm_compute. lia.
  - split; [| reflexivity]. exists (2 ^ 53 + 1). split; [reflexivity | lia].
  - intros [F _]. exact (not_double F).
Qed.

(** arguments without a loop: the function's name and the argument types *)
Definition lookup (n : str) : option (list row) :=
  match find (fun p => eqs n (fst p)) all_tables with Some p => snd p | None => None end.
Lemma lookup_In n t : lookup n = Some t -> In (n, Some t) all_tables.
Proof.
  unfold lookup. destruct (find _ _) as [[m o] |] eqn:E; [| discriminate]. intros H.
  apply find_some in E as [I E]. cbn [fst snd] in *. apply eqs_eq in E. subst. exact I.
Qed.

(** * P_GenLoop: proofs about the generated outer loops *)
From Coq Require Import ZArith Bool Ascii String List Lia.
From Verif Require Import CSem CSemP M_Int M_Stat M_Gen S_Gen P_Gen.
Import ListNotations.
Open Scope Z_scope.

Lemma rd_app pre x r k : k = Z.of_nat (length pre) -> rd (pre ++ x :: r) k = Some x.
Proof.
  intros ->. unfold rd. destruct (Z.ltb_spec (Z.of_nat (length pre)) 0); [lia|].
  rewrite Nat2Z.id, nth_error_app2, Nat.sub_diag by lia. reflexivity.
Qed.
Lemma rds_app l : forall pre r k, k = Z.of_nat (length pre) -> rds (pre ++ l ++ r) k (length l) = Some l.
Proof.
  induction l as [|x l IH]; intros pre r k Hk; cbn [length rds app]; [reflexivity|].
  rewrite rd_app by exact Hk. cbn [bind].
  replace (pre ++ x :: l ++ r) with ((pre ++ [x]) ++ l ++ r) by (rewrite <- app_assoc; reflexivity).
  rewrite IH; [reflexivity|]. rewrite app_length. cbn [length]. lia.
Qed.
Lemma mapM_app {X Y} (f : X -> M Y) a b : mapM f (a ++ b) = (x <- mapM f a ;; y <- mapM f b ;; ret (x ++ y)).
Proof.
  induction a as [|x a IH]; cbn [mapM app].
  - cbn [bind ret]. destruct (mapM f b); reflexivity.
  - destruct (f x); [|reflexivity]. cbn [bind]. rewrite IH. destruct (mapM f a); [|reflexivity]. cbn [bind ret].
    destruct (mapM f b); reflexivity.
Qed.

Section Loop.
  Context (g : gsig) (N : Z) (size : dim -> Z).
  Context (Hsz : forall n, In (DNum n) (all_dims g) -> size (DNum n) = n).

  Definition env_of (D : list dim) : list (str * Z) :=
    concat (map (fun d => match d with DName s => [(s, size d)] | DNum _ => [] end) D).

  Lemma env_read D : forall pre k, k = Z.of_nat (length pre) ->
    mapM (fun p => v <- rd (N :: pre ++ map size D) (snd p) ;; ret (fst p, v)) (gen_dims k (map item_of D)) = Some (env_of D).
  Proof.
    induction D as [|d D IH]; intros pre k Hk; cbn [map gen_dims]; [reflexivity|].
    assert (E : N :: pre ++ size d :: map size D = N :: (pre ++ [size d]) ++ map size D) by (rewrite <- app_assoc; reflexivity).
    assert (Hk' : k + 1 = Z.of_nat (length (pre ++ [size d]))) by (rewrite app_length; cbn [length]; lia).
    destruct d as [s|n]; cbn [item_of].
    - cbn [mapM]. cbn [fst snd]. change (N :: pre ++ size (DName s) :: map size D) with ((N :: pre) ++ size (DName s) :: map size D) at 1.
      rewrite rd_app by (cbn [length]; lia). cbn [bind]. rewrite E, (IH _ _ Hk'). reflexivity.
    - rewrite E, (IH _ _ Hk'). reflexivity.
  Qed.
  Lemma asserts_ok D : forall pre k, k = Z.of_nat (length pre) -> (forall n, In (DNum n) D -> size (DNum n) = n) ->
    exists l, mapM (fun p => v <- rd (N :: pre ++ map size D) (fst p) ;; if v =? snd p then ret tt else ub) (gen_asserts k (map item_of D)) = Some l.
  Proof.
    induction D as [|d D IH]; intros pre k Hk Hn; cbn [map gen_asserts]; [exists []; reflexivity|].
    assert (E : N :: pre ++ size d :: map size D = N :: (pre ++ [size d]) ++ map size D) by (rewrite <- app_assoc; reflexivity).
    assert (Hk' : k + 1 = Z.of_nat (length (pre ++ [size d]))) by (rewrite app_length; cbn [length]; lia).
    destruct (IH (pre ++ [size d]) (k + 1) Hk') as [l Hl]; [intros n Hin; apply Hn; right; exact Hin|].
    destruct d as [s|n]; cbn [item_of].
    - exists l. rewrite E. exact Hl.
    - cbn [mapM]. cbn [fst snd]. change (N :: pre ++ size (DNum n) :: map size D) with ((N :: pre) ++ size (DNum n) :: map size D) at 1.
      rewrite rd_app by (cbn [length]; lia). cbn [bind]. assert (En : size (DNum n) =? n = true) by (apply Z.eqb_eq, Hn; left; reflexivity). rewrite En. cbn [bind ret].
      rewrite E, Hl. cbn [bind ret]. eexists. reflexivity.
  Qed.

  Lemma lookup_env j s D : In (DName s) D -> s <> S_ "j" -> lookup s ((S_ "j", j) :: env_of D) = Some (size (DName s)).
  Proof.
    intros Hin Hj. cbn [lookup]. destruct (eqs (S_ "j") s) eqn:E; [apply eqs_spec in E; congruence|]. clear E.
    induction D as [|d D IH]; [destruct Hin|]. unfold env_of. cbn [map concat]. fold (env_of D).
    destruct d as [t|n]; cbn [app lookup].
    - destruct (eqs t s) eqn:E; [apply eqs_spec in E; subst; reflexivity|]. apply IH. destruct Hin as [Hin|Hin]; [|exact Hin].
      injection Hin as ->. rewrite eqs_refl in E. discriminate.
    - apply IH. destruct Hin as [Hin|Hin]; [discriminate|exact Hin].
  Qed.
  Lemma sizes_eval steps ptrs j D0 D : incl D D0 -> ~ In (DName (S_ "j")) D0 -> forall k,
    mapM (eval_arg steps (env_of D0) ptrs j) (map (fun p => ADim (fst p)) (gen_dims k (map item_of D)))
    = Some (concat (map (fun d => match d with DName _ => [VInt (size d)] | DNum _ => [] end) D)).
  Proof.
    intros Hi Hj. induction D as [|d D IH]; intro k; cbn [map gen_dims]; [reflexivity|].
    assert (Hi' : incl D D0) by (intros x Hx; apply Hi; right; exact Hx).
    destruct d as [s|n]; cbn [item_of gen_dims map mapM].
    - cbn [eval_arg fst]. rewrite lookup_env.
      + cbn [bind ret]. rewrite (IH Hi'). reflexivity.
      + apply Hi. left. reflexivity.
      + intros ->. apply Hj, Hi. left. reflexivity.
    - apply (IH Hi').
  Qed.

  Lemma wf_name_ne s : wf_dim (DName s) -> eqs s [] = false.
  Proof. destruct s; cbn; [contradiction|reflexivity]. Qed.

  Lemma operands_eval env j shapes ops : Forall2 fits shapes ops -> Forall (Forall wf_dim) shapes ->
    forall k istep preP preS, k = Z.of_nat (length preP) -> istep = Z.of_nat (length preS) ->
    mapM (eval_arg (preS ++ concat (map o_strides ops)) env (preP ++ map (fun o => o_base o + j * o_step o) ops) j)
         (gen_operands k istep (map shape_of shapes))
    = Some (concat (map (slice_passed j) ops)).
  Proof.
    induction 1 as [|ds o shapes ops Hf HF IH]; intros Hwf k istep preP preS Hk Hi; cbn [map gen_operands concat]; [reflexivity|].
    inversion Hwf as [|? ? Hd Hwf']; subst.
    assert (EP : preP ++ (o_base o + j * o_step o) :: map (fun o => o_base o + j * o_step o) ops
               = (preP ++ [o_base o + j * o_step o]) ++ map (fun o => o_base o + j * o_step o) ops)
      by (rewrite <- app_assoc; reflexivity).
    assert (ES : preS ++ o_strides o ++ concat (map o_strides ops) = (preS ++ o_strides o) ++ concat (map o_strides ops))
      by (rewrite <- app_assoc; reflexivity).
    assert (IH' : mapM (eval_arg ((preS ++ o_strides o) ++ concat (map o_strides ops)) env
         ((preP ++ [o_base o + j * o_step o]) ++ map (fun o => o_base o + j * o_step o) ops) j)
         (gen_operands (Z.of_nat (length preP) + 1) (Z.of_nat (length preS) + Z.of_nat (length ds)) (map shape_of shapes))
       = Some (concat (map (slice_passed j) ops))).
    { apply (IH Hwf').
      - rewrite app_length. cbn [length]. lia.
      - rewrite app_length, Hf. lia. }
    assert (HP : eval_arg (preS ++ o_strides o ++ concat (map o_strides ops)) env
         (preP ++ (o_base o + j * o_step o) :: map (fun o => o_base o + j * o_step o) ops) j (APtr (Z.of_nat (length preP)))
         = Some (VPtr (o_base o + j * o_step o))).
    { cbn [eval_arg]. rewrite rd_app by reflexivity. reflexivity. }
    unfold fits in Hf. change (slice_passed j o) with (VPtr (o_base o + j * o_step o) :: strides_passed (o_strides o)).
    destruct ds as [|d [|d2 ds]].
    - destruct (o_strides o) as [|]eqn:Eo; [|discriminate]. cbn [shape_of eqs]. cbn [mapM]. rewrite HP. cbn [bind].
      rewrite EP, ES. cbn [length] in IH'. rewrite Z.add_0_r in IH'. rewrite IH'. reflexivity.
    - destruct (o_strides o) as [|s [|? ?]] eqn:Eo; try discriminate.
      assert (HS : eval_arg (preS ++ [s] ++ concat (map o_strides ops)) env
         (preP ++ (o_base o + j * o_step o) :: map (fun o => o_base o + j * o_step o) ops) j (AStep (Z.of_nat (length preS)))
         = Some (VInt s)).
      { cbn [eval_arg app]. rewrite rd_app by reflexivity. reflexivity. }
      cbn [length] in IH'. change (Z.of_nat 1) with 1 in IH'.
      assert (E : mapM (eval_arg (preS ++ [s] ++ concat (map o_strides ops)) env
         (preP ++ (o_base o + j * o_step o) :: map (fun o => o_base o + j * o_step o) ops) j)
         (APtr (Z.of_nat (length preP)) :: AStep (Z.of_nat (length preS))
           :: gen_operands (Z.of_nat (length preP) + 1) (Z.of_nat (length preS) + 1) (map shape_of shapes))
         = Some (VPtr (o_base o + j * o_step o) :: VInt s :: concat (map (slice_passed j) ops))).
      { cbn [mapM]. rewrite HP, HS. cbn [bind]. rewrite EP, ES, IH'. reflexivity. }
      cbn [strides_passed app] in *.
      destruct d as [n|n]; cbn [shape_of item_of].
      + rewrite wf_name_ne by (inversion Hd; assumption). exact E.
      + exact E.
    - destruct (o_strides o) as [|s [|s2 l]] eqn:Eo; try discriminate.
      cbn [shape_of]. rewrite map_length. cbn [mapM]. rewrite HP. cbn [bind].
      assert (HS : eval_arg (preS ++ (s :: s2 :: l) ++ concat (map o_strides ops)) env
         (preP ++ (o_base o + j * o_step o) :: map (fun o => o_base o + j * o_step o) ops) j
         (ASteps (Z.of_nat (length preS)) (length (d :: d2 :: ds))) = Some (VStrides (s :: s2 :: l))).
      { cbn [eval_arg]. rewrite <- Hf. rewrite rds_app by reflexivity. reflexivity. }
      rewrite HS. cbn [bind]. rewrite EP, ES, IH'. reflexivity.
  Qed.

  Context (ops : list operand) (Hfit : Forall2 fits (operands g) ops).
  Context (Hwf : Forall (Forall wf_dim) (operands g)) (Hj : ~ In (DName (S_ "j")) (all_dims g)).

  Lemma fits_length : length (operands g) = length ops.
  Proof.
    revert Hfit. generalize (operands g). clear. intros l H. induction H as [|a b la lb H HF IH]; cbn [length]; [reflexivity|]. f_equal. exact IH.
  Qed.
  Lemma distinct_incl l : incl (distinct l) l.
  Proof.
    induction l as [|d l IH]; cbn [distinct]; [apply incl_refl|]. intros x [->|Hx]; [left; reflexivity|].
    right. apply IH. apply in_remove in Hx. tauto.
  Qed.
  Lemma add_ptrs_step j : add_ptrs (map (fun o => o_base o + j * o_step o) ops) (map o_step ops) = map (fun o => o_base o + (j + 1) * o_step o) ops.
  Proof.
    clear. unfold add_ptrs. induction ops as [|o l IH]; cbn [map combine]; [reflexivity|]. f_equal; [cbn [fst snd]; ring|exact IH].
  Qed.

  Theorem run_calls {St} (core : list cval -> St -> M St) (s : St) : 0 <= N <= INT_MAX ->
    run_genloop core (np_args ops) (np_dimensions g N size) (np_steps ops)
      (generate_concrete_loop (map item_of (distinct (all_dims g))) (map shape_of (operands g))) s
    = in_order core (map (call_args g size ops) (upto N)) s.
  Proof.
    intro HN. unfold run_genloop, generate_concrete_loop. cbn [g_nvars g_dims g_asserts g_call].
    rewrite map_length, fits_length.
    assert (EA : rds (np_args ops) 0 (length ops) = Some (np_args ops)).
    { pose proof (rds_app (np_args ops) [] [] 0 eq_refl) as H. cbn [app] in H. rewrite app_nil_r in H.
      unfold np_args at 2 in H. rewrite map_length in H. exact H. }
    rewrite EA. cbn [bind]. unfold np_dimensions at 1. change (rd (N :: _) 0) with (Some N). cbn [bind].
    unfold np_dimensions. pose proof (env_read (distinct (all_dims g)) [] 0 eq_refl) as EE. cbn [app] in EE. rewrite EE. cbn [bind].
    destruct (asserts_ok (distinct (all_dims g)) [] 0 eq_refl) as [l El].
    { intros n Hn. apply Hsz. apply distinct_incl, Hn. }
    cbn [app] in El. rewrite El. cbn [bind].
    assert (ES : rds (np_steps ops) 0 (length ops) = Some (map o_step ops)).
    { pose proof (rds_app (map o_step ops) [] (concat (map o_strides ops)) 0 eq_refl) as H. cbn [app] in H.
      rewrite map_length in H. exact H. }
    rewrite ES. cbn [bind]. unfold int_for_each. destruct (Z.leb_spec N INT_MAX) as [_|C]; [|lia].
    unfold for_each, upto. rewrite Z.sub_0_r.
    set (body := fun j st => _).
    assert (HB : forall j s, body j (map (fun o => o_base o + j * o_step o) ops, s)
      = (s <- core (call_args g size ops j) s ;; ret (map (fun o => o_base o + (j + 1) * o_step o) ops, s))).
    { intros j s0. unfold body. rewrite mapM_app.
      rewrite (sizes_eval _ _ _ (distinct (all_dims g)) (distinct (all_dims g)) (incl_refl _)).
      2:{ intro C. apply Hj, distinct_incl, C. }
      cbn [bind]. unfold np_steps.
      pose proof (operands_eval (env_of (distinct (all_dims g))) j (operands g) ops Hfit Hwf 0 (Z.of_nat (length ops)) [] (map o_step ops) eq_refl) as HO.
      rewrite map_length in HO. specialize (HO eq_refl). cbn [app] in HO. rewrite HO. cbn [bind ret].
      change (core (call_args g size ops j) s0) with (core (call_args g size ops j) s0).
      fold (sizes_passed g size). fold (call_args g size ops j).
      destruct (core (call_args g size ops j) s0); [|reflexivity]. cbn [bind ret]. rewrite add_ptrs_step. reflexivity. }
    assert (EB : np_args ops = map (fun o => o_base o + 0 * o_step o) ops).
    { apply map_ext. intro o. lia. }
    rewrite EB. clearbody body. clear - HB.
    assert (H : forall n k s, (r <- iter_from n k body (map (fun o => o_base o + k * o_step o) ops, s) ;; ret (snd r))
      = in_order core (map (call_args g size ops) (map (fun i => k + Z.of_nat i) (seq 0 n))) s).
    { clear s. induction n as [|n IH]; intros k s; cbn [iter_from seq map in_order]; [reflexivity|].
      rewrite HB, Z.add_0_r. destruct (core (call_args g size ops k) s) as [s'|]; [|reflexivity]. cbn [bind ret].
      rewrite IH. f_equal. f_equal. rewrite <- (seq_shift n 0), map_map. apply map_ext. intro i. lia. }
    rewrite H. f_equal.
  Qed.
End Loop.

(** ** the generator end to end *)
Theorem generated_calls g t N size ops :
  spells g t -> ~ In (DName (S_ "j")) (all_dims g) ->
  (forall n, In (DNum n) (all_dims g) -> size (DNum n) = n) ->
  Forall2 fits (operands g) ops -> 0 <= N <= INT_MAX ->
  exists dims si so, parse_gufunc_signature t = Some (dims, si, so) /\
    forall St (core : list cval -> St -> M St) s,
      run_genloop core (np_args ops) (np_dimensions g N size) (np_steps ops)
        (generate_concrete_loop dims (si ++ so)) s
      = in_order core (map (call_args g size ops) (upto N)) s.
Proof.
  intros Hs Hj Hsz Hf HN. eexists _, _, _. split; [apply parse_spells, Hs|]. intros St core s.
  rewrite <- map_app. apply (run_calls g N size Hsz ops Hf (spells_wf g t Hs) Hj core s HN).
Qed.

(** more than INT_MAX slices overflow the loop counter *)
Theorem generated_overflow g t N size ops :
  spells g t -> (forall n, In (DNum n) (all_dims g) -> size (DNum n) = n) ->
  Forall2 fits (operands g) ops -> INT_MAX < N ->
  exists dims si so, parse_gufunc_signature t = Some (dims, si, so) /\
    forall St (core : list cval -> St -> M St) s,
      run_genloop core (np_args ops) (np_dimensions g N size) (np_steps ops)
        (generate_concrete_loop dims (si ++ so)) s = ub.
Proof.
  intros Hs Hsz Hf HN. eexists _, _, _. split; [apply parse_spells, Hs|]. intros St core s.
  unfold run_genloop. destruct (rds (np_args ops) 0 _); [|reflexivity]. cbn [bind]. unfold np_dimensions at 1.
  change (rd (N :: _) 0) with (Some N). cbn [bind]. destruct (mapM _ _); [|reflexivity]. cbn [bind].
  destruct (mapM _ _); [|reflexivity]. cbn [bind]. destruct (rds (np_steps ops) 0 _); [|reflexivity]. cbn [bind].
  unfold int_for_each. destruct (Z.leb_spec N INT_MAX); [lia|reflexivity].
Qed.

(** ** the prototype agrees with the call *)
Theorem decl_agrees g t : spells g t -> ~ In [DNum 1] (operands g) ->
  exists dims si so, parse_gufunc_signature t = Some (dims, si, so) /\
    map kind_of (g_call (generate_concrete_loop dims (si ++ so))) = generate_declaration dims (si ++ so).
Proof.
  intros Hs H1. eexists _, _, _. split; [apply parse_spells, Hs|]. rewrite <- map_app. fold (operands g).
  pose proof (spells_wf g t Hs) as Hwf. unfold generate_concrete_loop, generate_declaration. cbn [g_call].
  rewrite map_app, map_map. f_equal. generalize (Z.of_nat (length (map shape_of (operands g)))). generalize 0.
  revert Hwf H1. generalize (operands g). clear. intro l.
  induction l as [|ds l IH]; intros Hwf H1 k i; cbn [map gen_operands concat]; [reflexivity|].
  inversion Hwf as [|? ? Hd Hwf']; subst. specialize (IH Hwf' (fun C => H1 (or_intror C))).
  destruct ds as [|d [|d2 ds]].
  - cbn [shape_of eqs decl_operand]. cbn [map kind_of app]. f_equal. apply IH.
  - cbn [shape_of]. destruct d as [s|n]; cbn [item_of].
    + unfold decl_operand. rewrite wf_name_ne by (inversion Hd; assumption). cbn [map kind_of app]. do 2 f_equal. apply IH.
    + cbn [decl_operand]. destruct (Z.eqb_spec n 1) as [->|_]; [exfalso; apply H1; left; reflexivity|].
      cbn [map kind_of app]. do 2 f_equal. apply IH.
  - cbn [shape_of decl_operand map kind_of app]. f_equal. f_equal. apply IH.
Qed.

(** ** slices *)
Section Slices.
  Context {K : Type} {T : K -> Type}.
  Theorem fills_in_order {A} (core : A -> @outputs K T -> M (@outputs K T)) (call : Z -> A)
      (cell : Z -> K -> Z -> Prop) (val : Z -> forall k, Z -> T k) (dec : forall j k a, {cell j k a} + {~ cell j k a}) N st :
    0 <= N ->
    (forall j st, 0 <= j < N -> allocated st (cell j) -> fills (core (call j) st) st (cell j) (val j)) ->
    (forall i j k a, 0 <= i < N -> 0 <= j < N -> cell i k a -> cell j k a -> i = j) ->
    (forall j, 0 <= j < N -> allocated st (cell j)) ->
    exists st', in_order core (map call (upto N)) st = Some st' /\
      (forall j k a, 0 <= j < N -> cell j k a -> st' k a = Some (val j k a)) /\
      (forall k a, (forall j, 0 <= j < N -> ~ cell j k a) -> st' k a = st k a).
  Proof.
    intros HN Hc Hd Ha. unfold upto. rewrite map_map.
    assert (H : forall n k0 st, Z.of_nat (k0 + n) <= N -> (forall j, 0 <= j < N -> allocated st (cell j)) ->
      exists st', in_order core (map (fun i => call (Z.of_nat i)) (seq k0 n)) st = Some st' /\
        (forall j k a, Z.of_nat k0 <= j < Z.of_nat (k0 + n) -> cell j k a -> st' k a = Some (val j k a)) /\
        (forall k a, (forall j, Z.of_nat k0 <= j < Z.of_nat (k0 + n) -> ~ cell j k a) -> st' k a = st k a)).
    { clear st Ha. induction n as [|n IH]; intros k0 st Hn Ha; cbn [seq map in_order].
      - exists st. split; [reflexivity|]. split; [intros; lia|reflexivity].
      - destruct (Hc (Z.of_nat k0) st) as (st1 & E1 & V1 & F1); [lia|apply Ha; lia|].
        rewrite E1. cbn [bind].
        destruct (IH (S k0) st1) as (st' & E & V & F).
        { lia. }
        { intros j Hj k a Hcell. destruct (dec (Z.of_nat k0) k a) as [H|H].
          - rewrite (V1 k a H). discriminate.
          - rewrite (F1 k a H). exact (Ha j Hj k a Hcell). }
        exists st'. split; [exact E|]. split.
        + intros j k a Hj Hcell. destruct (Z.eq_dec j (Z.of_nat k0)) as [->|Hne].
          * rewrite F; [apply V1, Hcell|]. intros i Hi C. assert (i = Z.of_nat k0) by (eapply Hd; [| |exact C|exact Hcell]; lia). lia.
          * apply V; [lia|exact Hcell].
        + intros k a Hno. rewrite F by (intros j Hj; apply Hno; lia). apply F1, Hno. lia. }
    destruct (H (Z.to_nat N) O st) as (st' & E & V & F); [lia|exact Ha|].
    exists st'. split; [exact E|]. split.
    - intros j k a Hj. apply V. lia.
    - intros k a Hno. apply F. intros j Hj. apply Hno. lia.
  Qed.
End Slices.

(** a single output operand with one core dimension *)
Theorem writes_in_order {T A} (core : A -> mem T -> M (mem T)) (call : Z -> A) p step s (n : nat) (f : Z -> list T) N m :
  0 <= N ->
  (forall j m, 0 <= j < N -> writable m (p + j * step) s n -> writes (core (call j) m) m (p + j * step) s (f j)) ->
  (forall j, 0 <= j < N -> length (f j) = n) ->
  (forall j, 0 <= j < N -> writable m (p + j * step) s n) ->
  (forall i j a, 0 <= i < N -> 0 <= j < N -> i <> j -> outside (p + i * step) s n a \/ outside (p + j * step) s n a) ->
  exists m', in_order core (map call (upto N)) m = Some m' /\
    (forall j, 0 <= j < N -> view m' (p + j * step) s (f j)) /\
    (forall a, (forall j, 0 <= j < N -> outside (p + j * step) s n a) -> m' a = m a).
Proof.
  intros HN Hc Hlen Hw Hd.
  assert (Hlt : forall j k, 0 <= j < N -> (k < n)%nat -> exists x, nth_error (f j) k = Some x).
  { intros j k Hj Hk. destruct (nth_error (f j) k) as [x|] eqn:E; [exists x; reflexivity|].
    apply nth_error_None in E. rewrite (Hlen j Hj) in E. lia. }
  unfold upto. rewrite map_map.
  assert (H : forall q k0 m, Z.of_nat (k0 + q) <= N -> (forall j, 0 <= j < N -> writable m (p + j * step) s n) ->
    exists m', in_order core (map (fun i => call (Z.of_nat i)) (seq k0 q)) m = Some m' /\
      (forall j, Z.of_nat k0 <= j < Z.of_nat (k0 + q) -> view m' (p + j * step) s (f j)) /\
      (forall a, (forall j, Z.of_nat k0 <= j < Z.of_nat (k0 + q) -> outside (p + j * step) s n a) -> m' a = m a)).
  { clear m Hw. induction q as [|q IH]; intros k0 m Hn Hw; cbn [seq map in_order].
    - exists m. split; [reflexivity|]. split; [intros; lia|reflexivity].
    - destruct (Hc (Z.of_nat k0) m) as (m1 & E1 & V1 & F1); [lia|apply Hw; lia|].
      rewrite Hlen in F1 by lia. rewrite E1. cbn [bind].
      destruct (IH (S k0) m1) as (m' & E & V & F).
      { lia. }
      { intros j Hj. destruct (Hw j Hj) as [H1 H2]. split; [|exact H2]. intros k Hk.
        destruct (Z.eq_dec j (Z.of_nat k0)) as [->|Hne].
        - rewrite (V1 k) by (rewrite Hlen by lia; exact Hk). destruct (Hlt (Z.of_nat k0) k) as [x ->]; [lia|exact Hk|discriminate].
        - rewrite F1; [apply H1, Hk|]. destruct (Hd j (Z.of_nat k0) (p + j * step + Z.of_nat k * s)) as [C|C]; [exact Hj|lia|exact Hne| |exact C].
          exfalso. exact (C k Hk eq_refl). }
      exists m'. split; [exact E|]. split.
      + intros j Hj. destruct (Z.eq_dec j (Z.of_nat k0)) as [->|Hne].
        * intros k Hk. rewrite F; [apply V1, Hk|]. intros i Hi. rewrite Hlen in Hk by lia.
          destruct (Hd (Z.of_nat k0) i (p + Z.of_nat k0 * step + Z.of_nat k * s)) as [C|C]; [lia|lia|lia| |exact C].
          exfalso. exact (C k Hk eq_refl).
        * apply V. lia.
      + intros a Hno. rewrite F by (intros j Hj; apply Hno; lia). apply F1, Hno. lia. }
  destruct (H (Z.to_nat N) O m) as (m' & E & V & F); [lia|exact Hw|].
  exists m'. split; [exact E|]. split.
  - intros j Hj. apply V. lia.
  - intros a Hno. apply F. intros j Hj. apply Hno. lia.
Qed.

(** ** nonzero core dimensions *)
Lemma index_of_spec D : forall d (pre : list dim), In d D -> exists i, index_of (item_of d) (map item_of D) (Z.of_nat (length pre)) = Some (Z.of_nat (length pre + i)) /\ nth_error D i = Some d.
Proof.
  induction D as [|x D IH]; intros d pre Hin; [destruct Hin|]. cbn [map index_of].
  destruct (item_eqb (item_of x) (item_of d)) eqn:E.
  - apply item_eqb_spec, item_of_inj in E. subst x. exists O. rewrite Nat.add_0_r. split; reflexivity.
  - destruct Hin as [->|Hin].
    + exfalso. assert (item_eqb (item_of d) (item_of d) = true) by (apply item_eqb_spec; reflexivity). congruence.
    + destruct (IH d (pre ++ [x]) Hin) as (i & Hi & Hn). exists (S i). split; [|exact Hn].
      rewrite app_length in Hi. cbn [length] in Hi. replace (Z.of_nat (length pre) + 1) with (Z.of_nat (length pre + 1)) by lia.
      rewrite Hi. f_equal. lia.
Qed.
Lemma distinct_in d l : In d l -> In d (distinct l).
Proof.
  induction l as [|x l IH]; cbn [distinct]; [tauto|]. intros [->|H]; [left; reflexivity|].
  destruct (dim_dec d x) as [->|Hne]; [left; reflexivity|]. right. apply in_in_remove; auto.
Qed.
Theorem nonzero_check g t names size : spells g t ->
  Forall (fun n => In (DName n) (all_dims g)) names ->
  exists dims si so idxs, parse_gufunc_signature t = Some (dims, si, so) /\ gen_nonzero dims names = Some idxs /\
    process_core_dims idxs (map size (distinct (all_dims g)))
    = Some (if existsb (fun n => size (DName n) =? 0) names then -1 else 0).
Proof.
  intros Hs HF. assert (H : exists idxs, gen_nonzero (map item_of (distinct (all_dims g))) names = Some idxs /\
     process_core_dims idxs (map size (distinct (all_dims g))) = Some (if existsb (fun n => size (DName n) =? 0) names then -1 else 0)).
  { induction HF as [|n names Hn HF IH]; cbn [gen_nonzero existsb].
    - exists []. split; reflexivity.
    - destruct IH as (idxs & E1 & E2).
      destruct (index_of_spec (distinct (all_dims g)) (DName n) [] (distinct_in _ _ Hn)) as (i & Hi & Hnth).
      cbn [item_of length] in Hi. change (Z.of_nat 0) with 0 in Hi. rewrite Hi, E1. exists (Z.of_nat i :: idxs). split; [reflexivity|].
      cbn [process_core_dims]. unfold rd. destruct (Z.ltb_spec (Z.of_nat i) 0); [lia|]. rewrite Nat2Z.id.
      rewrite (map_nth_error size i _ Hnth). cbn [bind]. destruct (size (DName n) =? 0); [reflexivity|]. exact E2. }
  destruct H as (idxs & E1 & E2). eexists _, _, _, idxs. split; [apply parse_spells, Hs|]. split; assumption.
Qed.

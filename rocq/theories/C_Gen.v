(** Property theorems C02, C03 (generated outer loops), C54 (type tables), C56 (core dimension
    checks) and C57 (exceptions in object loops). *)
From Coq Require Import ZArith Bool Ascii String List Lia Reals.
From Verif Require Import CSem CSemP Num NumP M_Int M_Stat M_Signal M_Obj M_Geom M_Gen M_Entry S_Signal S_Geom S_Gen S_GenNames
  P_Gen P_GenNames P_GenLoop P_GenTypes P_GenInst.
Import ListNotations.
Open Scope Z_scope.

(** ** C03: the generated call *)
(** for every signature, with any blanks: the calls made, in order, with their arguments *)
Theorem C03_generated_calls :
  forall g t N size ops,
  spells g t -> ~ In (DName (S_ "j")) (all_dims g) ->
  (forall n, In (DNum n) (all_dims g) -> size (DNum n) = n) ->
  Forall2 fits (operands g) ops -> 0 <= N <= INT_MAX ->
  exists dims si so, parse_gufunc_signature t = Some (dims, si, so) /\
    forall St (core : list cval -> St -> M St) s,
      run_genloop core (np_args ops) (np_dimensions g N size) (np_steps ops)
        (generate_concrete_loop dims (si ++ so)) s
      = in_order core (map (call_args g size ops) (upto N)) s.
Proof. exact @generated_calls. Qed.
Print Assumptions C03_generated_calls.

(** the prototype written for the core function has the parameters of the call *)
Theorem C03_declaration :
  forall g t,
  spells g t -> ~ In [DNum 1] (operands g) ->
   exists dims si so, parse_gufunc_signature t = Some (dims, si, so) /\
     map kind_of (g_call (generate_concrete_loop dims (si ++ so))) = generate_declaration dims (si ++ so).
Proof. exact @decl_agrees. Qed.
Print Assumptions C03_declaration.

(** the number of inputs and outputs registered with NumPy *)
Theorem C03_nin_nout :
  forall g t,
  spells g t ->
   get_nin_nout t = (Z.of_nat (length (ins g)), Z.of_nat (length (outs g))).
Proof. exact @nin_nout_spells. Qed.
Print Assumptions C03_nin_nout.

(** the names of the pointer variables: the parameters shown in the docstring, then out or out1, out2, ... *)
Theorem C03_variable_names :
  forall g t name ps doc,
  spells g t -> ident name -> ps <> [] -> Forall ident ps -> shows_call name ps doc ->
   exists os, get_varnames doc t = Some (ps ++ os) /\ out_names (length (outs g)) os.
Proof. exact @varnames_spec. Qed.
Print Assumptions C03_variable_names.
Theorem C03_output_names_distinct :
  forall n l,
  out_names n l -> NoDup l.
Proof. exact @out_names_nodup. Qed.
Print Assumptions C03_output_names_distinct.
Example C03_ex_names : get_varnames (S_ "f(x, y, /, ...)") (S_ "(n),(n)->(),()") = Some [S_ "x"; S_ "y"; S_ "out1"; S_ "out2"] /\
  shows_call (S_ "f") [S_ "x"; S_ "y"] (S_ "f(x, y, /, ...)").
Proof. split; [reflexivity|]. apply (shows_one (S_ "f") [S_ "x"; S_ "y"] (S_ ", ...)")). intro H. repeat (destruct H as [H|H]; [discriminate|]). exact H. Qed.

(** an operand of shape (1): the call passes a stride the prototype does not have *)
Theorem C03_declaration_one_refuted : exists t dims si so,
  parse_gufunc_signature t = Some (dims, si, so) /\ spells (mkSig [[DNum 1]] [[]]) t /\
  map kind_of (g_call (generate_concrete_loop dims (si ++ so))) <> generate_declaration dims (si ++ so).
Proof.
  exists (S_ "(1)->()"). eexists _, _, _. split; [vm_compute; reflexivity|]. split; [|vm_compute; discriminate].
  split; [discriminate|]. split; [discriminate|]. exists [S_ "(1)"], [S_ "()"]. split; [|split; [|reflexivity]].
  - apply Forall2_cons; [|apply Forall2_nil]. exists [S_ "1"]. split; [|reflexivity].
    apply Forall2_cons; [|apply Forall2_nil]. apply sp_num; [|lia]. exact (num1 "1"%char 1 eq_refl).
  - apply Forall2_cons; [|apply Forall2_nil]. exists []. split; [|reflexivity]. apply Forall2_nil.
Qed.
Print Assumptions C03_declaration_one_refuted.

(** a core dimension called j: the core function is given the loop counter as its length *)
Theorem C03_name_j_refuted : exists t dims si so,
  parse_gufunc_signature t = Some (dims, si, so) /\ spells (mkSig [[DName (S_ "j")]] [[]]) t /\
  run_genloop (fun a l => ret (l ++ [a])) [0; 100] [2; 5] [40; 8; 8] (generate_concrete_loop dims (si ++ so)) []
  = Some [[VInt 0; VPtr 0; VInt 8; VPtr 100]; [VInt 1; VPtr 40; VInt 8; VPtr 108]].
Proof.
  exists (S_ "(j)->()"). eexists _, _, _. split; [vm_compute; reflexivity|]. split; [|vm_compute; reflexivity].
  split; [discriminate|]. split; [discriminate|]. exists [S_ "(j)"], [S_ "()"]. split; [|split; [|reflexivity]].
  - apply Forall2_cons; [|apply Forall2_nil]. exists [S_ "j"]. split; [|reflexivity].
    apply Forall2_cons; [|apply Forall2_nil]. apply sp_name. cbn. intuition.
  - apply Forall2_cons; [|apply Forall2_nil]. exists []. split; [|reflexivity]. apply Forall2_nil.
Qed.
Print Assumptions C03_name_j_refuted.

(** the filter signature (m,6), (n), (m,2) -> (n), (m,2): two dimension sizes, row strides as
    pairs, two slices *)
Example C03_example :
  spells sig_sos (S_ "(m,6), (n), (m,2) -> (n), (m,2)") /\ ~ In (DName (S_ "j")) (all_dims sig_sos) /\
  distinct (all_dims sig_sos) = [DName (S_ "m"); DNum 6; DName (S_ "n"); DNum 2] /\
  (let size d := match d with DNum n => n | DName n => if eqs n (S_ "m") then 3 else 10 end in
   let ops := [mkOp 0 0 [48; 8]; mkOp 1000 80 [8]; mkOp 3000 0 [16; 8]; mkOp 4000 80 [8]; mkOp 5000 48 [16; 8]] in
   Forall2 fits (operands sig_sos) ops /\
   np_steps ops = [0; 80; 0; 80; 48; 48; 8; 8; 16; 8; 8; 16; 8] /\
   call_args sig_sos size ops 1 =
     [VInt 3; VInt 10; VPtr 0; VStrides [48; 8]; VPtr 1080; VInt 8; VPtr 3000; VStrides [16; 8];
      VPtr 4080; VInt 8; VPtr 5048; VStrides [16; 8]]) /\
  exists dims si so, parse_gufunc_signature (S_ "(m,6), (n), (m,2) -> (n), (m,2)") = Some (dims, si, so) /\
    run_genloop (fun a l => ret (l ++ [a])) [0; 1000; 3000; 4000; 5000] [2; 3; 6; 10; 2]
      [0; 80; 0; 80; 48; 48; 8; 8; 16; 8; 8; 16; 8] (generate_concrete_loop dims (si ++ so)) [] =
    Some [[VInt 3; VInt 10; VPtr 0; VStrides [48; 8]; VPtr 1000; VInt 8; VPtr 3000; VStrides [16; 8];
           VPtr 4000; VInt 8; VPtr 5000; VStrides [16; 8]];
          [VInt 3; VInt 10; VPtr 0; VStrides [48; 8]; VPtr 1080; VInt 8; VPtr 3000; VStrides [16; 8];
           VPtr 4080; VInt 8; VPtr 5048; VStrides [16; 8]]].
Proof.
  split; [exact spells_sos|]. split; [cbn; intuition discriminate|]. split; [reflexivity|]. split.
  - split; [|split; reflexivity]. unfold operands, sig_sos. cbn.
    repeat (apply Forall2_cons; [reflexivity|]). apply Forall2_nil.
  - eexists _, _, _. split; vm_compute; reflexivity.
Qed.

(** ** C02: every slice, and nothing else *)
Theorem C02_slices :
  forall {K : Type} {T : K -> Type} g t N size ops (core : list cval -> @outputs K T -> M (@outputs K T)) (cell : Z -> K -> Z -> Prop) (val : Z -> forall k, Z -> T k) (dec : forall j k a, {cell j k a} + {~ cell j k a}) st,
  spells g t -> ~ In (DName (S_ "j")) (all_dims g) ->
  (forall n, In (DNum n) (all_dims g) -> size (DNum n) = n) ->
  Forall2 fits (operands g) ops -> 0 <= N <= INT_MAX ->
  (forall j st, 0 <= j < N -> allocated st (cell j) -> fills (core (call_args g size ops j) st) st (cell j) (val j)) ->
  (forall i j k a, 0 <= i < N -> 0 <= j < N -> cell i k a -> cell j k a -> i = j) ->
  (forall j, 0 <= j < N -> allocated st (cell j)) ->
  exists dims si so, parse_gufunc_signature t = Some (dims, si, so) /\
    exists st', run_genloop core (np_args ops) (np_dimensions g N size) (np_steps ops)
        (generate_concrete_loop dims (si ++ so)) st = Some st' /\
      (forall j k a, 0 <= j < N -> cell j k a -> st' k a = Some (val j k a)) /\
      (forall k a, (forall j, 0 <= j < N -> ~ cell j k a) -> st' k a = st k a).
Proof. exact @generated_slices. Qed.
Print Assumptions C02_slices.

(** elementwise ufuncs *)
Theorem C02_ufunc :
  forall {T U : Type} (f : list T -> M U) (d : T) (F : list T -> U) ins isteps cols (N : nat) pout ostep out,
  Z.of_nat N <= INT_MAX -> length isteps = length ins ->
  Forall2 (fun x c => length c = N /\ view (fst (fst x)) (snd (fst x)) (snd x) c) (combine ins isteps) cols ->
  (forall j, (j < N)%nat -> f (args_at d cols j) = Some (F (args_at d cols j))) ->
  writable out pout ostep N ->
  writes (ufunc_loop f ins pout (Z.of_nat N) isteps ostep out) out pout ostep
    (map (fun j => F (args_at d cols j)) (seq 0 N)).
Proof. exact @ufunc_loop_writes. Qed.
Print Assumptions C02_ufunc.

(** a call with more than INT_MAX slices overflows the int loop counter *)
Theorem C02_counter_refuted :
  forall g t N size ops,
  spells g t -> (forall n, In (DNum n) (all_dims g) -> size (DNum n) = n) ->
  Forall2 fits (operands g) ops -> INT_MAX < N ->
  exists dims si so, parse_gufunc_signature t = Some (dims, si, so) /\
    forall St (core : list cval -> St -> M St) s,
      run_genloop core (np_args ops) (np_dimensions g N size) (np_steps ops)
        (generate_concrete_loop dims (si ++ so)) s = ub.
Proof. exact @generated_overflow. Qed.
Print Assumptions C02_counter_refuted.

(** two gufuncs of the package, end to end *)
Theorem C02_cross3 :
  forall N du dv dout su sv so mu pu mv pv mo po (u v : Z -> R * R * R),
  0 <= N <= INT_MAX ->
  (forall j, 0 <= j < N -> view mu (pu + j * du) su (list3 (map3 Fin (u j)))) ->
  (forall j, 0 <= j < N -> view mv (pv + j * dv) sv (list3 (map3 Fin (v j)))) ->
  (forall j, 0 <= j < N -> writable mo (po + j * dout) so 3) ->
  (forall i j a, 0 <= i < N -> 0 <= j < N -> i <> j -> outside (po + i * dout) so 3 a \/ outside (po + j * dout) so 3 a) ->
  exists dims si sh m', parse_gufunc_signature (S_ "(3),(3)->(3)") = Some (dims, si, sh) /\
    run_genloop (cross3_entry (f_mul earith) (f_sub earith) mu mv) [pu; pv; po] [N; 3] [du; dv; dout; su; sv; so]
      (generate_concrete_loop dims (si ++ sh)) mo = Some m' /\
    (forall j, 0 <= j < N -> view m' (po + j * dout) so (list3 (map3 Fin (cross3R (u j) (v j))))) /\
    (forall a, (forall j, 0 <= j < N -> outside (po + j * dout) so 3 a) -> m' a = mo a).
Proof. exact @cross3_gufunc. Qed.
Print Assumptions C02_cross3.

Theorem C02_backlash :
  forall {T} (A : arith T) N n dx dd di dout sx so mx px md pd mi pi mo po (x : Z -> list T) (w init : Z -> T),
  0 <= N <= INT_MAX ->
  (forall j, 0 <= j < N -> length (x j) = n /\ view mx (px + j * dx) sx (x j) /\ md (pd + j * dd) = Some (w j) /\ mi (pi + j * di) = Some (init j)) ->
  (forall j, 0 <= j < N -> writable mo (po + j * dout) so n) ->
  (forall i j a, 0 <= i < N -> 0 <= j < N -> i <> j -> outside (po + i * dout) so n a \/ outside (po + j * dout) so n a) ->
  exists dims si sh m', parse_gufunc_signature (S_ "(n),(),() -> (n)") = Some (dims, si, sh) /\
    run_genloop (backlash_entry A mx md mi) [px; pd; pi; po] [N; Z.of_nat n] [dx; dd; di; dout; sx; so]
      (generate_concrete_loop dims (si ++ sh)) mo = Some m' /\
    (forall j, 0 <= j < N -> exists y,
       writes (backlash_core A (Z.of_nat n) mx (px + j * dx) sx (w j) (init j) mo (po + j * dout) so) mo (po + j * dout) so y /\
       length y = n /\ view m' (po + j * dout) so y) /\
    (forall a, (forall j, 0 <= j < N -> outside (po + j * dout) so n a) -> m' a = mo a).
Proof. exact @backlash_gufunc. Qed.
Print Assumptions C02_backlash.

(** two slices, the second operand broadcast (step 0) *)
Example C02_example :
  let mu := mem_of 0 8 [Fin 1; Fin 0; Fin 0; Fin 0; Fin 1; Fin 0]%R in
  let mv := mem_of 0 8 [Fin 0; Fin 1; Fin 0]%R in
  let mo := mem_of 0 8 [Fin 9; Fin 9; Fin 9; Fin 9; Fin 9; Fin 9; Fin 9]%R in
  let u j := if j =? 0 then (1, 0, 0)%R else (0, 1, 0)%R in
  (forall j, 0 <= j < 2 -> view mu (0 + j * 24) 8 (list3 (map3 Fin (u j)))) /\
  (forall j, 0 <= j < 2 -> view mv (0 + j * 0) 8 (list3 (map3 Fin (0, 1, 0)%R))) /\
  (forall j, 0 <= j < 2 -> writable mo (0 + j * 24) 8 3) /\
  (forall i j a, 0 <= i < 2 -> 0 <= j < 2 -> i <> j -> outside (0 + i * 24) 8 3 a \/ outside (0 + j * 24) 8 3 a).
Proof.
  cbv zeta. assert (C : forall j, 0 <= j < 2 -> j = 0 \/ j = 1) by lia. repeat split.
  - intros j Hj. destruct (C j Hj) as [-> | ->]; intros k Hk; cbn in Hk; do 3 (destruct k as [|k]; [reflexivity|]); lia.
  - intros j Hj. destruct (C j Hj) as [-> | ->]; intros k Hk; cbn in Hk; do 3 (destruct k as [|k]; [reflexivity|]); lia.
  - intros k Hk. destruct (C j H) as [-> | ->]; do 3 (destruct k as [|k]; [discriminate|]); lia.
  - left. lia.
  - intros i j a Hi Hj Hne. destruct (Z_lt_dec a 24) as [Ha|Ha].
    + assert (H : i = 1 \/ j = 1) by lia. destruct H as [-> | ->]; [left|right]; intros k Hk; lia.
    + assert (H : i = 0 \/ j = 0) by lia. destruct H as [-> | ->]; [left|right]; intros k Hk; lia.
Qed.

(** ** C54: type signatures *)
Theorem C54_roundtrip :
  forall l,
  source_ok l ->
   exists uts result, classify_typenames (map ts_text l) = Some (uts, result) /\
     mapM (fun tpl => var_codes tpl result) (emitted_templates uts) = Some (map ts_codes l).
Proof. exact @classify_roundtrip. Qed.
Print Assumptions C54_roundtrip.

(** the i-th loop of a ufunc implements the i-th row of its type codes *)
Theorem C54_tables :
  forall same sources,
  forall k,
   Forall (fun l => Forall no_dash l /\ source_ok (supported same l)) sources ->
   funcs_table same k (map (map ts_text) sources) = Some (table same k sources) /\
   typecodes_table same k (map (map ts_text) sources) = table same k sources.
Proof. exact @tables_agree. Qed.
Print Assumptions C54_tables.

Theorem C54_loop_names :
  forall core a b n,
  concrete_loop_function_name core a = Some n -> concrete_loop_function_name core b = Some n -> a = b.
Proof. exact @loop_names_distinct. Qed.
Print Assumptions C54_loop_names.

(** what [source_ok] excludes does go wrong *)
Theorem C54_duplicate_refuted :
  exists sources, length sources = 1%nat /\
   exists f, funcs_table false 0 (map (map ts_text) sources) = Some f /\
     length f <> length (typecodes_table false 0 (map (map ts_text) sources)).
Proof. exact @duplicate_refuted. Qed.
Print Assumptions C54_duplicate_refuted.

Theorem C54_only_long_refuted :
  exists sources, Forall source_ok sources /\
   exists f, funcs_table true 0 (map (map ts_text) sources) = Some f /\
     (length f > length (typecodes_table true 0 (map (map ts_text) sources)))%nat.
Proof. exact @only_long_refuted. Qed.
Print Assumptions C54_only_long_refuted.

Theorem C54_object_name_refuted :
  exists codes n, concrete_loop_function_name (S_ "core") codes = Some n /\ In "*"%char n.
Proof. exact @object_name_refuted. Qed.
Print Assumptions C54_object_name_refuted.

Example C54_example :
  source_ok [(S_ "ii?", S_ "fp"); (S_ "ff?", S_ "fp"); (S_ "dd?", S_ "dp"); (S_ "gg?", S_ "gp")] /\
  classify_typenames [S_ "ii?->fp"; S_ "ff?->fp"; S_ "dd?->dp"; S_ "gg?->gp"]
  = Some ([S_ "ifdg"; S_ "ffdg"], [inr 0%nat; inr 0%nat; inl "?"%char; inr 1%nat; inl "p"%char]) /\
  emitted_templates [S_ "ifdg"; S_ "ffdg"] = [S_ "if"; S_ "ff"; S_ "dd"; S_ "gg"] /\
  concrete_loop_function_name (S_ "core") (S_ "if") = Some (S_ "loop_core_int_float").
Proof.
  split; [|repeat split; vm_compute; reflexivity]. split; [discriminate|]. split; [|split].
  - repeat (apply Forall_cons; [unfold no_dash, ts_codes; cbn; intuition discriminate|]). apply Forall_nil.
  - exists 5%nat. repeat (apply Forall_cons; [reflexivity|]). apply Forall_nil.
  - cbn. repeat (apply NoDup_cons; [cbn; intuition discriminate|]). apply NoDup_nil.
Qed.

(** ** C56: the generated check of the core dimensions *)
Theorem C56_nonzero_coredims :
  forall g t names size,
  spells g t ->
   Forall (fun n => In (DName n) (all_dims g)) names ->
   exists dims si so idxs, parse_gufunc_signature t = Some (dims, si, so) /\ gen_nonzero dims names = Some idxs /\
     process_core_dims idxs (map size (distinct (all_dims g)))
     = Some (if existsb (fun n => size (DName n) =? 0) names then -1 else 0).
Proof. exact @nonzero_check. Qed.
Print Assumptions C56_nonzero_coredims.

Example C56_nonzero_example :
  exists dims si so idxs, parse_gufunc_signature (S_ "(n),()->(2)") = Some (dims, si, so) /\
    gen_nonzero dims [S_ "n"] = Some idxs /\ process_core_dims idxs [0; 2] = Some (-1) /\ process_core_dims idxs [4; 2] = Some 0.
Proof. eexists _, _, _, _. repeat split; vm_compute; reflexivity. Qed.

(** ** C57: exceptions in object arrays *)
(** within one slice nothing more is called after an operation has raised *)
Theorem C57_cross2_partial :
  forall O mu pu su mv pv sv mo po w mo' w',
  aerr w = false ->
   cross2_core_calc_object O mu pu su mv pv sv mo po w = Some (mo', w') -> stops_at_error O w w'.
Proof. exact @cross2_object_stops. Qed.
Print Assumptions C57_cross2_partial.

Theorem C57_cross3_partial :
  forall O mu pu su mv pv sv mo po so w mo' w',
  aerr w = false ->
   cross3_core_calc_object O mu pu su mv pv sv mo po so w = Some (mo', w') -> stops_at_error O w w'.
Proof. exact @cross3_object_stops. Qed.
Print Assumptions C57_cross3_partial.

(** but the generated loop goes on to the next slice *)
Theorem C57_loop_refuted :
  exists O mu mv mo m' w' dims si so,
    parse_gufunc_signature (S_ "(2),(2)->()") = Some (dims, si, so) /\
    run_genloop (cross2_object_entry O mu mv) [0; 0; 0] [2; 2] [16; 16; 8; 8; 8]
      (generate_concrete_loop dims (si ++ so)) (mo, mkAW [] false) = Some (m', w') /\
    aerr w' = true /\ ~ stops_at_error O (mkAW [] false) w'.
Proof. exact @object_loop_continues. Qed.
Print Assumptions C57_loop_refuted.

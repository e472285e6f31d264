(** * P_GenInst: elementwise loops, instances of the generated loops, object cores *)
From Coq Require Import ZArith Bool Ascii String List Lia Reals.
From Verif Require Import CSem CSemP Num NumP M_Int M_Stat M_Signal M_Obj M_Geom M_Gen M_Entry S_Signal S_Geom S_Gen
  P_Gen P_GenLoop P_GenTypes P_Relay P_Geom P_GeomR.
Import ListNotations.
Open Scope Z_scope.

(** ** elementwise loops *)
Section Ufunc.
  Context {T U : Type} (f : list T -> M U) (d : T).
  Lemma load_cols N j ins isteps cols : (j < N)%nat ->
    Forall2 (fun x c => length c = N /\ view (fst (fst x)) (snd (fst x)) (snd x) c) (combine ins isteps) cols ->
    length isteps = length ins ->
    mapM (fun mp => load (fst (fst mp)) (snd mp)) (combine ins (map (fun x => snd (fst x) + Z.of_nat j * snd x) (combine ins isteps)))
    = Some (args_at d cols j).
  Proof.
    intro Hj. revert isteps cols. induction ins as [|[m p] ins IH]; intros isteps cols H2 HL.
    - cbn in *. inversion H2. reflexivity.
    - destruct isteps as [|s isteps]; [discriminate|]. cbn [combine] in *.
      inversion H2 as [|? c ? cols' [Hc V] H2']; subst. cbn [map combine mapM]. cbn [fst snd] in *.
      unfold load at 1. rewrite (V j) by lia. rewrite (nth_error_nth' c d) by lia. cbn [bind].
      rewrite (IH isteps cols' H2') by (cbn in HL; lia). reflexivity.
  Qed.
  Lemma add_ptrs_ins j (ins : list (mem T * Z)) : forall isteps, length isteps = length ins ->
    add_ptrs (map (fun x => snd (fst x) + j * snd x) (combine ins isteps)) isteps
    = map (fun x => snd (fst x) + (j + 1) * snd x) (combine ins isteps).
  Proof.
    unfold add_ptrs. induction ins as [|x ins IH]; intros [|s isteps] HL; try discriminate; [reflexivity|].
    cbn [combine map]. f_equal; [cbn [fst snd]; ring|]. apply IH. cbn in HL. lia.
  Qed.
  Theorem ufunc_loop_writes (F : list T -> U) ins isteps cols (N : nat) pout ostep out :
    Z.of_nat N <= INT_MAX -> length isteps = length ins ->
    Forall2 (fun x c => length c = N /\ view (fst (fst x)) (snd (fst x)) (snd x) c) (combine ins isteps) cols ->
    (forall j, (j < N)%nat -> f (args_at d cols j) = Some (F (args_at d cols j))) ->
    writable out pout ostep N ->
    writes (ufunc_loop f ins pout (Z.of_nat N) isteps ostep out) out pout ostep
      (map (fun j => F (args_at d cols j)) (seq 0 N)).
  Proof.
    intros HN HL H2 Hf [Ho Hs]. unfold ufunc_loop, int_for_each.
    destruct (Z.leb_spec (Z.of_nat N) INT_MAX) as [_|C]; [|lia]. unfold for_each. rewrite Z.sub_0_r, Nat2Z.id.
    set (body := fun j st => _).
    assert (H : forall q k (out : mem U), (k + q = N)%nat -> (forall i, (i < N)%nat -> out (pout + Z.of_nat i * ostep) <> None) ->
      iter_from q (Z.of_nat k) body (map (fun x => snd (fst x) + Z.of_nat k * snd x) (combine ins isteps), pout + Z.of_nat k * ostep, out)
      = Some (map (fun x => snd (fst x) + Z.of_nat N * snd x) (combine ins isteps), pout + Z.of_nat N * ostep,
              upds out pout ostep (Z.of_nat k) (map (fun j => F (args_at d cols j)) (seq k q)))).
    { induction q as [|q IH]; intros k m Hk Hm.
      - replace N with k by lia. reflexivity.
      - cbn [iter_from seq map upds]. unfold body at 1.
        rewrite (load_cols N k ins isteps cols) by (lia || assumption). cbn [bind].
        rewrite Hf by lia. cbn [bind].
        assert (ES : store m (pout + Z.of_nat k * ostep) (F (args_at d cols k)) = Some (upd m (pout + Z.of_nat k * ostep) (F (args_at d cols k)))).
        { apply (set_upd m pout ostep (Z.of_nat k)). apply Hm. lia. }
        rewrite ES. cbn [bind ret]. rewrite add_ptrs_ins by exact HL.
        replace (Z.of_nat k + 1) with (Z.of_nat (S k)) by lia.
        replace (pout + Z.of_nat k * ostep + ostep) with (pout + Z.of_nat (S k) * ostep) by lia.
        rewrite IH.
        + reflexivity.
        + lia.
        + intros i Hi. unfold upd. destruct (_ =? _); [discriminate|]. apply Hm, Hi. }
    assert (E0 : map snd ins = map (fun x => snd (fst x) + Z.of_nat 0 * snd x) (combine ins isteps)).
    { clear - HL. revert isteps HL. induction ins as [|x ins IH]; intros [|s isteps] HL; try discriminate; [reflexivity|].
      cbn [map combine]. f_equal; [cbn [fst snd]; lia|]. apply IH. cbn in HL. lia. }
    pose proof (H N O out eq_refl Ho) as HH. rewrite <- E0 in HH. change (Z.of_nat 0) with 0 in HH. rewrite Z.mul_0_l, Z.add_0_r in HH.
    rewrite HH. cbn [bind ret snd]. eexists. split; [reflexivity|].
    apply upds_wrote. rewrite map_length, seq_length. exact Hs.
  Qed.
End Ufunc.

(** ** the generated loop, slice by slice *)
Theorem generated_slices {K : Type} {T : K -> Type} g t N size ops
    (core : list cval -> @outputs K T -> M (@outputs K T))
    (cell : Z -> K -> Z -> Prop) (val : Z -> forall k, Z -> T k) (dec : forall j k a, {cell j k a} + {~ cell j k a}) st :
  spells g t -> ~ In (DName (S_ "j")) (all_dims g) ->
  (forall n, In (DNum n) (all_dims g) -> size (DNum n) = n) ->
  Forall2 fits (operands g) ops -> 0 <= N <= INT_MAX ->
  (forall j st, 0 <= j < N -> allocated st (cell j) -> fills (core (call_args g size ops j) st) st (cell j) (val j)) ->
  (forall i j k a, 0 <= i < N -> 0 <= j < N -> cell i k a -> cell j k a -> i = j) ->
  (forall j, 0 <= j < N -> allocated st (cell j)) ->
  exists dims si so, parse_gufunc_signature t = Some (dims, si, so) /\
    exists st', run_genloop core (np_args ops) (np_dimensions g N size) (np_steps ops)
        (generate_concrete_loop dims (si ++ so)) st = Some st' /\
      (forall j k a, 0 <= j < N -> cell j k a -> st' k a = Some (val j k a)) /\
      (forall k a, (forall j, 0 <= j < N -> ~ cell j k a) -> st' k a = st k a).
Proof.
  intros Hs Hj Hsz Hf HN Hc Hd Ha. destruct (generated_calls g t N size ops Hs Hj Hsz Hf HN) as (dims & si & so & E & HR).
  exists dims, si, so. split; [exact E|]. rewrite HR. apply fills_in_order; auto. lia.
Qed.

(** ** signatures of the package *)
Ltac spell := repeat first
  [ apply Forall2_nil
  | apply Forall2_cons
  | apply sp_name; cbn; intuition
  | eapply (sp_num _ _); [apply (num1 _ _ eq_refl)|cbn; lia] ].

Definition sig_backlash : gsig := mkSig [[DName (S_ "n")]; []; []] [[DName (S_ "n")]].
Lemma spells_backlash : spells sig_backlash (S_ "(n),(),() -> (n)").
Proof.
  split; [discriminate|]. split; [discriminate|]. exists [S_ "(n)"; S_ "()"; S_ "()"], [S_ "(n)"].
  split; [|split; [|reflexivity]].
  - apply Forall2_cons; [exists [S_ "n"]; split; [|reflexivity]; spell|].
    apply Forall2_cons; [exists []; split; [|reflexivity]; spell|].
    apply Forall2_cons; [exists []; split; [|reflexivity]; spell|]. apply Forall2_nil.
  - apply Forall2_cons; [exists [S_ "n"]; split; [|reflexivity]; spell|]. apply Forall2_nil.
Qed.
Definition sig_cross3 : gsig := mkSig [[DNum 3]; [DNum 3]] [[DNum 3]].
Lemma spells_cross3 : spells sig_cross3 (S_ "(3),(3)->(3)").
Proof.
  assert (H3 : spells_op [DNum 3] (S_ "(3)")).
  { exists [S_ "3"]. split; [|reflexivity]. apply Forall2_cons; [|apply Forall2_nil].
    apply sp_num; [|lia]. exact (num1 "3"%char 3 eq_refl). }
  split; [discriminate|]. split; [discriminate|]. exists [S_ "(3)"; S_ "(3)"], [S_ "(3)"].
  split; [|split; [|reflexivity]]; repeat (apply Forall2_cons; [exact H3|]); apply Forall2_nil.
Qed.
Definition sig_sos : gsig :=
  mkSig [[DName (S_ "m"); DNum 6]; [DName (S_ "n")]; [DName (S_ "m"); DNum 2]] [[DName (S_ "n")]; [DName (S_ "m"); DNum 2]].
Lemma spells_sos : spells sig_sos (S_ "(m,6), (n), (m,2) -> (n), (m,2)").
Proof.
  assert (H6 : spells_op [DName (S_ "m"); DNum 6] (S_ "(m,6)")).
  { exists [S_ "m"; S_ "6"]. split; [|reflexivity]. apply Forall2_cons; [apply sp_name; cbn; intuition|].
    apply Forall2_cons; [|apply Forall2_nil]. apply sp_num; [|lia]. exact (num1 "6"%char 6 eq_refl). }
  assert (H2 : spells_op [DName (S_ "m"); DNum 2] (S_ "(m,2)")).
  { exists [S_ "m"; S_ "2"]. split; [|reflexivity]. apply Forall2_cons; [apply sp_name; cbn; intuition|].
    apply Forall2_cons; [|apply Forall2_nil]. apply sp_num; [|lia]. exact (num1 "2"%char 2 eq_refl). }
  assert (Hn : spells_op [DName (S_ "n")] (S_ "(n)")).
  { exists [S_ "n"]. split; [|reflexivity]. apply Forall2_cons; [apply sp_name; cbn; intuition|apply Forall2_nil]. }
  split; [discriminate|]. split; [discriminate|]. exists [S_ "(m,6)"; S_ "(n)"; S_ "(m,2)"], [S_ "(n)"; S_ "(m,2)"].
  split; [|split; [|reflexivity]]; repeat (apply Forall2_cons; [assumption|]); apply Forall2_nil.
Qed.

(** ** cross3 through the generated loop *)
Theorem cross3_gufunc N du dv dout su sv so mu pu mv pv mo po (u v : Z -> R * R * R) :
  0 <= N <= INT_MAX ->
  (forall j, 0 <= j < N -> view mu (pu + j * du) su (list3 (map3 Fin (u j)))) ->
  (forall j, 0 <= j < N -> view mv (pv + j * dv) sv (list3 (map3 Fin (v j)))) ->
  (forall j, 0 <= j < N -> writable mo (po + j * dout) so 3) ->
  (forall i j a, 0 <= i < N -> 0 <= j < N -> i <> j -> outside (po + i * dout) so 3 a \/ outside (po + j * dout) so 3 a) ->
  exists dims si sh m', parse_gufunc_signature (S_ "(3),(3)->(3)") = Some (dims, si, sh) /\
    run_genloop (cross3_entry (f_mul earith) (f_sub earith) mu mv) [pu; pv; po] [N; 3] [du; dv; dout; su; sv; so]
      (generate_concrete_loop dims (si ++ sh)) mo = Some m' /\
    (forall j, 0 <= j < N -> view m' (po + j * dout) so (list3 (map3 Fin (cross3R (u j) (v j))))) /\
    (forall a, (forall j, 0 <= j < N -> outside (po + j * dout) so 3 a) -> m' a = mo a).
Proof.
  intros HN Hu Hv Ho Hd.
  set (ops := [mkOp pu du [su]; mkOp pv dv [sv]; mkOp po dout [so]]).
  set (size := fun d : dim => match d with DNum n => n | DName _ => 0 end).
  destruct (generated_calls sig_cross3 _ N size ops spells_cross3) as (dims & si & sh & E & HR).
  - cbn. intuition discriminate.
  - intros n _. reflexivity.
  - unfold ops, sig_cross3, operands. cbn. repeat (apply Forall2_cons; [reflexivity|]). apply Forall2_nil.
  - exact HN.
  - exists dims, si, sh. specialize (HR (mem ER) (cross3_entry (f_mul earith) (f_sub earith) mu mv) mo).
    destruct (writes_in_order (cross3_entry (f_mul earith) (f_sub earith) mu mv) (call_args sig_cross3 size ops)
       po dout so 3 (fun j => list3 (map3 Fin (cross3R (u j) (v j)))) N mo) as (m' & E' & V & F).
    + lia.
    + intros j m Hj Hw. apply cross3_exact; auto.
    + intros j _. destruct (cross3R (u j) (v j)) as [[? ?] ?]. reflexivity.
    + exact Ho.
    + exact Hd.
    + exists m'. split; [exact E|]. split; [|auto]. rewrite <- E'. rewrite <- HR. reflexivity.
Qed.

(** ** backlash through the generated loop: any number type *)
Theorem backlash_gufunc {T} (A : arith T) N n dx dd di dout sx so mx px md pd mi pi mo po (x : Z -> list T) (w init : Z -> T) :
  0 <= N <= INT_MAX ->
  (forall j, 0 <= j < N -> length (x j) = n /\ view mx (px + j * dx) sx (x j) /\ md (pd + j * dd) = Some (w j) /\ mi (pi + j * di) = Some (init j)) ->
  (forall j, 0 <= j < N -> writable mo (po + j * dout) so n) ->
  (forall i j a, 0 <= i < N -> 0 <= j < N -> i <> j -> outside (po + i * dout) so n a \/ outside (po + j * dout) so n a) ->
  exists dims si sh m', parse_gufunc_signature (S_ "(n),(),() -> (n)") = Some (dims, si, sh) /\
    run_genloop (backlash_entry A mx md mi) [px; pd; pi; po] [N; Z.of_nat n] [dx; dd; di; dout; sx; so]
      (generate_concrete_loop dims (si ++ sh)) mo = Some m' /\
    (forall j, 0 <= j < N -> exists y,
       writes (backlash_core A (Z.of_nat n) mx (px + j * dx) sx (w j) (init j) mo (po + j * dout) so) mo (po + j * dout) so y /\
       length y = n /\ view m' (po + j * dout) so y) /\
    (forall a, (forall j, 0 <= j < N -> outside (po + j * dout) so n a) -> m' a = mo a).
Proof.
  intros HN Hin Ho Hd.
  set (ops := [mkOp px dx [sx]; mkOp pd dd []; mkOp pi di []; mkOp po dout [so]]).
  set (size := fun d : dim => match d with DNum n => n | DName _ => Z.of_nat n end).
  destruct (generated_calls sig_backlash _ N size ops spells_backlash) as (dims & si & sh & E & HR).
  - cbn. intuition discriminate.
  - intros k _. reflexivity.
  - unfold ops, sig_backlash, operands. cbn. repeat (apply Forall2_cons; [reflexivity|]). apply Forall2_nil.
  - exact HN.
  - exists dims, si, sh. specialize (HR (mem T) (backlash_entry A mx md mi) mo).
    set (f := fun j => bl_out A (a_div A (w j) (a_ofZ A 2)) (init j) (x j)).
    assert (Hlen : forall j, 0 <= j < N -> length (f j) = n).
    { intros j Hj. unfold f, bl_out. rewrite mapacc_length. apply Hin, Hj. }
    assert (HW : forall j m, 0 <= j < N -> writable m (po + j * dout) so n ->
      writes (backlash_core A (Z.of_nat n) mx (px + j * dx) sx (w j) (init j) m (po + j * dout) so) m (po + j * dout) so (f j)).
    { intros j m Hj Hw. destruct (Hin j Hj) as (Hl & V & _ & _). eexists. split.
      - rewrite <- Hl. apply backlash_core_eq; [exact V|]. rewrite Hl. exact Hw.
      - apply upds_wrote. fold (f j). rewrite (Hlen j Hj). apply Hw. }
    destruct (writes_in_order (backlash_entry A mx md mi) (call_args sig_backlash size ops) po dout so n f N mo) as (m' & E' & V & F).
    + lia.
    + intros j m Hj Hw. destruct (Hin j Hj) as (_ & _ & Ed & Ei).
      cbv [call_args sizes_passed sig_backlash all_dims operands ins outs ops size distinct slice_passed strides_passed
           concat map app backlash_entry o_base o_step o_strides List.remove].
      cbn. unfold load. rewrite Ed, Ei. cbn [bind]. apply HW; assumption.
    + exact Hlen.
    + exact Ho.
    + exact Hd.
    + exists m'. split; [exact E|]. split; [rewrite <- E', <- HR; reflexivity|]. split; [|exact F].
      intros j Hj. exists (f j). split; [apply HW; auto|]. split; [apply Hlen, Hj|apply V, Hj].
Qed.

(** ** object cores stop at the first exception *)
Lemma pynum_stops O op a b w : aerr w = false ->
  match pynum O op a b w with
  | (Some _, w') => aerr w' = false /\ ahist w' = (op, a, b) :: ahist w /\ O (ahist w') <> None
  | (None, w') => aerr w' = true /\ ahist w' = (op, a, b) :: ahist w /\ O (ahist w') = None
  end.
Proof. intro H. unfold pynum. destruct (O ((op, a, b) :: ahist w)) eqn:E; cbn; rewrite ?E; repeat split; try assumption; discriminate. Qed.
Lemma pynum_suc O h0 op a b w : aerr w = false -> succeeded O h0 (ahist w) ->
  match pynum O op a b w with
  | (Some _, w') => aerr w' = false /\ succeeded O h0 (ahist w')
  | (None, w') => aerr w' = true /\ exists c h, ahist w' = c :: h /\ succeeded O h0 h /\ O (c :: h) = None
  end.
Proof.
  intros He Hs. pose proof (pynum_stops O op a b w He) as H. destruct (pynum O op a b w) as [[r|] w'].
  - destruct H as (H1 & H2 & H3). split; [exact H1|]. rewrite H2 in *. apply suc_step; assumption.
  - destruct H as (H1 & H2 & H3). split; [exact H1|]. rewrite H2 in *. exists (op, a, b), (ahist w). auto.
Qed.
Lemma det2_suc O h0 a b c d w : aerr w = false -> succeeded O h0 (ahist w) ->
  match det2 O a b c d w with
  | (Some _, w') => aerr w' = false /\ succeeded O h0 (ahist w')
  | (None, w') => aerr w' = true /\ exists c h, ahist w' = c :: h /\ succeeded O h0 h /\ O (c :: h) = None
  end.
Proof.
  intros He Hs. unfold det2. pose proof (pynum_suc O h0 OMul a d w He Hs) as H1. destruct (pynum O OMul a d w) as [[r1|] w1]; [|exact H1].
  destruct H1 as [He1 Hs1]. pose proof (pynum_suc O h0 OMul b c w1 He1 Hs1) as H2. destruct (pynum O OMul b c w1) as [[r2|] w2]; [|exact H2].
  destruct H2 as [He2 Hs2]. exact (pynum_suc O h0 OSub r1 r2 w2 He2 Hs2).
Qed.
Theorem cross2_object_stops O mu pu su mv pv sv mo po w mo' w' : aerr w = false ->
  cross2_core_calc_object O mu pu su mv pv sv mo po w = Some (mo', w') -> stops_at_error O w w'.
Proof.
  intros He H. unfold cross2_core_calc_object in H.
  destruct (get mu pu su 0) as [u0|]; [|discriminate]. destruct (get mu pu su 1) as [u1|]; [|discriminate].
  destruct (get mv pv sv 0) as [v0|]; [|discriminate]. destruct (get mv pv sv 1) as [v1|]; [|discriminate]. cbn [bind] in H.
  pose proof (det2_suc O (ahist w) u0 u1 v0 v1 w He (suc_refl _ _)) as HD. destruct (det2 O u0 u1 v0 v1 w) as [[r|] w1].
  - destruct (store mo po r); [|discriminate]. cbn [bind ret] in H. injection H as <- <-. left. exact HD.
  - injection H as <- <-. right. exact HD.
Qed.
Theorem cross3_object_stops O mu pu su mv pv sv mo po so w mo' w' : aerr w = false ->
  cross3_core_calc_object O mu pu su mv pv sv mo po so w = Some (mo', w') -> stops_at_error O w w'.
Proof.
  intros He H. unfold cross3_core_calc_object in H.
  destruct (get mu pu su 0) as [u0|]; [|discriminate]. destruct (get mu pu su 1) as [u1|]; [|discriminate]. destruct (get mu pu su 2) as [u2|]; [|discriminate].
  destruct (get mv pv sv 0) as [v0|]; [|discriminate]. destruct (get mv pv sv 1) as [v1|]; [|discriminate]. destruct (get mv pv sv 2) as [v2|]; [|discriminate].
  cbn [bind] in H.
  pose proof (det2_suc O (ahist w) u1 u2 v1 v2 w He (suc_refl _ _)) as HD. destruct (det2 O u1 u2 v1 v2 w) as [[r|] w1];
    [|injection H as <- <-; right; exact HD]. destruct HD as [He1 Hs1].
  pose proof (det2_suc O (ahist w) u2 u0 v2 v0 w1 He1 Hs1) as HD. destruct (det2 O u2 u0 v2 v0 w1) as [[r2|] w2];
    [|injection H as <- <-; right; exact HD]. destruct HD as [He2 Hs2].
  pose proof (det2_suc O (ahist w) u0 u1 v0 v1 w2 He2 Hs2) as HD. destruct (det2 O u0 u1 v0 v1 w2) as [[r3|] w3];
    [|injection H as <- <-; right; exact HD].
  destruct (set mo po so 0 r); [|discriminate]. cbn [bind] in H. destruct (set m po so 1 r2); [|discriminate]. cbn [bind] in H.
  destruct (set m0 po so 2 r3); [|discriminate]. cbn [bind ret] in H. injection H as <- <-. left. exact HD.
Qed.

(** but the generated loop goes on to the next slice *)
Theorem object_loop_continues :
  exists O mu mv mo m' w' dims si so,
    parse_gufunc_signature (S_ "(2),(2)->()") = Some (dims, si, so) /\
    run_genloop (cross2_object_entry O mu mv) [0; 0; 0] [2; 2] [16; 16; 8; 8; 8]
      (generate_concrete_loop dims (si ++ so)) (mo, mkAW [] false) = Some (m', w') /\
    aerr w' = true /\ ~ stops_at_error O (mkAW [] false) w'.
Proof.
  exists (fun h => match length h with 1%nat => None | _ => Some 7 end), (mem_of 0 8 [1; 2; 3; 4]), (mem_of 0 8 [1; 2; 3; 4]), (mem_of 0 8 [0; 0]).
  eexists _, _, _, _, _. split; [vm_compute; reflexivity|]. split; [vm_compute; reflexivity|]. split; [reflexivity|].
  intros [[H _]|(_ & c & h & E & Hs & HO)]; [discriminate|]. injection E as <- <-. vm_compute in HO. discriminate.
Qed.

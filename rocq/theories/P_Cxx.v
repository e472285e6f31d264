(** Proofs about the generator of elementwise ufuncs and the docstring macros. *)
From Coq Require Import ZArith Lia Bool Ascii String List FinFun.
From Verif Require Import CSem M_Stat M_Gen M_Types M_Cxx S_Cxx P_Gen P_Template.
Import ListNotations.
Open Scope list_scope.

(** ** splitting *)
Lemma split_go_ne sep k cur s : split_go sep k cur s <> [].
Proof. revert k cur. induction s as [|c s IH]; intros k cur; cbn; [discriminate|]. destruct k; [|apply IH]. destruct (prefixb sep (c :: s)); [discriminate|apply IH]. Qed.
Lemma py_join_cons sep x l : l <> [] -> py_join sep (x :: l) = x ++ sep ++ py_join sep l.
Proof. destruct l as [|y l]; [congruence|]. intros _. cbn. rewrite <- app_assoc. reflexivity. Qed.
Lemma join_split_go h sep : forall n s cur, (length s <= n)%nat ->
  py_join (h :: sep) (split_go (h :: sep) 0 cur s) = rev cur ++ s.
Proof.
  induction n as [|n IH]; intros s cur L.
  - destruct s; [cbn; now rewrite !app_nil_r|cbn in L; lia].
  - destruct s as [|c s]; [cbn; now rewrite !app_nil_r|]. cbn in L.
    cbn [split_go]. destruct (prefixb (h :: sep) (c :: s)) eqn:P.
    + apply prefixb_true in P as [r P]. injection P as -> ->.
      cbn [length]. replace (S (length sep) - 1)%nat with (length sep) by lia. rewrite split_skip.
      rewrite py_join_cons by apply split_go_ne. rewrite app_length in L. rewrite IH by lia. reflexivity.
    + rewrite IH by lia. cbn [rev]. now rewrite <- app_assoc.
Qed.
Lemma join_split_str h sep s : py_join (h :: sep) (split_on (h :: sep) s) = s.
Proof. unfold split_on. now rewrite (join_split_go h sep (length s)). Qed.

Lemma split_sig_eq t i o : split_sig t = Some (i, o) -> t = i ++ S_ "->" ++ [o] /\ typesig_to_ext t = i ++ S_ "_" ++ [o].
Proof.
  unfold split_sig, typesig_to_ext. destruct (split_on (S_ "->") t) as [|a [|b [|c l]]] eqn:E; try discriminate.
  2: { destruct b as [|? [|]]; discriminate. }
  destruct b as [|o' [|]]; try discriminate. intros H. injection H as -> ->. split; [|reflexivity].
  rewrite <- (join_split_str "-"%char [">"%char] t). change ["-"%char; ">"%char] with (S_ "->"). rewrite E. reflexivity.
Qed.

Lemma known_cases (P : ascii -> Prop) : P "f"%char -> P "d"%char -> P "g"%char -> P "F"%char -> P "D"%char -> P "G"%char ->
  forall c, known c -> P c.
Proof. intros ? ? ? ? ? ? c H. unfold known in H. cbn in H. repeat (destruct H as [<-|H]; [assumption|]). destruct H. Qed.

Lemma split_sig_known i o : Forall known i -> split_sig (i ++ S_ "->" ++ [o]) = Some (i, o) \/ ~ known o.
Proof.
  intros H. destruct (Ascii.eqb o "-"%char) eqn:Eo.
  { right. apply Ascii.eqb_eq in Eo. subst. intros K. unfold known in K. cbn in K. repeat (destruct K as [K|K]; [discriminate|]). exact K. }
  left. unfold split_sig.
  assert (E : split_on (S_ "->") (i ++ S_ "->" ++ [o]) = [i; [o]]).
  { change (i ++ S_ "->" ++ [o]) with (S_Gen.join (S_ "->") [i; [o]]). apply split_join; [discriminate|].
    constructor; [|constructor; [|constructor]].
    - intros K. rewrite Forall_forall in H. specialize (H _ K). revert H. unfold known. cbn. intros H. repeat (destruct H as [H|H]; [discriminate|]). exact H.
    - intros [->|[]]. cbn in Eo. discriminate. }
  rewrite E. reflexivity.
Qed.

Lemma ctype_known c s : typechar_to_ctype c = Some s -> known c.
Proof.
  unfold typechar_to_ctype. cbn [find fst snd].
  repeat match goal with |- context [Ascii.eqb ?a c] => destruct (Ascii.eqb a c) eqn:?; [match goal with E : Ascii.eqb _ c = true |- _ => apply Ascii.eqb_eq in E; subst; intros _; unfold known; cbn; tauto end|] end.
  discriminate.
Qed.
Lemma known_ctype c : known c -> exists s d, typechar_to_ctype c = Some s /\ dt_of_char c = Some d /\ cxx_type s = Some d.
Proof. revert c. apply known_cases; eexists; eexists; vm_compute; repeat split; reflexivity. Qed.
Lemma known_npy c : known c -> exists s d, typechar_to_npy_type c = Some s /\ dt_of_char c = Some d /\ dt_of_code s = Some d.
Proof. revert c. apply known_cases; eexists; eexists; vm_compute; repeat split; reflexivity. Qed.
Lemma known_not_us c : known c -> c <> "_"%char.
Proof. revert c. apply known_cases; discriminate. Qed.

(** ** mapM *)
Lemma F2_length {A B} (R : A -> B -> Prop) l r : Forall2 R l r -> length l = length r.
Proof. induction 1; cbn; congruence. Qed.
Lemma mapM_F2 {A B} (f : A -> M B) : forall l r, mapM f l = Some r -> Forall2 (fun x y => f x = Some y) l r.
Proof.
  induction l as [|x l IH]; intros r H; cbn [mapM] in H; [injection H as <-; constructor|].
  destruct (f x) as [y|] eqn:E; [|discriminate]. cbn [bind] in H. destruct (mapM f l) as [r'|]; [|discriminate].
  injection H as <-. constructor; [exact E|]. apply IH. reflexivity.
Qed.
Lemma F2_mapM {A B} (f : A -> M B) : forall l r, Forall2 (fun x y => f x = Some y) l r -> mapM f l = Some r.
Proof. induction 1 as [|x y l r E H IH]; cbn; [reflexivity|]. rewrite E. cbn. rewrite IH. reflexivity. Qed.
Lemma mapM_ex {A B} (f : A -> M B) l : (forall x, In x l -> exists y, f x = Some y) -> exists r, mapM f l = Some r.
Proof.
  induction l as [|x l IH]; intros H; [eexists; reflexivity|]. destruct (H x) as [y E]; [left; reflexivity|].
  destruct IH as [r R]; [intros; apply H; right; assumption|]. cbn. rewrite E. cbn. rewrite R. eexists; reflexivity.
Qed.
Lemma F2_nth {A B} (R : A -> B -> Prop) l r : Forall2 R l r -> forall k x, nth_error l k = Some x -> exists y, nth_error r k = Some y /\ R x y.
Proof. induction 1 as [|a b l r Hab H IH]; intros [|k] x E; cbn in E |- *; try discriminate; [injection E as <-; eauto|]. apply IH. exact E. Qed.
Lemma F2_nth' {A B} (R : A -> B -> Prop) l r : Forall2 R l r -> forall k y, nth_error r k = Some y -> exists x, nth_error l k = Some x /\ R x y.
Proof. induction 1 as [|a b l r Hab H IH]; intros [|k] x E; cbn in E |- *; try discriminate; [injection E as <-; eauto|]. apply IH. exact E. Qed.

(** ** names *)
Lemma cut_us a a' b b' : ~ In "_"%char a -> ~ In "_"%char a' -> a ++ "_"%char :: b = a' ++ "_"%char :: b' -> a = a' /\ b = b'.
Proof.
  revert a'. induction a as [|x a IH]; intros [|y a'] H H' E; cbn in E.
  - injection E as ->. split; reflexivity.
  - injection E as <- _. exfalso. apply H'. left. reflexivity.
  - injection E as -> _. exfalso. apply H. left. reflexivity.
  - injection E as <- E. destruct (IH a') as [-> ->]; [intro; apply H; right; assumption|intro; apply H'; right; assumption|exact E|]. split; reflexivity.
Qed.
Lemma name_inj u u' i i' o o' : Forall known i -> Forall known i' ->
  u ++ S_ "_" ++ i ++ S_ "_" ++ [o] = u' ++ S_ "_" ++ i' ++ S_ "_" ++ [o'] -> u = u' /\ i = i' /\ o = o'.
Proof.
  intros H H' E.
  assert (N : forall l, Forall known l -> ~ In "_"%char (rev l)).
  { intros l K Q. apply in_rev in Q. rewrite Forall_forall in K. apply K in Q. apply known_not_us in Q. apply Q. reflexivity. }
  apply (f_equal (@rev ascii)) in E. rewrite !rev_app_distr in E. cbn in E. injection E as -> E.
  rewrite <- !app_assoc in E. cbn in E.
  apply cut_us in E; [|apply N; assumption|apply N; assumption]. destruct E as [E1 E2].
  split; [|split; [|reflexivity]]; [rewrite <- (rev_involutive u), E2|rewrite <- (rev_involutive i), E1]; apply rev_involutive.
Qed.

(** ** what one signature gives *)
Record sig_facts (f : func) (t : str) (i : str) (o : ascii) (ic : list str) (oc : str) : Prop := SF {
  sf_split : split_sig t = Some (i, o);
  sf_t : t = i ++ S_ "->" ++ [o];
  sf_ext : typesig_to_ext t = i ++ S_ "_" ++ [o];
  sf_in : mapM typechar_to_ctype i = Some ic;
  sf_out : typechar_to_ctype o = Some oc }.

Lemma concrete_facts f t C : concrete_cfunc f t = Some C -> exists i o ic oc, sig_facts f t i o ic oc /\
  C = mkC (ufuncname f ++ S_ "_" ++ i ++ S_ "_" ++ [o]) oc ic (cxxname f) (seq 0 (length i)).
Proof.
  unfold concrete_cfunc. destruct (split_sig t) as [[i o]|] eqn:E; [|discriminate]. cbn [bind].
  destruct (mapM typechar_to_ctype i) as [ic|] eqn:Ei; [|discriminate]. cbn [bind].
  destruct (typechar_to_ctype o) as [oc|] eqn:Eo; [|discriminate]. cbn [bind ret]. intros H. injection H as <-.
  pose proof (split_sig_eq _ _ _ E) as [E1 E2]. exists i, o, ic, oc. split; [constructor; assumption|]. rewrite E2. reflexivity.
Qed.
Lemma rev_seq_last n k l : rev (seq 0 n) = k :: l -> n = S k.
Proof.
  destruct n as [|n]; [discriminate|]. rewrite seq_S, rev_app_distr. cbn. intros H. injection H as <- _. reflexivity.
Qed.
Lemma loop_facts f t L : ufunc_loop_of f t = Some L -> exists i o ic oc, sig_facts f t i o ic oc /\ i <> [] /\
  L = mkL ((ufuncname f ++ S_ "_" ++ i ++ S_ "_" ++ [o]) ++ S_ "_loop")
          (map (fun p => (fst p, fst p, snd p)) (combine (seq 0 (length i)) ic))
          (length i, length i, oc) (ufuncname f ++ S_ "_" ++ i ++ S_ "_" ++ [o]) (seq 0 (length i)).
Proof.
  unfold ufunc_loop_of. destruct (split_sig t) as [[i o]|] eqn:E; [|discriminate]. cbn [bind].
  destruct (mapM typechar_to_ctype i) as [ic|] eqn:Ei; [|discriminate]. cbn [bind].
  destruct (typechar_to_ctype o) as [oc|] eqn:Eo; [|discriminate]. cbn [bind ret]. unfold upto_nat.
  destruct (rev (seq 0 (length i))) as [|k l] eqn:Ek; [discriminate|]. apply rev_seq_last in Ek.
  intros H. injection H as <-.
  pose proof (split_sig_eq _ _ _ E) as [E1 E2]. exists i, o, ic, oc. split; [constructor; assumption|].
  split; [intros ->; discriminate|]. rewrite E2, Ek. replace (k + 1)%nat with (S k) by lia.
  f_equal. rewrite <- !app_assoc. reflexivity.
Qed.
Lemma facts_known f t i o ic oc : sig_facts f t i o ic oc -> Forall known i /\ known o.
Proof.
  intros H. split; [|eapply ctype_known; exact (sf_out _ _ _ _ _ _ H)].
  pose proof (mapM_F2 _ _ _ (sf_in _ _ _ _ _ _ H)) as F. clear - F. induction F as [|a b l r E F IH]; constructor; [eapply ctype_known; exact E|exact IH].
Qed.

(** ** unique definitions *)
Lemma F2_split {A B} (R : A -> B -> Prop) a p b l : Forall2 R (a ++ p :: b) l ->
  exists a' x b', l = a' ++ x :: b' /\ Forall2 R a a' /\ R p x /\ Forall2 R b b'.
Proof.
  intros H. apply Forall2_app_inv_l in H as (a' & r & Ha & Hr & ->). inversion Hr as [|? x ? b' Hx Hb]; subst.
  exists a', x, b'. repeat split; assumption.
Qed.
Lemma sole_F2 {A B K} (R : A -> B -> Prop) (key : A -> K) (name : B -> str) ps l p :
  Forall2 R ps l -> NoDup (map key ps) -> In p ps ->
  (forall p x q y, R p x -> R q y -> name x = name y -> key p = key q) ->
  exists x, R p x /\ sole name l (name x) x.
Proof.
  intros HF HN Hp HI. apply in_split in Hp as (a & b & ->).
  apply F2_split in HF as (a' & x & b' & -> & Ha & Hx & Hb). exists x. split; [exact Hx|].
  exists a', b'. split; [reflexivity|]. split; [reflexivity|]. intros y Hy Ey.
  rewrite map_app in HN. cbn in HN. apply NoDup_remove_2 in HN. apply HN. rewrite <- map_app.
  assert (Hab : Forall2 R (a ++ b) (a' ++ b')) by (apply Forall2_app; assumption).
  apply In_nth_error in Hy as [n Hy]. destruct (F2_nth' _ _ _ Hab _ _ Hy) as (q & Hq & Rq).
  rewrite (HI p x q y Hx Rq (eq_sym Ey)). apply in_map. eapply nth_error_In; exact Hq.
Qed.

Definition pairs (funcs : list func) : list (func * str) := flat_map (fun f => map (pair f) (types f)) funcs.
Definition key (p : func * str) : str * str := (ufuncname (fst p), snd p).

Lemma pairs_nodup funcs : proper funcs -> NoDup (map key (pairs funcs)).
Proof.
  intros [HN HT]. induction funcs as [|f funcs IH]; [constructor|].
  cbn [pairs flat_map]. rewrite map_app. cbn in HN. inversion HN as [|? ? Hf HN']; subst.
  assert (Hk : map key (map (pair f) (types f)) = map (pair (ufuncname f)) (types f)) by (rewrite map_map; reflexivity).
  assert (D : NoDup (map key (map (pair f) (types f)))).
  { rewrite Hk. apply FinFun.Injective_map_NoDup; [intros x y E; congruence|]. apply HT. left. reflexivity. }
  assert (D2 : NoDup (map key (pairs funcs))) by (apply IH; [assumption|intros g Hg; apply HT; right; exact Hg]).
  assert (X : forall x, In x (map key (map (pair f) (types f))) -> ~ In x (map key (pairs funcs))).
  { intros x Hx Hy. rewrite Hk in Hx. apply in_map_iff in Hx as (t & <- & _). apply in_map_iff in Hy as ([g t'] & E & Hg).
    unfold pairs in Hg. apply in_flat_map in Hg as (g' & Hg' & Hg). apply in_map_iff in Hg as (t'' & E' & _). injection E' as -> ->.
    unfold key in E. cbn in E. injection E as E _. apply Hf. rewrite <- E. apply in_map. exact Hg'. }
  revert D X. fold (pairs funcs). generalize (map key (map (pair f) (types f))) as l. induction l as [|x l IHl]; intros D X; [exact D2|].
  cbn. inversion D; subst. constructor.
  - intros Q. apply in_app_or in Q as [Q|Q]; [contradiction|]. apply (X x); [left; reflexivity|exact Q].
  - apply IHl; [assumption|]. intros y Hy. apply X. right. exact Hy.
Qed.

Lemma F2_pairs {B} (g : func -> str -> M B) funcs rs :
  Forall2 (fun f r => mapM (g f) (types f) = Some r) funcs rs ->
  Forall2 (fun p y => g (fst p) (snd p) = Some y) (pairs funcs) (concat rs).
Proof.
  induction 1 as [|f r funcs rs E H IH]; [constructor|]. cbn [pairs flat_map concat]. apply Forall2_app; [|exact IH].
  apply mapM_F2 in E. clear - E. induction E; cbn; constructor; assumption.
Qed.

Lemma gen_ufunc_facts f u : gen_ufunc f = Some u -> exists loops rows t0 ts,
  mapM (ufunc_loop_of f) (types f) = Some loops /\ mapM type_row (types f) = Some rows /\ types f = t0 :: ts /\
  u_name u = ufuncname f /\ u_loops u = loops /\ u_rows u = rows /\
  u_funcs u = map (fun t => ufuncname f ++ S_ "_" ++ typesig_to_ext t ++ S_ "_loop") (types f) /\
  u_ndata u = length (types f) /\ u_ntypes u = length (types f) /\ u_nin u = arity t0.
Proof.
  unfold gen_ufunc. destruct (mapM (ufunc_loop_of f) (types f)) as [loops|] eqn:E1; [|discriminate]. cbn [bind].
  destruct (mapM type_row (types f)) as [rows|] eqn:E2; [|discriminate]. cbn [bind].
  destruct (types f) as [|t0 ts] eqn:Et; [discriminate|].
  destruct (split_on (S_ "->") t0) as [|i0 r0] eqn:Es; [discriminate|]. cbn [bind ret]. intros H. injection H as <-.
  exists loops, rows, t0, ts. cbn. repeat split; try reflexivity.
  pose proof (mapM_F2 _ _ _ E1) as F. inversion F as [|? L ? ? HL ?]; subst. apply loop_facts in HL as (i & o & ic & oc & HF & _ & _).
  pose proof (sf_split _ _ _ _ _ _ HF) as S1. unfold split_sig in S1. rewrite Es in S1.
  destruct r0 as [|[|? [|]] [|]]; try discriminate. injection S1 as -> ->.
  rewrite (sf_t _ _ _ _ _ _ HF). unfold arity. rewrite !app_length. cbn. lia.
Qed.

Lemma concat_len {A} (rows : list (list A)) n : Forall (fun r => length r = n) rows -> length (concat rows) = (length rows * n)%nat.
Proof. induction 1 as [|r rows E H IH]; cbn; [reflexivity|]. rewrite app_length, E, IH. reflexivity. Qed.
Lemma concat_nth {A} (rows : list (list A)) n : Forall (fun r => length r = n) rows -> forall k r i, nth_error rows k = Some r ->
  (i < n)%nat -> nth_error (concat rows) (k * n + i) = nth_error r i.
Proof.
  induction 1 as [|r0 rows E H IH]; intros [|k] r i Er Hi; cbn in Er; try discriminate.
  - injection Er as ->. cbn. apply nth_error_app1. lia.
  - cbn. rewrite nth_error_app2 by lia. rewrite <- (IH k r i Er Hi). f_equal. lia.
Qed.

Definition dty (c : ascii) : dt := match dt_of_char c with Some d => d | None => Tbool end.

Lemma type_row_facts f t i o ic oc r : sig_facts f t i o ic oc -> type_row t = Some r ->
  Forall2 (fun c code => dt_of_code code = Some (dty c)) (i ++ [o]) r.
Proof.
  intros HF. destruct (facts_known _ _ _ _ _ _ HF) as [Ki Ko]. unfold type_row. rewrite (sf_split _ _ _ _ _ _ HF). cbn [bind].
  destruct (mapM typechar_to_npy_type i) as [a|] eqn:Ea; [|discriminate]. cbn [bind].
  destruct (typechar_to_npy_type o) as [b|] eqn:Eb; [|discriminate]. cbn [bind ret]. intros H. injection H as <-.
  assert (Q : forall c s, known c -> typechar_to_npy_type c = Some s -> dt_of_code s = Some (dty c)).
  { intros c s Kc Ec. destruct (known_npy c Kc) as (s' & d & E1 & E2 & E3). rewrite E1 in Ec. injection Ec as <-. unfold dty. rewrite E2. exact E3. }
  apply Forall2_app.
  - apply mapM_F2 in Ea. clear - Ea Ki Q. induction Ea as [|x y l r E H IH]; constructor; inversion Ki; subst; auto.
  - constructor; [auto|constructor].
Qed.
Lemma ctype_dty c s : typechar_to_ctype c = Some s -> cxx_type s = Some (dty c).
Proof.
  intros E. destruct (known_ctype c (ctype_known _ _ E)) as (s' & d & E1 & E2 & E3). rewrite E1 in E. injection E as <-. unfold dty. rewrite E2. exact E3.
Qed.

Lemma combine_seq_nth {A} : forall (l : list A) k j x, nth_error l j = Some x ->
  nth_error (map (fun p : nat * A => (fst p, fst p, snd p)) (combine (seq k (length l)) l)) j = Some ((k + j)%nat, (k + j)%nat, x).
Proof.
  induction l as [|y l IH]; intros k [|j] x E; cbn in E; try discriminate; cbn.
  - injection E as ->. rewrite Nat.add_0_r. reflexivity.
  - rewrite (IH (S k) j x E). rewrite Nat.add_succ_r. reflexivity.
Qed.

Theorem module_good funcs defs us : gen_module funcs = Some (defs, us) -> proper funcs ->
  length us = length funcs /\
  forall n f u, nth_error funcs n = Some f -> nth_error us n = Some u -> good_ufunc f defs us u.
Proof.
  unfold gen_module. intros H HP.
  destruct (mapM (fun f => mapM (concrete_cfunc f) (types f)) funcs) as [ds|] eqn:Ed; [|discriminate]. cbn [bind] in H.
  destruct (mapM gen_ufunc funcs) as [us'|] eqn:Eu; [|discriminate]. cbn [bind ret] in H. injection H as <- ->.
  apply mapM_F2 in Ed. apply mapM_F2 in Eu.
  split; [symmetry; eapply F2_length; exact Eu|].
  pose proof (F2_pairs concrete_cfunc funcs ds Ed) as FC.
  assert (FL : Forall2 (fun p y => ufunc_loop_of (fst p) (snd p) = Some y) (pairs funcs) (all_loops us)).
  { unfold all_loops. apply F2_pairs. clear - Eu. induction Eu as [|f u fs us E H IH]; cbn; constructor; [|exact IH].
    apply gen_ufunc_facts in E as (loops & rows & t0 & ts & E1 & _ & _ & _ & -> & _). exact E1. }
  pose proof (pairs_nodup funcs HP) as ND.
  intros n f u Hf Hu. destruct (F2_nth _ _ _ Eu n f Hf) as (u' & Hu' & Gu). rewrite Hu in Hu'. injection Hu' as <-.
  destruct (gen_ufunc_facts _ _ Gu) as (loops & rows & t0 & ts & E1 & E2 & Et & Un & Ul & Ur & Uf & Ud & Uy & Ui).
  assert (Inf : In f funcs) by (eapply nth_error_In; exact Hf).
  destruct HP as [HP1 HP2]. destruct (HP2 f Inf) as (_ & nn & Har).
  assert (Hnn : forall t, In t (types f) -> arity t = u_nin u).
  { intros t Ht. rewrite Ui, (Har t Ht), (Har t0); [reflexivity|]. rewrite Et. left. reflexivity. }
  apply mapM_F2 in E1. apply mapM_F2 in E2.
  assert (HR : Forall (fun r => length r = S (u_nin u)) rows).
  { apply Forall_forall. intros r Hr. apply In_nth_error in Hr as [k Hr]. destruct (F2_nth' _ _ _ E2 _ _ Hr) as (t & Ht & Er).
    destruct (F2_nth _ _ _ E1 _ _ Ht) as (L & _ & HL). apply loop_facts in HL as (i & o & ic & oc & HF & _ & _).
    pose proof (type_row_facts _ _ _ _ _ _ _ HF Er) as FR. apply F2_length in FR. rewrite <- FR.
    rewrite <- (Hnn t) by (eapply nth_error_In; exact Ht). rewrite (sf_t _ _ _ _ _ _ HF). unfold arity. rewrite !app_length. cbn. lia. }
  unfold good_ufunc. split; [exact Un|]. split; [exact Uy|]. split; [rewrite Uf, map_length, Uy; reflexivity|]. split; [congruence|].
  split. { rewrite Ur, (concat_len _ _ HR). apply F2_length in E2. rewrite <- E2, Uy. reflexivity. }
  intros k Hk. rewrite Uy in Hk. destruct (nth_error (types f) k) as [t|] eqn:Ht; [|apply nth_error_None in Ht; lia].
  assert (Int : In t (types f)) by (eapply nth_error_In; exact Ht).
  assert (Inp : In (f, t) (pairs funcs)). { unfold pairs. apply in_flat_map. exists f. split; [exact Inf|]. apply in_map. exact Int. }
  destruct (sole_F2 _ key c_name _ _ (f, t) FC ND Inp) as (C & HC & SC).
  { intros p x q y Hp Hq E. apply concrete_facts in Hp as (i & o & ic & oc & HF & ->). apply concrete_facts in Hq as (i' & o' & ic' & oc' & HF' & ->).
    cbn in E. apply name_inj in E; [|exact (proj1 (facts_known _ _ _ _ _ _ HF))|exact (proj1 (facts_known _ _ _ _ _ _ HF'))].
    destruct E as (E & -> & ->). unfold key. rewrite E, (sf_t _ _ _ _ _ _ HF), (sf_t _ _ _ _ _ _ HF'). reflexivity. }
  destruct (sole_F2 _ key l_name _ _ (f, t) FL ND Inp) as (L & HL & SL).
  { intros p x q y Hp Hq E. apply loop_facts in Hp as (i & o & ic & oc & HF & _ & ->). apply loop_facts in Hq as (i' & o' & ic' & oc' & HF' & _ & ->).
    cbn [l_name] in E. apply app_inv_tail in E. apply name_inj in E; [|exact (proj1 (facts_known _ _ _ _ _ _ HF))|exact (proj1 (facts_known _ _ _ _ _ _ HF'))].
    destruct E as (E & -> & ->). unfold key. rewrite E, (sf_t _ _ _ _ _ _ HF), (sf_t _ _ _ _ _ _ HF'). reflexivity. }
  cbn [fst snd] in HC, HL.
  apply concrete_facts in HC as (i & o & ic & oc & HF & EC). apply loop_facts in HL as (i' & o' & ic' & oc' & HF' & Hne & EL).
  assert (i' = i /\ o' = o) as [-> ->]. { pose proof (sf_split _ _ _ _ _ _ HF). pose proof (sf_split _ _ _ _ _ _ HF'). split; congruence. }
  assert (ic' = ic) as ->. { pose proof (sf_in _ _ _ _ _ _ HF). pose proof (sf_in _ _ _ _ _ _ HF'). congruence. }
  assert (oc' = oc) as ->. { pose proof (sf_out _ _ _ _ _ _ HF). pose proof (sf_out _ _ _ _ _ _ HF'). congruence. }
  assert (Li : length i = u_nin u). { rewrite <- (Hnn t Int), (sf_t _ _ _ _ _ _ HF). unfold arity. rewrite !app_length. cbn. lia. }
  pose proof (mapM_F2 _ _ _ (sf_in _ _ _ _ _ _ HF)) as Fin. pose proof (F2_length _ _ _ Fin) as Lic.
  destruct (F2_nth _ _ _ E2 _ _ Ht) as (r & Hr & Er). pose proof (type_row_facts _ _ _ _ _ _ _ HF Er) as FR.
  constructor. exists (l_name L), L, C, (map dty (i ++ [o])).
  split. { rewrite Uf, nth_error_map, Ht. cbn [option_map]. rewrite (sf_ext _ _ _ _ _ _ HF), EL. cbn [l_name]. rewrite <- !app_assoc. reflexivity. }
  split; [exact SL|]. split; [rewrite map_length, app_length, Li; cbn; lia|].
  assert (NT : forall j c, nth_error (i ++ [o]) j = Some c -> nth j (map dty (i ++ [o])) Tbool = dty c).
  { intros j c E. apply nth_error_nth. rewrite nth_error_map, E. reflexivity. }
  split.
  { intros j Hj. destruct (nth_error (i ++ [o]) j) as [c|] eqn:Ec; [|apply nth_error_None in Ec; rewrite app_length in Ec; cbn in Ec; lia].
    destruct (F2_nth _ _ _ FR _ _ Ec) as (code & Hcode & D). exists code. split; [|rewrite (NT _ _ Ec); exact D].
    rewrite Ur, (concat_nth _ _ HR k r j Hr Hj). exact Hcode. }
  rewrite EL, EC. cbn [l_reads l_write l_callee l_pass c_args c_ret c_callee c_pass].
  split. { rewrite map_length, combine_length, seq_length, <- Lic, Li. lia. }
  split.
  { intros j Hj. destruct (nth_error i j) as [c|] eqn:Ec; [|apply nth_error_None in Ec; lia].
    destruct (F2_nth _ _ _ Fin _ _ Ec) as (s & Hs & D). exists s. split.
    - rewrite Lic. exact (combine_seq_nth ic 0 j s Hs).
    - rewrite (NT j c); [|rewrite nth_error_app1 by lia; exact Ec]. apply ctype_dty. exact D. }
  split. { exists oc. rewrite Li. split; [reflexivity|]. rewrite (NT (u_nin u) o); [apply ctype_dty; exact (sf_out _ _ _ _ _ _ HF)|].
    rewrite nth_error_app2 by lia. rewrite Li, Nat.sub_diag. reflexivity. }
  rewrite Li. split. { rewrite EC, Li in SC. exact SC. }
  split; [reflexivity|].
  split. { rewrite map_map. cbn [snd]. rewrite <- Li, Lic. clear. generalize 0%nat. induction ic as [|x l IH]; intros n; cbn; [reflexivity|]. f_equal. apply IH. }
  repeat split; reflexivity.
Qed.

(** ** generation succeeds *)
Lemma sig_facts_ok f t : sig_ok t -> exists i o ic oc, sig_facts f t i o ic oc /\ i <> [].
Proof.
  intros (i & o & -> & Hi & Ki & Ko). destruct (split_sig_known i o Ki) as [E|]; [|contradiction].
  destruct (mapM_ex typechar_to_ctype i) as [ic Eic].
  { intros c Hc. rewrite Forall_forall in Ki. destruct (known_ctype c (Ki c Hc)) as (s & _ & E' & _). eauto. }
  destruct (known_ctype o Ko) as (oc & _ & Eoc & _).
  exists i, o, ic, oc. split; [|exact Hi]. constructor; try assumption; [reflexivity|]. exact (proj2 (split_sig_eq _ _ _ E)).
Qed.
Theorem module_exists funcs : (forall f, In f funcs -> types f <> [] /\ Forall sig_ok (types f)) ->
  exists defs us, gen_module funcs = Some (defs, us).
Proof.
  intros H. unfold gen_module.
  destruct (mapM_ex (fun f => mapM (concrete_cfunc f) (types f)) funcs) as [ds Ed].
  { intros f Hf. apply mapM_ex. intros t Ht. destruct (H f Hf) as [_ HS]. rewrite Forall_forall in HS.
    destruct (sig_facts_ok f t (HS t Ht)) as (i & o & ic & oc & HF & _). unfold concrete_cfunc.
    rewrite (sf_split _ _ _ _ _ _ HF). cbn [bind]. rewrite (sf_in _ _ _ _ _ _ HF). cbn [bind]. rewrite (sf_out _ _ _ _ _ _ HF). eexists; reflexivity. }
  rewrite Ed. cbn [bind].
  destruct (mapM_ex gen_ufunc funcs) as [us Eu].
  { intros f Hf. destruct (H f Hf) as [Hne HS]. rewrite Forall_forall in HS. unfold gen_ufunc.
    destruct (mapM_ex (ufunc_loop_of f) (types f)) as [ls El].
    { intros t Ht. destruct (sig_facts_ok f t (HS t Ht)) as (i & o & ic & oc & HF & Hi). unfold ufunc_loop_of.
      rewrite (sf_split _ _ _ _ _ _ HF). cbn [bind]. rewrite (sf_in _ _ _ _ _ _ HF). cbn [bind]. rewrite (sf_out _ _ _ _ _ _ HF). cbn [bind].
      unfold upto_nat. destruct i as [|c i]; [congruence|]. cbn [length]. rewrite seq_S, rev_app_distr. cbn. eexists; reflexivity. }
    rewrite El. cbn [bind].
    destruct (mapM_ex type_row (types f)) as [rs Er].
    { intros t Ht. destruct (sig_facts_ok f t (HS t Ht)) as (i & o & ic & oc & HF & Hi). unfold type_row.
      rewrite (sf_split _ _ _ _ _ _ HF). cbn [bind]. destruct (facts_known _ _ _ _ _ _ HF) as [Ki Ko].
      destruct (mapM_ex typechar_to_npy_type i) as [a Ea].
      { intros c Hc. rewrite Forall_forall in Ki. destruct (known_npy c (Ki c Hc)) as (s & _ & E' & _). eauto. }
      rewrite Ea. cbn [bind]. destruct (known_npy o Ko) as (b & _ & -> & _). eexists; reflexivity. }
    rewrite Er. cbn [bind]. destruct (types f) as [|t ts]; [congruence|].
    destruct (split_on (S_ "->") t) as [|x l] eqn:Es; [exfalso; revert Es; apply split_go_ne|]. eexists; reflexivity. }
  rewrite Eu. eexists; eexists; reflexivity.
Qed.

Lemma proper_b_spec funcs : proper_b funcs = true -> proper funcs.
Proof.
  unfold proper_b. set (nodup := fix nodup (l : list str) := match l with [] => true | x :: l => negb (existsb (eqs x) l) && nodup l end).
  assert (N : forall l, nodup l = true -> NoDup l).
  { induction l as [|x l IH]; intros H; [constructor|]. cbn in H. apply andb_prop in H as [H1 H2]. constructor; [|apply IH; exact H2].
    intros Q. apply negb_true_iff in H1. assert (existsb (eqs x) l = true) as Z; [|congruence]. apply existsb_exists. exists x. split; [exact Q|apply eqs_refl]. }
  intros H. apply andb_prop in H as [H1 H2]. split; [apply N; exact H1|]. intros f Hf. rewrite forallb_forall in H2. specialize (H2 f Hf).
  apply andb_prop in H2 as [H2 H3]. split; [apply N; exact H2|]. destruct (types f) as [|t l]; [exists 0%nat; intros ? []|].
  exists (arity t). intros t' [<-|Ht']; [reflexivity|]. rewrite forallb_forall in H3. apply Nat.eqb_eq. apply H3. exact Ht'.
Qed.

(** ** what the generator does not reject *)
Definition fdup : func := mkFunc (S_ "f") (S_ "f") [S_ "d->d"; S_ "d->d"] [].
Definition fmix : func := mkFunc (S_ "f") (S_ "f") [S_ "f->f"; S_ "ff->f"] [].
Lemma dup_accepted : exists funcs defs us, gen_module funcs = Some (defs, us) /\ NoDup (map ufuncname funcs) /\
  ~ NoDup (map c_name defs) /\ ~ NoDup (map l_name (all_loops us)).
Proof.
  exists [fdup]. eexists. eexists. split; [vm_compute; reflexivity|]. split; [repeat constructor; intros []|].
  split; intros H; inversion H as [|? ? Q]; subst; apply Q; left; reflexivity.
Qed.
Lemma names_accepted : exists funcs defs us, gen_module funcs = Some (defs, us) /\
  (forall f, In f funcs -> NoDup (types f)) /\ ~ NoDup (map c_name defs) /\ ~ NoDup (map l_name (all_loops us)).
Proof.
  exists (cfg [("step", "f", ["d->d"]); ("ramp", "f", ["d->d"])]%string). eexists. eexists. split; [vm_compute; reflexivity|].
  split. { intros f [<-|[<-|[]]]; (constructor; [intros []|constructor]). }
  split; intros H; inversion H as [|? ? Q]; subst; apply Q; left; reflexivity.
Qed.
Lemma mixed_accepted : exists f defs u L, gen_module [f] = Some (defs, [u]) /\ NoDup (types f) /\
  nth_error (u_loops u) 1 = Some L /\ (u_nin u < length (l_reads L))%nat /\ ~ good_ufunc f defs [u] u.
Proof.
  exists fmix. eexists. eexists. eexists. split; [vm_compute; reflexivity|].
  split. { constructor; [intros [E|[]]; discriminate|constructor; [intros []|constructor]]. }
  split; [reflexivity|]. split; [cbn; lia|]. intros (_ & _ & _ & _ & H & _). cbn in H. discriminate.
Qed.
Lemma macro_case : exists funcs defs us u v, gen_module funcs = Some (defs, us) /\ proper funcs /\
  nth_error us 0 = Some u /\ nth_error us 1 = Some v /\ u_name u <> u_name v /\ u_macro u = u_macro v.
Proof.
  exists (cfg [("j", "bessel_j", ["d->d"]); ("J", "bessel_J", ["d->d"])]%string). do 4 eexists. split; [vm_compute; reflexivity|].
  split; [apply proper_b_spec; vm_compute; reflexivity|]. split; [reflexivity|]. split; [reflexivity|]. split; [discriminate|reflexivity].
Qed.
Lemma header_files : exists h h' a b, h <> h' /\ header_to_concrete_filenames h = Some (a, b) /\ header_to_concrete_filenames h' = Some (a, b).
Proof. exists (S_ "step.h"), (S_ "step.hpp"). do 2 eexists. split; [discriminate|]. split; vm_compute; reflexivity. Qed.
Lemma header_guards : exists h h' a a', header_to_concrete_filenames h = Some a /\ header_to_concrete_filenames h' = Some a' /\
  a <> a' /\ fst a <> fst a' /\ header_guard h = header_guard h'.
Proof.
  exists (S_ "step.real.h"), (S_ "step.complex.h"). do 2 eexists. split; [vm_compute; reflexivity|]. split; [vm_compute; reflexivity|].
  split; [discriminate|]. split; [discriminate|]. vm_compute. reflexivity.
Qed.

Lemma repo_modules_ok : forallb (fun m => proper_b m && match gen_module m with Some _ => true | None => false end) repo_modules = true.
Proof. vm_compute. reflexivity. Qed.
Theorem repo_good funcs : In funcs repo_modules -> exists defs us, gen_module funcs = Some (defs, us) /\ length us = length funcs /\
  forall n f u, nth_error funcs n = Some f -> nth_error us n = Some u -> good_ufunc f defs us u.
Proof.
  intros H. pose proof repo_modules_ok as Q. rewrite forallb_forall in Q. specialize (Q _ H). apply andb_prop in Q as [Q1 Q2].
  destruct (gen_module funcs) as [[defs us]|] eqn:E; [|discriminate]. exists defs, us. split; [reflexivity|].
  apply (module_good _ _ _ E). apply proper_b_spec. exact Q1.
Qed.
(** loop and function names never meet, also across ufuncs *)
Theorem names_apart funcs defs us C L : gen_module funcs = Some (defs, us) -> In C defs -> In L (all_loops us) -> c_name C <> l_name L.
Proof.
  unfold gen_module. intros H HC HL.
  destruct (mapM (fun f => mapM (concrete_cfunc f) (types f)) funcs) as [ds|] eqn:Ed; [|discriminate]. cbn [bind] in H.
  destruct (mapM gen_ufunc funcs) as [us'|] eqn:Eu; [|discriminate]. cbn [bind ret] in H. injection H as <- ->.
  apply mapM_F2 in Ed. apply mapM_F2 in Eu.
  pose proof (F2_pairs concrete_cfunc funcs ds Ed) as FC.
  assert (FL : Forall2 (fun p y => ufunc_loop_of (fst p) (snd p) = Some y) (pairs funcs) (all_loops us)).
  { unfold all_loops. apply F2_pairs. clear - Eu. induction Eu as [|f u fs us E H IH]; cbn; constructor; [|exact IH].
    apply gen_ufunc_facts in E as (loops & rows & t0 & ts & E1 & _ & _ & _ & -> & _). exact E1. }
  apply In_nth_error in HC as [n HC]. destruct (F2_nth' _ _ _ FC _ _ HC) as (p & _ & Hp).
  apply In_nth_error in HL as [m HL]. destruct (F2_nth' _ _ _ FL _ _ HL) as (q & _ & Hq).
  apply concrete_facts in Hp as (i & o & ic & oc & HF & ->). apply loop_facts in Hq as (i' & o' & ic' & oc' & HF' & _ & ->).
  cbn [c_name l_name]. intros E. apply (f_equal (@rev ascii)) in E. rewrite !app_assoc, !rev_app_distr in E. cbn in E. discriminate.
Qed.

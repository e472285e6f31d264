(** * P_Py: lazy loading (C53), line folding (C55), parameter checks (C58) *)
From Coq Require Import ZArith String List Ascii Bool Sorted Lia.
From Verif Require Import M_Gen P_Gen M_Init M_Uwrap S_Py.
Import ListNotations.

(** ** lazy loading *)
Open Scope list_scope.

Lemma mem_in x l : mem x l = true <-> In x l.
Proof.
  unfold mem. rewrite existsb_exists. split.
  - intros (y & H & E). apply String.eqb_eq in E. now subst.
  - intros H. exists x. split; [exact H|]. apply String.eqb_refl.
Qed.

Lemma assoc_app {A} x (l1 l2 : list (string * A)) :
  assoc x (l1 ++ l2) = match assoc x l1 with Some v => Some v | None => assoc x l2 end.
Proof. induction l1 as [|[y v] l1 IH]; cbn; [reflexivity|]. destruct (String.eqb x y); [reflexivity|exact IH]. Qed.
Lemma assoc_in {A} x (l : list (string * A)) v : assoc x l = Some v -> In (x, v) l.
Proof.
  induction l as [|[y w] l IH]; cbn; [discriminate|]. destruct (String.eqb_spec x y) as [->|].
  - intros [= ->]. now left.
  - intros H. right. now apply IH.
Qed.
Lemma assoc_none {A} x (l : list (string * A)) : assoc x l = None <-> ~ In x (map fst l).
Proof.
  induction l as [|[y w] l IH]; cbn; [tauto|]. destruct (String.eqb_spec x y) as [->|N].
  - split; [discriminate|]. intros H. exfalso. apply H. now left.
  - rewrite IH. split; [intros H [E|E]; [congruence|now apply H]|intros H E; apply H; now right].
Qed.

Definition is_submodule (m : string) : bool := match find_module m package with Some _ => true | None => false end.
Lemma find_module_in m p d i : find_module m p = Some (d, i) -> In (m, d, i) p.
Proof.
  induction p as [|[[n d'] i'] p IH]; cbn; [discriminate|]. destruct (String.eqb_spec m n) as [->|].
  - intros [= -> ->]. now left.
  - intros H. right. now apply IH.
Qed.
Lemma submodule_iff m : is_submodule m = true <-> submodule m.
Proof.
  unfold is_submodule, submodule. split.
  - destruct (find_module m package) as [[d i]|] eqn:E; [|discriminate]. intros _. exists d, i. now apply find_module_in.
  - intros (d & i & H). revert H. generalize package as p. induction p as [|[[n d'] i'] p IH]; cbn; [tauto|].
    intros [E|H].
    + injection E as <- <- <-. now rewrite String.eqb_refl.
    + destruct (String.eqb m n); [reflexivity|now apply IH].
Qed.

(** every submodule imported by a submodule exists *)
Lemma imports_exist : forallb (fun r => forallb is_submodule (snd r)) package = true.
Proof. vm_compute. reflexivity. Qed.

(** invariant of the namespace: the initial bindings, and submodules bound to themselves *)
Definition inv (ns : namespace) : Prop :=
  forall n, assoc n ns = assoc n initial \/ (submodule n /\ assoc n ns = Some (Mod n)).

Lemma inv_initial : inv initial.
Proof. intros n. now left. Qed.

Lemma inv_import m ns : inv ns -> inv (snd (import_module m ns)).
Proof.
  intros H n. unfold import_module. destruct (find_module m package) as [[defs imps]|] eqn:E; cbn [snd]; [|apply H].
  cbn [assoc]. destruct (String.eqb_spec n m) as [->|N].
  - right. split; [|reflexivity]. exists defs, imps. now apply find_module_in.
  - rewrite assoc_app.
    destruct (assoc n (map (fun i => (i, Mod i)) imps)) as [v|] eqn:A; [|apply H].
    apply assoc_in in A. apply in_map_iff in A. destruct A as (i & [= -> <-] & Hi).
    right. split; [|reflexivity]. apply submodule_iff.
    apply find_module_in in E. pose proof imports_exist as X. rewrite forallb_forall in X.
    specialize (X _ E). cbn [snd] in X. rewrite forallb_forall in X. now apply X.
Qed.

Lemma inv_access n ns : inv ns -> inv (snd (access n ns)).
Proof.
  intros H. unfold access. destruct (assoc n ns); [exact H|]. unfold module_getattr.
  destruct (String.eqb n "semivar").
  - pose proof (inv_import n ns H). destruct (import_module n ns) as [[] ns']; exact H0.
  - destruct (assoc n name_to_module) as [m|]; [|exact H].
    pose proof (inv_import (relative m) ns H). destruct (import_module (relative m) ns) as [[] ns']; exact H0.
Qed.

Lemma inv_after h : inv (after h).
Proof.
  unfold after. generalize inv_initial. generalize initial as ns. induction h as [|n h IH]; intros ns H; [exact H|].
  cbn [fold_left]. apply IH. now apply inv_access.
Qed.

(** finite facts about the tables, by computation *)
Definition public_ok (n : string) : bool :=
  match assoc n initial with
  | Some (Obj m n') => String.eqb n n' && match find_module m package with Some (d, _) => mem n d | None => false end
  | Some (Own n') => String.eqb n n' && String.eqb n "op"
  | Some (Mod _) => false
  | None =>
      negb (String.eqb n "semivar") && negb (is_submodule n) &&
      match assoc n name_to_module with
      | Some m => match find_module (relative m) package with Some (d, _) => mem n d | None => false end
      | None => false
      end
  end.
Lemma all_public_ok : forallb public_ok all_ = true.
Proof. vm_compute. reflexivity. Qed.
Lemma all_not_submodule : forallb (fun n => negb (is_submodule n)) all_ = true.
Proof. vm_compute. reflexivity. Qed.
Lemma tables_import : forallb (fun p => is_submodule (relative (snd p))) name_to_module = true.
Proof. vm_compute. reflexivity. Qed.

Theorem public_names h n : In n all_ ->
  exists m, (defines m n \/ (m = "ufunclab"%string /\ n = "op"%string)) /\
    forall h', fst (access n (after h)) = Value (if String.eqb m "ufunclab" then Own n else Obj m n) /\
               fst (access n (after (h ++ h'))) = fst (access n (after h)).
Proof.
  intros Hn.
  assert (G : exists m, (defines m n \/ (m = "ufunclab"%string /\ n = "op"%string)) /\
    forall ns, inv ns -> fst (access n ns) = Value (if String.eqb m "ufunclab" then Own n else Obj m n)).
  { pose proof all_public_ok as P. rewrite forallb_forall in P. specialize (P n Hn).
    pose proof all_not_submodule as Q. rewrite forallb_forall in Q. specialize (Q n Hn). apply negb_true_iff in Q.
    assert (NS : ~ submodule n) by (rewrite <- submodule_iff; congruence).
    assert (Nuf : is_submodule "ufunclab" = false) by (vm_compute; reflexivity).
    unfold public_ok in P. destruct (assoc n initial) as [v|] eqn:E.
    - destruct v as [m n'|m|n'].
      + apply andb_prop in P. destruct P as [P1 P2]. apply String.eqb_eq in P1. subst n'.
        destruct (find_module m package) as [[d i]|] eqn:F; [|discriminate]. apply mem_in in P2.
        exists m. split.
        * left. exists d, i. split; [now apply find_module_in|exact P2].
        * intros ns Hi. unfold access. destruct (Hi n) as [Hx|[Hx _]]; [|contradiction]. rewrite Hx, E. cbn [fst].
          destruct (String.eqb_spec m "ufunclab") as [->|]; [|reflexivity].
          exfalso. unfold is_submodule in Nuf. rewrite F in Nuf. discriminate.
      + discriminate.
      + apply andb_prop in P. destruct P as [P1 P2]. apply String.eqb_eq in P1. apply String.eqb_eq in P2. subst n'.
        exists "ufunclab"%string. split; [now right|]. intros ns Hi. unfold access.
        destruct (Hi n) as [Hx|[Hx _]]; [|contradiction]. rewrite Hx, E. reflexivity.
    - apply andb_prop in P. destruct P as [P1 P2]. apply andb_prop in P1. destruct P1 as [P1 _].
      apply negb_true_iff in P1.
      destruct (assoc n name_to_module) as [m|] eqn:A; [|discriminate].
      destruct (find_module (relative m) package) as [[d i]|] eqn:F; [|discriminate]. pose proof (proj1 (mem_in _ _) P2) as P3.
      exists (relative m). split.
      + left. exists d, i. split; [now apply find_module_in|exact P3].
      + intros ns Hi. unfold access. destruct (Hi n) as [Hx|[Hx _]]; [|contradiction]. rewrite Hx, E.
        unfold module_getattr. rewrite P1, A. unfold import_module. rewrite F, P2. cbn [fst].
        destruct (String.eqb_spec (relative m) "ufunclab") as [Hm|]; [|reflexivity].
        exfalso. rewrite Hm in F. unfold is_submodule in Nuf. rewrite F in Nuf. discriminate. }
  destruct G as (m & D & V). exists m. split; [exact D|]. intros h'. split.
  - apply V, inv_after.
  - rewrite !V by apply inv_after. reflexivity.
Qed.

Theorem unknown_names h n : ~ bound_at_import n -> ~ In n (map fst name_to_module) -> n <> "semivar"%string -> ~ submodule n ->
  access n (after h) = (Error AttributeError, after h).
Proof.
  intros H1 H2 H3 H4. unfold access. destruct (inv_after h n) as [Hx|[Hx _]]; [|contradiction]. rewrite Hx.
  destruct (assoc n initial) as [v|] eqn:E; [exfalso; apply H1; now exists v|].
  unfold module_getattr. destruct (String.eqb_spec n "semivar"); [contradiction|].
  apply assoc_none in H2. now rewrite H2.
Qed.

(** no access ever fails for another reason *)
Theorem only_attribute_errors h n e : fst (access n (after h)) = Error e ->
  e = AttributeError /\ ~ In n all_ /\ n <> "semivar"%string.
Proof.
  intros H. assert (X : e = AttributeError /\ n <> "semivar"%string).
  { unfold access in H. destruct (assoc n (after h)); [discriminate|]. unfold module_getattr in H.
    destruct (String.eqb_spec n "semivar") as [->|N]; [cbn in H; discriminate|]. split; [|exact N].
    destruct (assoc n name_to_module) as [m|] eqn:A; [|cbn in H; congruence].
    pose proof tables_import as T. rewrite forallb_forall in T. specialize (T _ (assoc_in _ _ _ A)). cbn [snd] in T.
    unfold is_submodule in T. unfold import_module in H. destruct (find_module (relative m) package) as [[d i]|]; [|discriminate].
    cbn [fst] in H. destruct (mem n d); [discriminate|congruence]. }
  destruct X as [X1 X2]. split; [exact X1|]. split; [|exact X2]. intros Hn.
  destruct (public_names h n Hn) as (m & _ & V). destruct (V []) as [V1 _]. congruence.
Qed.

(** semivar is the lazily loaded submodule; other submodules appear once something has imported them *)
Theorem semivar_loads h : fst (access "semivar" (after h)) = Value (Mod "semivar").
Proof.
  unfold access. destruct (inv_after h "semivar") as [Hx|[_ Hx]]; rewrite Hx; [|reflexivity].
  assert (E : assoc "semivar" initial = None) by (vm_compute; reflexivity). rewrite E. reflexivity.
Qed.

Lemma insert_perm x l y : In y (insert x l) <-> y = x \/ In y l.
Proof.
  induction l as [|z l IH]; cbn; [intuition|]. destruct (str_leb x z); cbn; [intuition|]. rewrite IH. intuition.
Qed.
Lemma sorted_in l y : In y (sorted l) <-> In y l.
Proof. induction l as [|x l IH]; cbn; [tauto|]. rewrite insert_perm, IH. intuition. Qed.

Theorem all_contents n : In n all_ <->
  (exists m, In (n, m) name_to_module) \/ n = "first"%string \/ n = "argfirst"%string \/ n = "op"%string \/ n = "percentileofscore"%string.
Proof.
  unfold all_. rewrite sorted_in, in_app_iff. cbn [In].
  assert (E : In n (map fst name_to_module) <-> exists m, In (n, m) name_to_module).
  { rewrite in_map_iff. split.
    - intros ([n' m] & <- & H). now exists m.
    - intros [m H]. exists (n, m). now split. }
  rewrite E. intuition.
Qed.

(** [__all__] is in strictly increasing order *)
Lemma compare_before a : forall b, String.compare a b = Lt -> before a b.
Proof.
  induction a as [|c a IH]; intros [|d b] H; cbn in H; try discriminate.
  - left. exists (String d b). split; [discriminate|reflexivity].
  - unfold Ascii.compare in H. rewrite N.compare_antisym in H. destruct (N.compare_spec (N_of_ascii d) (N_of_ascii c)) as [E|L|L]; cbn in H; try discriminate.
    + assert (d = c) by (rewrite <- (ascii_N_embedding d), E; apply ascii_N_embedding). subst d.
      destruct (IH b H) as [(s & Hs & ->)|(p & c' & d' & s & t & -> & -> & L)].
      * left. exists s. split; [exact Hs|reflexivity].
      * right. exists (String c p), c', d', s, t. repeat split; auto.
    + right. exists EmptyString, c, d, a, b. repeat split; auto. unfold nat_of_ascii. lia.
Qed.
Fixpoint increasing (l : list string) : bool :=
  match l with [] => true | a :: l' => forallb (fun b => match String.compare a b with Lt => true | _ => false end) l' && increasing l' end.
Lemma increasing_ok l : increasing l = true -> StronglySorted before l.
Proof.
  induction l as [|a l IH]; cbn; intros H; [constructor|]. apply andb_true_iff in H. destruct H as [H1 H2].
  constructor; [apply IH, H2|]. apply Forall_forall. intros b Hb. rewrite forallb_forall in H1. specialize (H1 b Hb).
  apply compare_before. destruct (String.compare a b); try discriminate; reflexivity.
Qed.
Lemma all_increasing : StronglySorted before all_.
Proof. apply increasing_ok. vm_compute. reflexivity. Qed.

(** a name not in [__all__] whose outcome depends on the history *)
Theorem submodule_visibility_depends_on_history :
  exists n, ~ In n all_ /\ fst (access n (after [])) = Error AttributeError /\
    fst (access n (after ["gmean"%string])) = Value (Mod n).
Proof.
  exists "_means"%string. split; [|split; vm_compute; reflexivity].
  intros H. pose proof all_not_submodule as Q. rewrite forallb_forall in Q. specialize (Q _ H). vm_compute in Q. discriminate.
Qed.

(** ** line folding *)
Open Scope Z_scope.

Definition SEP : str := S_ ", ".
Lemma SEP_eq : SEP = [","; " "]%char. Proof. reflexivity. Qed.

Lemma join_comma_cons p ps : ps <> [] -> join_comma (p :: ps) = p ++ SEP ++ join_comma ps.
Proof. destruct ps; [congruence|reflexivity]. Qed.

Lemma split_go_nonnil sep k cur s : split_go sep k cur s <> [].
Proof. revert k cur. induction s as [|c s IH]; intros k cur; cbn; [discriminate|]. destruct k; [|apply IH]. destruct (prefixb sep (c :: s)); [discriminate|apply IH]. Qed.

Lemma join_split : forall n s cur, (length s <= n)%nat -> join_comma (split_go SEP 0 cur s) = (rev cur ++ s)%list.
Proof.
  induction n as [|n IH]; intros s cur L.
  - destruct s; [cbn; now rewrite app_nil_r|cbn in L; lia].
  - destruct s as [|c s]; [cbn; now rewrite app_nil_r|]. cbn in L.
    cbn [split_go]. destruct (prefixb SEP (c :: s)) eqn:P.
    + rewrite SEP_eq in P. cbn [prefixb] in P. destruct s as [|d s]; [now rewrite andb_false_r in P|].
      apply andb_prop in P. destruct P as [P1 P2]. apply andb_prop in P2. destruct P2 as [P2 _].
      apply Ascii.eqb_eq in P1. apply Ascii.eqb_eq in P2. subst c d.
      change (length SEP - 1)%nat with 1%nat. cbn [split_go].
      rewrite join_comma_cons by apply split_go_nonnil. rewrite IH by (cbn in L; lia). reflexivity.
    + rewrite IH by lia. cbn [rev]. now rewrite <- app_assoc.
Qed.
Lemma join_split_on line : join_comma (split_on SEP line) = line.
Proof. unfold split_on. now rewrite (join_split (length line)). Qed.

Lemma fill_le pad : forall parts n, (fill pad n parts <= length parts)%nat.
Proof. induction parts as [|p ps IH]; intros n; cbn; [lia|]. destruct (_ <? _); [|lia]. specialize (IH (n + (slen p + 2))). lia. Qed.

Lemma fill_width pad : forall parts n, (0 < fill pad n parts)%nat ->
  n + pad + slen (join_comma (firstn (fill pad n parts) parts)) + 2 < 80.
Proof.
  induction parts as [|p ps IH]; intros n H; [cbn in H; lia|]. cbn [fill] in *.
  destruct (Z.ltb_spec (n + pad + slen p + 2) 80) as [L|L]; [|lia]. cbn [firstn].
  destruct (fill pad (n + (slen p + 2)) ps) as [|k] eqn:E.
  - cbn [firstn join_comma]. exact L.
  - specialize (IH (n + (slen p + 2))). rewrite E in IH. specialize (IH ltac:(lia)).
    destruct ps as [|q ps]; [cbn in E; discriminate|]. cbn [firstn] in *.
    rewrite join_comma_cons by discriminate. unfold slen in *. rewrite !app_length. cbn [length SEP] in *.
    change (length SEP) with 2%nat. lia.
Qed.

Lemma fill_pos pad parts p ps : parts = p :: ps -> pad + slen p + 2 < 80 -> (0 < fill pad 0 parts)%nat.
Proof. intros -> H. cbn [fill]. destruct (Z.ltb_spec (0 + pad + slen p + 2) 80); [lia|]. lia. Qed.

Lemma join_comma_app l1 l2 : l1 <> [] -> l2 <> [] -> join_comma (l1 ++ l2) = (join_comma l1 ++ SEP ++ join_comma l2)%list.
Proof.
  intros H1 H2. induction l1 as [|p l1 IH]; [contradiction|]. destruct l1 as [|q l1].
  - cbn [app join_comma]. now apply join_comma_cons.
  - change ((p :: q :: l1) ++ l2)%list with (p :: ((q :: l1) ++ l2))%list.
    rewrite join_comma_cons by discriminate. rewrite IH by discriminate.
    rewrite (join_comma_cons p (q :: l1)) by discriminate. now rewrite <- !app_assoc.
Qed.

(** what one line contributes once its indentation is removed *)
Definition body (parts : list str) (k : nat) : str :=
  (join_comma (firstn k parts) ++ (if Nat.eqb k (length parts) then [] else S_ ","))%list.

Lemma loop_step fuel pad offset parts : parts <> [] ->
  to_lines_loop (S fuel) pad offset parts =
     match to_lines_loop fuel offset offset (skipn (fill pad 0 parts) parts) with
     | Some lines => Some ((spaces pad ++ body parts (fill pad 0 parts))%list :: lines) | None => None end.
Proof. intros H. destruct parts; [contradiction|]. reflexivity. Qed.

(** a part that does not fit at the start of a continuation line is never consumed *)
Lemma stuck offset p ps : 80 <= offset + slen p + 2 -> forall fuel, to_lines_loop fuel offset offset (p :: ps) = None.
Proof.
  intros Q. induction fuel as [|f IH]; [reflexivity|]. rewrite loop_step by discriminate.
  cbn [fill]. destruct (Z.ltb_spec (0 + offset + slen p + 2) 80); [lia|]. cbn [skipn]. now rewrite IH.
Qed.

Lemma loop_spec : forall fuel pad offset parts lines, 0 <= offset -> 0 <= pad <= offset -> parts <> [] ->
  to_lines_loop fuel pad offset parts = Some lines ->
  exists l rest, lines = (spaces pad ++ l)%list :: rest /\
    (l ++ concat (map (fun l => " "%char :: skipn (Z.to_nat offset) l) rest))%list = join_comma parts /\
    Forall (indented offset) rest /\ pad + slen l < 80 /\ Forall (fun l => slen l < 80) rest.
Proof.
  induction fuel as [|fuel IH]; intros pad offset parts lines Ho Hpad Hp H; [destruct parts; [contradiction|discriminate]|].
  rewrite loop_step in H by exact Hp.
  set (k := fill pad 0 parts) in *. pose proof (fill_le pad parts 0) as Lk. fold k in Lk.
  destruct (to_lines_loop fuel offset offset (skipn k parts)) as [lines'|] eqn:E; [|discriminate]. injection H as <-.
  exists (body parts k), lines'. split; [reflexivity|].
  assert (Hk0 : (0 < k)%nat).
  { destruct (Nat.eq_dec k 0) as [Z|]; [|lia]. exfalso. rewrite Z in E. cbn [skipn] in E.
    destruct parts as [|p ps]; [contradiction|]. unfold k in Z. cbn [fill] in Z.
    destruct (Z.ltb_spec (0 + pad + slen p + 2) 80); [discriminate|]. rewrite stuck in E by lia. discriminate. }
  pose proof (fill_width pad parts 0 Hk0) as W. fold k in W.
  assert (Wb : pad + slen (body parts k) < 80).
  { unfold body, slen in *. rewrite app_length. destruct (Nat.eqb k (length parts)); cbn [length] in *; [lia|].
    change (length (S_ ",")) with 1%nat. lia. }
  destruct (Nat.eq_dec k (length parts)) as [Ek|Ek].
  - rewrite Ek, skipn_all in E. assert (lines' = []) as -> by (destruct fuel; cbn in E; congruence).
    cbn [map concat]. rewrite app_nil_r. split; [|split; [constructor|split; [exact Wb|constructor]]].
    unfold body. rewrite Ek, Nat.eqb_refl, firstn_all. now rewrite app_nil_r.
  - assert (Hs : skipn k parts <> []).
    { intros Z. apply (f_equal (@length _)) in Z. rewrite skipn_length in Z. cbn in Z. lia. }
    destruct (IH offset offset _ _ Ho ltac:(lia) Hs E) as (l & rest & -> & J & I & W1 & W2).
    assert (Sk : skipn (Z.to_nat offset) (spaces offset ++ l) = l).
    { unfold spaces. rewrite skipn_app, repeat_length, Nat.sub_diag. rewrite skipn_all2 by (rewrite repeat_length; lia). reflexivity. }
    split; [|split; [|split; [exact Wb|]]].
    + cbn [map concat]. rewrite Sk. unfold body. apply Nat.eqb_neq in Ek. rewrite Ek.
      rewrite <- (firstn_skipn k parts) at 2. rewrite join_comma_app; [|intros Z|exact Hs].
      * rewrite <- J. rewrite <- !app_assoc. reflexivity.
      * apply (f_equal (@length _)) in Z. rewrite firstn_length in Z. cbn in Z. lia.
    + constructor; [|exact I]. unfold indented, spaces. rewrite firstn_app, repeat_length, Nat.sub_diag.
      rewrite firstn_all2 by (rewrite repeat_length; lia). cbn. now rewrite app_nil_r.
    + constructor; [|exact W2]. unfold slen, spaces in *. rewrite app_length, repeat_length. lia.
Qed.

Theorem to_lines_faithful fuel line offset lines : 0 <= offset ->
  to_lines fuel line offset = Some lines ->
  unfold_lines offset lines = line /\ Forall (fun l => slen l < 80) lines /\ Forall (indented offset) (tl lines).
Proof.
  intros Ho H. unfold to_lines in H.
  assert (Hp : split_on (S_ ", ") line <> []) by apply split_go_nonnil.
  destruct (loop_spec _ _ _ _ _ Ho (conj (Z.le_refl 0) Ho) Hp H) as (l & rest & -> & J & I & W1 & W2).
  change (spaces 0) with (@nil ascii). cbn [app]. split; [|split; [constructor; [exact W1|exact W2]|exact I]].
  cbn [unfold_lines]. rewrite J. apply join_split_on.
Qed.

Lemma loop_terminates offset : forall fuel pad parts, 0 <= pad <= offset -> Forall (fun p => offset + slen p + 2 < 80) parts ->
  (length parts <= fuel)%nat -> exists lines, forall fuel', (fuel <= fuel')%nat -> to_lines_loop fuel' pad offset parts = Some lines.
Proof.
  induction fuel as [|fuel IH]; intros pad parts Hp HF L.
  - destruct parts; [|cbn in L; lia]. exists []. intros [|f] _; reflexivity.
  - destruct parts as [|p ps] eqn:Ep; [exists []; intros [|f] _; reflexivity|]. rewrite <- Ep in *.
    assert (K : (0 < fill pad 0 parts)%nat).
    { apply (fill_pos pad parts p ps Ep). rewrite Ep in HF. apply Forall_inv in HF. lia. }
    pose proof (fill_le pad parts 0) as Lk.
    destruct (IH offset (skipn (fill pad 0 parts) parts)) as [lines Hl].
    + lia.
    + rewrite <- (firstn_skipn (fill pad 0 parts) parts) in HF. apply Forall_app in HF. tauto.
    + rewrite skipn_length. lia.
    + eexists. intros [|f'] Hf; [lia|]. rewrite loop_step by (rewrite Ep; discriminate).
      rewrite Hl by lia. reflexivity.
Qed.

Theorem to_lines_terminates line offset : 0 <= offset ->
  Forall (fun p => offset + slen p + 2 < 80) (split_on (S_ ", ") line) ->
  exists fuel lines, forall fuel', (fuel <= fuel')%nat -> to_lines fuel' line offset = Some lines.
Proof.
  intros Ho HF. exists (length (split_on (S_ ", ") line)). apply loop_terminates; [lia|exact HF|lia].
Qed.

(** the exact condition: the parts fill the first line, and every part that is left fits in a continuation line *)
Lemma loop_fuel_mono offset : forall fuel pad parts lines, to_lines_loop fuel pad offset parts = Some lines ->
  forall fuel', (fuel <= fuel')%nat -> to_lines_loop fuel' pad offset parts = Some lines.
Proof.
  induction fuel as [|fuel IH]; intros pad parts lines H fuel' Hf.
  - destruct parts; [|discriminate]. destruct fuel'; exact H.
  - destruct parts as [|p ps] eqn:Ep; [destruct fuel'; exact H|]. destruct fuel' as [|fuel']; [lia|].
    rewrite loop_step in * by discriminate.
    destruct (to_lines_loop fuel offset offset _) eqn:E; [|discriminate]. now rewrite (IH _ _ _ E) by lia.
Qed.

Lemma loop_long offset parts p : In p parts -> forall fuel pad, 0 <= pad <= offset -> 80 <= slen p + 2 ->
  to_lines_loop fuel pad offset parts = None.
Proof.
  intros Hin fuel. revert parts Hin. induction fuel as [|fuel IH]; intros parts Hin pad Hp Hl.
  - destruct parts; [contradiction|reflexivity].
  - rewrite loop_step by (intros ->; contradiction). rewrite IH; [reflexivity| |lia|exact Hl].
    revert Hin. assert (G : forall ps n, 0 <= n -> In p ps -> In p (skipn (fill pad n ps) ps)).
    { induction ps as [|q ps IHp]; intros n Hn Hi; [contradiction|]. cbn [fill].
      destruct (Z.ltb_spec (n + pad + slen q + 2) 80); [|exact Hi]. cbn [skipn].
      destruct Hi as [->|Hi]; [lia|]. apply IHp; [unfold slen; lia|exact Hi]. }
    apply G. lia.
Qed.

Theorem to_lines_diverges line offset p : 0 <= offset -> In p (split_on (S_ ", ") line) -> 80 <= slen p + 2 ->
  forall fuel, to_lines fuel line offset = None.
Proof. intros Ho Hin Hl fuel. unfold to_lines. apply (loop_long offset _ p); [exact Hin|lia|exact Hl]. Qed.

Theorem to_lines_refuted : exists line offset, 0 <= offset /\ forall fuel, to_lines fuel line offset = None.
Proof.
  exists (repeat "x"%char 78), 0. split; [lia|]. apply (to_lines_diverges _ _ (repeat "x"%char 78)); [lia| |].
  - vm_compute. now left.
  - vm_compute. discriminate.
Qed.

(** ** check_params *)
Lemma check_loop reserved : forall params args kwargs r,
  check_params_loop reserved params args kwargs = Some r <->
  exists a k, params = (map plain a ++ map with_default k)%list /\ r = ((args ++ a)%list, (kwargs ++ k)%list) /\
    (kwargs <> [] -> a = []) /\ Forall (fun p => ~ In (pname p) reserved) params.
Proof.
  assert (Res : forall n, existsb (String.eqb n) reserved = false <-> ~ In n reserved).
  { intros n. fold (mem n reserved). rewrite <- (mem_in n reserved). destruct (mem n reserved); split; congruence. }
  induction params as [|p ps IH]; intros args kwargs r; cbn [check_params_loop].
  - split.
    + intros [= <-]. exists [], []. rewrite !app_nil_r. repeat split; auto.
    + intros (a & k & E & -> & _). destruct a; [destruct k; [now rewrite !app_nil_r|discriminate]|discriminate].
  - destruct p as [n|n v]; cbn [pname].
    + destruct kwargs as [|kw kwargs].
      * destruct (existsb (String.eqb n) reserved) eqn:E.
        -- split; [discriminate|]. intros (a & k & _ & _ & _ & F). apply Forall_inv in F. cbn in F.
           apply Res in F. congruence.
        -- rewrite IH. apply Res in E. split.
           ++ intros (a & k & -> & -> & _ & F). exists (n :: a), k. repeat split.
              ** now rewrite <- app_assoc.
              ** congruence.
              ** constructor; [exact E|exact F].
           ++ intros (a & k & Ep & -> & _ & F). destruct a as [|n' a].
              ** destruct k; discriminate.
              ** injection Ep as <- ->. exists a, k. repeat split.
                 --- now rewrite <- app_assoc.
                 --- congruence.
                 --- now inversion F.
      * split; [discriminate|]. intros (a & k & Ep & _ & Ha & _). rewrite (Ha ltac:(discriminate)) in Ep.
        destruct k; discriminate.
    + destruct (existsb (String.eqb n) reserved) eqn:E.
      * split; [discriminate|]. intros (a & k & _ & _ & _ & F). apply Forall_inv in F. cbn in F. apply Res in F. congruence.
      * rewrite IH. apply Res in E. split.
        -- intros (a & k & -> & -> & Ha & F). rewrite (Ha ltac:(destruct kwargs; discriminate)) in *.
           exists [], ((n, v) :: k). repeat split.
           ++ cbn. now rewrite <- app_assoc.
           ++ constructor; [exact E|exact F].
        -- intros (a & k & Ep & -> & Ha & F). destruct a as [|n' a]; [|discriminate].
           destruct k as [|[n' v'] k]; [discriminate|]. injection Ep as <- <- ->. exists [], k. repeat split.
           ++ cbn. now rewrite <- app_assoc.
           ++ now inversion F.
Qed.

Theorem check_params_ok nout params args kwargs :
  check_params nout params = Some (args, kwargs) <->
  params = (map plain args ++ map with_default kwargs)%list /\
  Forall (fun p => ~ In (pname p) (all_ufunc_params nout)) params.
Proof.
  unfold check_params. rewrite check_loop. split.
  - intros (a & k & -> & E & _ & F). injection E as -> ->. split; [reflexivity|exact F].
  - intros [-> F]. exists args, kwargs. repeat split; [congruence|exact F].
Qed.

Lemma digit_of_eq d : (d < 10)%nat -> digit_ d = String (digit_of d) "".
Proof. intros H. do 10 (destruct d as [|d]; [reflexivity|]). lia. Qed.

(** NumPy has at most 32 operands, so at most 32 outputs *)
Theorem check_params_reserved nout params args kwargs : (nout <= 32)%nat ->
  check_params nout params = Some (args, kwargs) <->
  params = (map plain args ++ map with_default kwargs)%list /\
  Forall (fun p => ~ reserved nout (pname p)) params.
Proof.
  intros Hn. rewrite check_params_ok.
  assert (E : forall n, In n (all_ufunc_params nout) <-> reserved nout n).
  { intros n. unfold all_ufunc_params, reserved. rewrite in_app_iff. apply or_iff_compat_l.
    destruct (Nat.ltb_spec 1 nout) as [L|L]; [|split; [contradiction|lia]].
    rewrite in_map_iff. split.
    - intros (k & <- & Hk). apply in_seq in Hk. split; [exact L|]. exists k. split; [lia|]. unfold out_name.
      destruct (Nat.ltb_spec k 10) as [K|K]; [left|right]; (split; [exact K|]).
      + now rewrite digit_of_eq.
      + assert (k / 10 < 10)%nat by (apply Nat.div_lt_upper_bound; lia).
        assert (k mod 10 < 10)%nat by (apply Nat.mod_upper_bound; lia).
        rewrite !digit_of_eq by assumption. reflexivity.
    - intros (_ & k & Hk & D). exists k. split; [|apply in_seq; lia]. unfold out_name.
      destruct D as [[K ->]|[K ->]].
      + rewrite (proj2 (Nat.ltb_lt k 10) K). now rewrite digit_of_eq.
      + rewrite (proj2 (Nat.ltb_ge k 10) K).
        assert (k / 10 < 10)%nat by (apply Nat.div_lt_upper_bound; lia).
        assert (k mod 10 < 10)%nat by (apply Nat.mod_upper_bound; lia).
        rewrite !digit_of_eq by assumption. reflexivity. }
  split; intros [-> F]; (split; [reflexivity|]); eapply Forall_impl; try exact F; intros p H; cbn beta in *; now rewrite ?E in *.
Qed.

Lemma not_submodule n : mem n (map (fun p => fst (fst p)) package) = false -> ~ submodule n.
Proof.
  intros H (d & i & Hs). assert (E : mem n (map (fun p => fst (fst p)) package) = true); [|congruence].
  apply mem_in, in_map_iff. exists (n, d, i). split; [reflexivity|exact Hs].
Qed.
Lemma not_mapped n : mem n (map fst name_to_module) = false -> ~ In n (map fst name_to_module).
Proof. intros H Hn. apply mem_in in Hn. congruence. Qed.

(** the names that are not lazily loaded: bound by the import of the package and never rebound *)
Theorem eager_names h : 
  fst (access "erfcx" (after h)) = Value (Obj "normal" "erfcx") /\
  fst (access "normal" (after h)) = Value (Mod "normal") /\
  fst (access "first" (after h)) = Value (Obj "_first" "first") /\
  fst (access "argfirst" (after h)) = Value (Obj "_first" "argfirst") /\
  fst (access "percentileofscore" (after h)) = Value (Obj "_percentileofscore" "percentileofscore") /\
  fst (access "op" (after h)) = Value (Own "op").
Proof.
  repeat split; (match goal with |- fst (access ?n _) = _ =>
    destruct (inv_after h n) as [Hx|[Hs Hx]]; [unfold access; rewrite Hx; reflexivity|] end);
  try (unfold access; rewrite Hx; reflexivity); exfalso; revert Hs; apply not_submodule; vm_compute; reflexivity.
Qed.

(** the constants used to build [op] are not left behind *)
Theorem deleted_names h n : In n ["_np"; "_LT"; "_LE"; "_EQ"; "_NE"; "_GT"; "_GE"; "_RANK"; "_WEAK"; "_STRICT"; "_MEAN"]%string ->
  fst (access n (after h)) = Error AttributeError.
Proof.
  intros H. rewrite unknown_names; [reflexivity| | | |]; 
  repeat destruct H as [<-|H]; try contradiction; try discriminate; try (intros (v & E); vm_compute in E; discriminate E);
  try (apply not_mapped; vm_compute; reflexivity); apply not_submodule; vm_compute; reflexivity.
Qed.

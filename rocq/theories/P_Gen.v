(** * P_Gen: proofs about the gufunc code generator: the signature parser *)
From Coq Require Import ZArith Bool Ascii String List Lia.
From Verif Require Import CSem M_Int M_Stat M_Gen S_Gen.
Import ListNotations.
Open Scope Z_scope.

(** ** strings *)
Lemma eqs_spec a : forall b, eqs a b = true <-> a = b.
Proof.
  induction a as [|x a IH]; intros [|y b]; cbn; split; intro H; try discriminate; try reflexivity.
  - apply andb_prop in H as [H1 H2]. apply Ascii.eqb_eq in H1. apply IH in H2. congruence.
  - injection H as -> ->. rewrite Ascii.eqb_refl. apply (proj2 (IH b)). reflexivity.
Qed.
Lemma eqs_refl a : eqs a a = true. Proof. apply eqs_spec. reflexivity. Qed.
Lemma prefixb_app p r : prefixb p (p ++ r) = true.
Proof. induction p as [|x p IH]; cbn; [reflexivity|]. rewrite Ascii.eqb_refl. exact IH. Qed.
Lemma eqb_neq' a b : a <> b -> Ascii.eqb a b = false.
Proof. apply Ascii.eqb_neq. Qed.

Lemma split_skip sep s0 : forall cur rest, split_go sep (length s0) cur (s0 ++ rest) = split_go sep O cur rest.
Proof.
  induction s0 as [|c s0 IH]; intros cur rest; cbn [length app].
  - reflexivity.
  - cbn [split_go]. apply IH.
Qed.
Lemma split_over h sep x : forall cur rest, ~ In h x ->
  split_go (h :: sep) O cur (x ++ rest) = split_go (h :: sep) O (rev x ++ cur) rest.
Proof.
  induction x as [|c x IH]; intros cur rest Hx; cbn [app rev]; [reflexivity|].
  cbn [split_go prefixb]. rewrite eqb_neq' by (intro; subst; apply Hx; left; reflexivity). cbn [andb].
  rewrite IH by (intro; apply Hx; right; assumption). rewrite <- app_assoc. reflexivity.
Qed.
Lemma split_sep h sep cur rest :
  split_go (h :: sep) O cur ((h :: sep) ++ rest) = rev cur :: split_go (h :: sep) O [] rest.
Proof.
  cbn [app split_go]. replace (prefixb (h :: sep) (h :: sep ++ rest)) with true by (symmetry; apply (prefixb_app (h :: sep))).
  cbn [length]. rewrite Nat.sub_succ, Nat.sub_0_r. f_equal. apply split_skip.
Qed.
Lemma split_last h sep x cur : ~ In h x -> split_go (h :: sep) O cur x = [rev cur ++ x].
Proof.
  intro H. rewrite <- (app_nil_r x) at 1. rewrite split_over by exact H. cbn [split_go].
  rewrite rev_app_distr, rev_involutive. reflexivity.
Qed.
Lemma split_join h sep l : l <> [] -> Forall (fun x => ~ In h x) l ->
  split_on (h :: sep) (join (h :: sep) l) = l.
Proof.
  unfold split_on. intros Hl HF. destruct l as [|x l]; [contradiction|]. clear Hl.
  revert x HF. induction l as [|y l IH]; intros x HF; inversion HF as [|? ? Hx HF']; subst.
  - cbn [join]. rewrite split_last by exact Hx. reflexivity.
  - change (join (h :: sep) (x :: y :: l)) with (x ++ (h :: sep) ++ join (h :: sep) (y :: l)).
    rewrite split_over by exact Hx. rewrite split_sep, IH by exact HF'.
    rewrite app_nil_r, rev_involutive. reflexivity.
Qed.

Lemma lstrip_notin c s : ~ In c s -> lstrip c s = s.
Proof.
  destruct s as [|x s]; cbn; [reflexivity|]. intro H.
  rewrite eqb_neq' by (intro; subst; apply H; left; reflexivity). reflexivity.
Qed.
Lemma lstrip_one c s : ~ In c s -> lstrip c (c :: s) = s.
Proof. intro H. cbn. rewrite Ascii.eqb_refl. apply lstrip_notin, H. Qed.
Lemma rstrip_notin c s : ~ In c s -> rstrip c s = s.
Proof. intro H. unfold rstrip. rewrite lstrip_notin, rev_involutive; [reflexivity|]. rewrite <- in_rev. exact H. Qed.
Lemma rstrip_one c s : ~ In c s -> rstrip c (s ++ [c]) = s.
Proof.
  intro H. unfold rstrip. rewrite rev_app_distr. cbn [rev app].
  rewrite lstrip_one, rev_involutive; [reflexivity|]. rewrite <- in_rev. exact H.
Qed.

(** ** characters *)
Lemma letter_facts c : In c letters ->
  isdigit c = false /\ isspace c = false /\ c <> ch "-" /\ c <> ch "+" /\ c <> ch "," /\ c <> ch "(" /\ c <> ch ")".
Proof.
  assert (H : forallb (fun c => negb (isdigit c) && negb (isspace c) && negb (Ascii.eqb c (ch "-")) && negb (Ascii.eqb c (ch "+"))
    && negb (Ascii.eqb c (ch ",")) && negb (Ascii.eqb c (ch "(")) && negb (Ascii.eqb c (ch ")"))) letters = true) by reflexivity.
  rewrite forallb_forall in H. intro Hc. specialize (H c Hc).
  rewrite !andb_true_iff, !negb_true_iff, !Ascii.eqb_neq in H. tauto.
Qed.
Lemma decimal_facts c : In c decimals ->
  isdigit c = true /\ isspace c = false /\ c <> ch "-" /\ c <> ch "+" /\ c <> ch "," /\ c <> ch "(" /\ c <> ch ")".
Proof.
  assert (H : forallb (fun c => isdigit c && negb (isspace c) && negb (Ascii.eqb c (ch "-")) && negb (Ascii.eqb c (ch "+"))
    && negb (Ascii.eqb c (ch ",")) && negb (Ascii.eqb c (ch "(")) && negb (Ascii.eqb c (ch ")"))) decimals = true) by reflexivity.
  rewrite forallb_forall in H. intro Hc. specialize (H c Hc).
  rewrite !andb_true_iff, !negb_true_iff, !Ascii.eqb_neq in H. tauto.
Qed.
Lemma decimal_value k c : nth_error decimals k = Some c -> digit c = Z.of_nat k /\ In c decimals.
Proof.
  intro H. split; [|eapply nth_error_In; exact H].
  do 10 (destruct k as [|k]; [cbn in H; injection H as <-; reflexivity|]). destruct k; discriminate.
Qed.

Lemma numeral_digits s n : numeral s n -> s <> [] /\ Forall (fun c => In c decimals) s.
Proof.
  induction 1 as [c k H|s n c k H IH Hc].
  - split; [discriminate|]. apply decimal_value in H as [_ H]. apply Forall_cons; [exact H|apply Forall_nil].
  - destruct IH as [_ IH]. split; [destruct s; discriminate|]. apply Forall_app. split; [exact IH|].
    apply decimal_value in Hc as [_ Hc]. apply Forall_cons; [exact Hc|apply Forall_nil].
Qed.
Lemma int_digits_all s : forall p acc, Forall (fun c => In c decimals) s -> p = true \/ s <> [] ->
  int_digits p acc s = Some (fold_left (fun a c => a * 10 + digit c) s acc).
Proof.
  induction s as [|c s IH]; intros p acc HF Hp; cbn.
  - destruct Hp as [->|C]; [reflexivity|contradiction].
  - inversion HF as [|? ? Hc HF']; subst. destruct (decimal_facts c Hc) as [-> _].
    apply IH; [exact HF'|left; reflexivity].
Qed.
Lemma numeral_value s n : numeral s n -> fold_left (fun a c => a * 10 + digit c) s 0 = n.
Proof.
  induction 1 as [c k H|s n c k H IH Hc].
  - cbn [fold_left]. apply decimal_value in H as [-> _]. lia.
  - rewrite fold_left_app, IH. cbn [fold_left]. apply decimal_value in Hc as [-> _]. lia.
Qed.
Lemma strip_space_id s : (forall c r, s = c :: r -> isspace c = false) -> strip_space s = s.
Proof. destruct s as [|c s]; cbn; [reflexivity|]. intro H. rewrite (H c s eq_refl). reflexivity. Qed.
Lemma strips_id s : Forall (fun c => isspace c = false) s -> rev (strip_space (rev (strip_space s))) = s.
Proof.
  intro HF. rewrite (strip_space_id s).
  - rewrite strip_space_id, rev_involutive; [reflexivity|]. intros c r E.
    rewrite Forall_forall in HF. apply HF. rewrite in_rev, E. left; reflexivity.
  - intros c r ->. inversion HF; assumption.
Qed.
Lemma py_int_numeral s n : numeral s n -> py_int s = Some n.
Proof.
  intro H. destruct (numeral_digits s n H) as [Hs HF]. unfold py_int. rewrite strips_id.
  2:{ eapply Forall_impl; [|exact HF]. intros c Hc. apply decimal_facts, Hc. }
  destruct s as [|c s]; [contradiction|]. inversion HF as [|? ? Hc _]; subst.
  destruct (decimal_facts c Hc) as (_ & _ & H1 & H2 & _). rewrite !eqb_neq' by assumption.
  rewrite int_digits_all by (assumption || (right; discriminate)). f_equal. apply numeral_value, H.
Qed.
Lemma ident_chars s : ident s -> Forall (fun c => In c letters \/ In c decimals) s.
Proof. destruct s as [|c s]; cbn; [contradiction|]. intros [H1 H2]. apply Forall_cons; [left; exact H1|exact H2]. Qed.
Lemma py_int_ident s : ident s -> py_int s = None.
Proof.
  intro H. unfold py_int. rewrite strips_id.
  2:{ eapply Forall_impl; [|apply ident_chars, H]. intros c [Hc|Hc]; [apply letter_facts, Hc|apply decimal_facts, Hc]. }
  destruct s as [|c s]; [contradiction|]. destruct H as [Hc _].
  destruct (letter_facts c Hc) as (Hd & _ & H1 & H2 & _). rewrite !eqb_neq' by assumption.
  cbn [int_digits]. rewrite Hd, andb_false_r. reflexivity.
Qed.

(** ** the text of a signature *)
Definition plain (c : ascii) : Prop := c <> ch "," /\ c <> ch "(" /\ c <> ch ")" /\ c <> ch "-".
Definition plainc (c : ascii) : Prop := c <> ch "(" /\ c <> ch ")" /\ c <> ch "-".
Lemma spells_dim_plain d s : spells_dim d s -> s <> [] /\ Forall plain s.
Proof.
  intro H. destruct H as [s H|s n H _].
  - split; [intros ->; exact H|]. eapply Forall_impl; [|apply ident_chars, H]. unfold plain.
    intros c [Hc|Hc]; [apply letter_facts in Hc|apply decimal_facts in Hc]; tauto.
  - apply numeral_digits in H as [H1 H2]. split; [exact H1|]. eapply Forall_impl; [|exact H2].
    unfold plain. intros c Hc. apply decimal_facts in Hc. tauto.
Qed.
Definition item_of (d : dim) : item := match d with DName s => IStr s | DNum n => INum n end.
Definition shape_of (ds : list dim) : shape :=
  match ds with [] => Single (IStr []) | [d] => Single (item_of d) | _ => Seq (map item_of ds) end.
Lemma to_item_spells d s : spells_dim d s -> to_item s = item_of d.
Proof.
  unfold to_item. intro H. destruct H as [s H|s n H _].
  - rewrite py_int_ident by exact H. reflexivity.
  - rewrite (py_int_numeral s n H). reflexivity.
Qed.
Lemma toseq_spells ds l : Forall2 spells_dim ds l -> toseq (join (S_ ",") l) = shape_of ds.
Proof.
  intro H. unfold toseq. destruct H as [|d s ds l Hd HF].
  - reflexivity.
  - change (S_ ",") with [ch ","]. rewrite split_join.
    + assert (E : map to_item (s :: l) = map item_of (d :: ds)).
      { cbn. f_equal; [apply to_item_spells, Hd|]. clear Hd. induction HF; cbn; [reflexivity|].
        f_equal; [apply to_item_spells; assumption|assumption]. }
      rewrite E. destruct ds as [|d2 ds]; reflexivity.
    + discriminate.
    + assert (HF2 : Forall2 spells_dim (d :: ds) (s :: l)) by (constructor; assumption). clear - HF2.
      induction HF2 as [|d' s' ds' l' H HF' IH]; [apply Forall_nil|]. apply Forall_cons; [|exact IH].
      apply spells_dim_plain in H as [_ H]. rewrite Forall_forall in H. intro C. apply (proj1 (H _ C)). reflexivity.
Qed.

Lemma join_plainc ds l : Forall2 spells_dim ds l -> Forall plainc (join (S_ ",") l).
Proof.
  intro H. destruct H as [|d s ds l Hd HF]; [apply Forall_nil|].
  revert d s Hd. induction HF as [|d2 s2 ds l H2 HF IH]; intros d s Hd.
  - cbn [join]. apply spells_dim_plain in Hd as [_ Hd]. eapply Forall_impl; [|exact Hd]. unfold plain, plainc. tauto.
  - change (join (S_ ",") (s :: s2 :: l)) with (s ++ S_ "," ++ join (S_ ",") (s2 :: l)).
    apply Forall_app. split.
    + apply spells_dim_plain in Hd as [_ Hd]. eapply Forall_impl; [|exact Hd]. unfold plain, plainc. tauto.
    + apply Forall_app. split; [|eapply IH; exact H2].
      apply Forall_cons; [|apply Forall_nil]. unfold plainc. repeat split; discriminate.
Qed.

(** bodies of the operands *)
Definition paren (b : str) : str := S_ "(" ++ b ++ S_ ")".
Lemma ops_bodies ops lt : Forall2 spells_op ops lt ->
  exists lb, lt = map paren lb /\ Forall (Forall plainc) lb /\ map toseq lb = map shape_of ops.
Proof.
  induction 1 as [|ds t ops lt H HF IH].
  - exists []. repeat split. apply Forall_nil.
  - destruct IH as (lb & -> & H1 & H2). destruct H as (l & Hl & ->).
    exists (join (S_ ",") l :: lb). split; [reflexivity|]. split.
    + apply Forall_cons; [eapply join_plainc; exact Hl|exact H1].
    + cbn [map]. f_equal; [apply toseq_spells, Hl|exact H2].
Qed.
Lemma join_parens b r : join (S_ ",") (map paren (b :: r)) = S_ "(" ++ join (S_ "),(") (b :: r) ++ S_ ")".
Proof.
  revert b. induction r as [|c r IH]; intro b; [reflexivity|].
  change (join (S_ ",") (map paren (b :: c :: r))) with (paren b ++ S_ "," ++ join (S_ ",") (map paren (c :: r))).
  rewrite IH. change (join (S_ "),(") (b :: c :: r)) with (b ++ S_ "),(" ++ join (S_ "),(") (c :: r)).
  unfold paren. cbn [S_ list_ascii_of_string app]. rewrite <- !app_assoc. reflexivity.
Qed.

Definition strip2 (p : str) : str := rstrip (ch ")") (lstrip (ch "(") p).
Lemma plainc_notin b : Forall plainc b -> ~ In (ch "(") b /\ ~ In (ch ")") b /\ ~ In (ch "-") b.
Proof. rewrite Forall_forall. intro H. repeat split; intro C; apply H in C; unfold plainc in C; tauto. Qed.
Lemma strip2_a b : Forall plainc b -> strip2 b = b.
Proof. intro H. apply plainc_notin in H as (H1 & H2 & _). unfold strip2. rewrite lstrip_notin, rstrip_notin; auto. Qed.
Lemma strip2_b b : Forall plainc b -> strip2 (ch "(" :: b) = b.
Proof. intro H. apply plainc_notin in H as (H1 & H2 & _). unfold strip2. rewrite lstrip_one, rstrip_notin; auto. Qed.
Lemma notin_snoc c d (b : str) : ~ In c b -> c <> d -> ~ In c (b ++ [d]).
Proof. intros H1 H2 C. apply in_app_or in C as [C|[C|[]]]; auto. Qed.
Lemma strip2_c b : Forall plainc b -> strip2 (b ++ [ch ")"]) = b.
Proof.
  intro H. apply plainc_notin in H as (H1 & H2 & _). unfold strip2.
  rewrite lstrip_notin, rstrip_one; auto. apply notin_snoc; [exact H1|discriminate].
Qed.
Lemma strip2_d b : Forall plainc b -> strip2 (ch "(" :: b ++ [ch ")"]) = b.
Proof.
  intro H. apply plainc_notin in H as (H1 & H2 & _). unfold strip2.
  rewrite lstrip_one, rstrip_one; auto. apply notin_snoc; [exact H1|discriminate].
Qed.

Lemma split_end b cur : ~ In (ch ")") b ->
  split_go (S_ "),(") O cur (b ++ [ch ")"]) = [rev cur ++ b ++ [ch ")"]].
Proof.
  intro H. change (S_ "),(") with (ch ")" :: S_ ",("). rewrite split_over by exact H.
  cbn [split_go prefixb]. rewrite andb_false_r. cbn [split_go]. cbn [rev].
  rewrite rev_app_distr, rev_involutive, <- app_assoc. reflexivity.
Qed.
Lemma split_bodies r : forall b cur, cur = [] \/ cur = [ch "("] -> Forall (Forall plainc) (b :: r) ->
  map strip2 (split_go (S_ "),(") O cur (join (S_ "),(") (b :: r) ++ S_ ")")) = b :: r.
Proof.
  induction r as [|c r IH]; intros b cur Hcur HF; inversion HF as [|? ? Hb HF']; subst.
  - cbn [join]. change (S_ ")") with [ch ")"]. rewrite split_end by (apply plainc_notin, Hb). cbn [map]. f_equal.
    destruct Hcur as [->| ->]; cbn [rev app]; [apply strip2_c|apply strip2_d]; exact Hb.
  - change (join (S_ "),(") (b :: c :: r)) with (b ++ S_ "),(" ++ join (S_ "),(") (c :: r)).
    rewrite <- !app_assoc. change (S_ "),(") with (ch ")" :: S_ ",(").
    rewrite split_over by (apply plainc_notin, Hb). rewrite split_sep. cbn [map]. f_equal.
    + rewrite rev_app_distr, rev_involutive.
      destruct Hcur as [->| ->]; cbn [rev app]; [apply strip2_a|apply strip2_b]; exact Hb.
    + apply IH; [left; reflexivity|exact HF'].
Qed.
Lemma split_parts_spells ops lt : ops <> [] -> Forall2 spells_op ops lt ->
  split_parts (join (S_ ",") lt) = map shape_of ops.
Proof.
  intros Hne H. destruct (ops_bodies ops lt H) as (lb & -> & HF & <-).
  destruct lb as [|b lb]; [exfalso; inversion H; subst; contradiction|].
   rewrite join_parens.
  unfold split_parts, split_on.
  change (map (fun p => toseq (strip2 p)) (split_go (S_ "),(") 0 [ch "("] (join (S_ "),(") (b :: lb) ++ S_ ")")) = map toseq (b :: lb)).
  rewrite <- (map_map strip2 toseq). rewrite split_bodies; [reflexivity|right; reflexivity|exact HF].
Qed.
Lemma one_char (a b : ascii) : a <> b -> ~ In a [b].
Proof. intros H [C|[]]. congruence. Qed.
Lemma join_nodash ops lt : Forall2 spells_op ops lt -> ~ In (ch "-") (join (S_ ",") lt).
Proof.
  intro H. destruct (ops_bodies ops lt H) as (lb & -> & HF & _). destruct lb as [|b lb]; [cbn; tauto|].
   clear H.
  revert b HF. induction lb as [|c lb IH]; intros b HF; inversion HF as [|? ? Hb HF']; subst.
  - cbn [map join]. unfold paren. intro C. apply in_app_or in C as [C|C]; [revert C; apply one_char; discriminate|].
    revert C. apply notin_snoc; [apply plainc_notin, Hb|discriminate].
  - change (join (S_ ",") (map paren (b :: c :: lb))) with (paren b ++ S_ "," ++ join (S_ ",") (map paren (c :: lb))).
    unfold paren at 1. intro C. apply in_app_or in C as [C|C].
    + apply in_app_or in C as [C|C]; [revert C; apply one_char; discriminate|].
      revert C. apply notin_snoc; [apply plainc_notin, Hb|discriminate].
    + apply in_app_or in C as [C|C]; [revert C; apply one_char; discriminate|]. exact (IH c HF' C).
Qed.

(** ** core dimensions *)
Lemma item_eqb_spec a b : item_eqb a b = true <-> a = b.
Proof.
  destruct a as [s|m], b as [t|n]; cbn; split; intro H; try discriminate.
  - apply eqs_spec in H. congruence.
  - injection H as ->. apply eqs_refl.
  - apply Z.eqb_eq in H. congruence.
  - injection H as ->. apply Z.eqb_refl.
Qed.
Lemma item_of_inj a b : item_of a = item_of b -> a = b.
Proof. destruct a, b; cbn; congruence. Qed.
Definition wf_dim (d : dim) : Prop := match d with DName s => ident s | DNum n => 1 <= n end.
Lemma spells_dim_wf d s : spells_dim d s -> wf_dim d.
Proof. destruct 1; assumption. Qed.
Lemma spells_op_wf ops lt : Forall2 spells_op ops lt -> Forall (Forall wf_dim) ops.
Proof.
  induction 1 as [|ds t ops lt H HF IH]; [apply Forall_nil|]. apply Forall_cons; [|exact IH].
  destruct H as (l & Hl & _). clear - Hl. induction Hl; [apply Forall_nil|].
  apply Forall_cons; [eapply spells_dim_wf; eassumption|assumption].
Qed.
Lemma spells_wf g t : spells g t -> Forall (Forall wf_dim) (operands g).
Proof.
  intros (_ & _ & li & lo & H1 & H2 & _). unfold operands. apply Forall_app.
  split; eapply spells_op_wf; eassumption.
Qed.

Definition dstep (acc : list dim) (d : dim) := if in_dec dim_dec d acc then acc else acc ++ [d].
Definition notin (acc : list dim) (d : dim) : bool := if in_dec dim_dec d acc then false else true.
Lemma remove_filter d l : List.remove dim_dec d l = filter (fun x => if dim_dec d x then false else true) l.
Proof. induction l as [|x l IH]; cbn; [reflexivity|]. destruct (dim_dec d x); [exact IH|]. f_equal. exact IH. Qed.
Lemma filter_filter {X} (f g : X -> bool) l : filter f (filter g l) = filter (fun x => f x && g x) l.
Proof. induction l as [|x l IH]; cbn; [reflexivity|]. destruct (g x); cbn; [destruct (f x); cbn; [f_equal|]; exact IH|rewrite andb_false_r; exact IH]. Qed.
Lemma dstep_distinct l : forall acc, fold_left dstep l acc = acc ++ filter (notin acc) (distinct l).
Proof.
  induction l as [|d l IH]; intro acc; cbn [fold_left distinct filter].
  - rewrite app_nil_r. reflexivity.
  - rewrite IH. unfold dstep at 1 2. unfold notin at 2. rewrite remove_filter, filter_filter.
    destruct (in_dec dim_dec d acc) as [Hd|Hd].
    + f_equal. apply filter_ext. intro x. unfold notin. destruct (in_dec dim_dec x acc) as [|Hx]; [reflexivity|].
      destruct (dim_dec d x); [subst; contradiction|reflexivity].
    + rewrite <- app_assoc. cbn [app]. f_equal. f_equal. apply filter_ext. intro x. unfold notin.
      destruct (in_dec dim_dec x (acc ++ [d])) as [Hx|Hx]; destruct (in_dec dim_dec x acc) as [Hy|Hy]; destruct (dim_dec d x) as [E|E]; try reflexivity;
        exfalso; rewrite in_app_iff in Hx; cbn in Hx; intuition.
Qed.
Lemma fold_dstep_nil l : fold_left dstep l [] = distinct l.
Proof. rewrite dstep_distinct. cbn [app]. rewrite <- (filter_ext (fun _ => true)); [|intro x; reflexivity].
  induction (distinct l) as [|x r IH]; cbn; [reflexivity|]. f_equal. exact IH. Qed.

Definition istep (dims : list item) (i : item) : list item :=
  let i := re_int i in if item_eqb i (IStr []) || existsb (item_eqb i) dims then dims else dims ++ [i].
Lemma re_int_item d : wf_dim d -> re_int (item_of d) = item_of d.
Proof. destruct d as [s|n]; cbn; [|reflexivity]. intro H. unfold to_item. rewrite py_int_ident by exact H. reflexivity. Qed.
Lemma existsb_item d acc : existsb (item_eqb (item_of d)) (map item_of acc) = if in_dec dim_dec d acc then true else false.
Proof.
  destruct (in_dec dim_dec d acc) as [H|H].
  - apply existsb_exists. exists (item_of d). split; [apply in_map, H|apply item_eqb_spec; reflexivity].
  - apply not_true_is_false. intro C. apply existsb_exists in C as (x & Hx & E). apply item_eqb_spec in E. subst x.
    apply in_map_iff in Hx as (y & E & Hy). apply item_of_inj in E. subst. contradiction.
Qed.
Lemma istep_item acc d : wf_dim d -> istep (map item_of acc) (item_of d) = map item_of (dstep acc d).
Proof.
  intro H. unfold istep, dstep. rewrite re_int_item by exact H. rewrite existsb_item.
  assert (E : item_eqb (item_of d) (IStr []) = false).
  { apply not_true_is_false. intro C. apply item_eqb_spec in C. destruct d as [s|n]; [|discriminate]. injection C as ->. exact H. }
  rewrite E. cbn [orb]. destruct (in_dec dim_dec d acc); [reflexivity|]. rewrite map_app. reflexivity.
Qed.
Lemma fold_istep l : forall acc, Forall wf_dim l -> fold_left istep (map item_of l) (map item_of acc) = map item_of (fold_left dstep l acc).
Proof.
  induction l as [|d l IH]; intros acc HF; cbn [map fold_left]; [reflexivity|]. inversion HF; subst.
  rewrite istep_item by assumption. apply IH. assumption.
Qed.
Lemma fold_flatten ops : forall acc, Forall (Forall wf_dim) ops ->
  fold_left istep (flatten (map shape_of ops)) (map item_of acc) = map item_of (fold_left dstep (concat ops) acc).
Proof.
  unfold flatten. induction ops as [|ds ops IH]; intros acc HF; cbn [map concat]; [reflexivity|].
  inversion HF as [|? ? Hd HF']; subst. rewrite !fold_left_app.
  assert (E : fold_left istep (match shape_of ds with Single i => [i] | Seq l => l end) (map item_of acc)
              = map item_of (fold_left dstep ds acc)).
  { destruct ds as [|d [|d2 ds]].
    - cbn. unfold istep. cbn. reflexivity.
    - exact (fold_istep [d] acc Hd).
    - exact (fold_istep (d :: d2 :: ds) acc Hd). }
  rewrite E. apply IH, HF'.
Qed.

Theorem parse_spells g t : spells g t ->
  parse_gufunc_signature t = Some (map item_of (distinct (all_dims g)), map shape_of (ins g), map shape_of (outs g)).
Proof.
  intro Hs. pose proof (spells_wf g t Hs) as Hwf. destruct Hs as (Hi & Ho & li & lo & H1 & H2 & E).
  unfold parse_gufunc_signature. change (remove_char (ch " ") t) with (filter (fun c => negb (Ascii.eqb c (ascii_of_nat 32))) t).
  rewrite E.
  assert (Es : split_on (S_ "->") (join (S_ ",") li ++ S_ "->" ++ join (S_ ",") lo) = [join (S_ ",") li; join (S_ ",") lo]).
  { change (S_ "->") with (ch "-" :: S_ ">").
    change (join (S_ ",") li ++ (ch "-" :: S_ ">") ++ join (S_ ",") lo)
      with (join (ch "-" :: S_ ">") [join (S_ ",") li; join (S_ ",") lo]).
    apply split_join; [discriminate|]. apply Forall_cons; [eapply join_nodash; exact H1|].
    apply Forall_cons; [eapply join_nodash; exact H2|apply Forall_nil]. }
  rewrite Es, (split_parts_spells (ins g) li), (split_parts_spells (outs g) lo) by assumption.
  f_equal. f_equal. f_equal. unfold collect_dims. fold istep.
  change (fold_left istep (flatten (map shape_of (ins g)) ++ flatten (map shape_of (outs g))) [] = map item_of (distinct (all_dims g))).
  replace (flatten (map shape_of (ins g)) ++ flatten (map shape_of (outs g))) with (flatten (map shape_of (operands g))).
  - change (@nil item) with (map item_of []). rewrite fold_flatten by exact Hwf. rewrite fold_dstep_nil. reflexivity.
  - unfold operands, flatten. rewrite !map_app, concat_app. reflexivity.
Qed.

(** ** get_nin_nout *)
Definition nstep (st : Z * Z * bool) (c : ascii) : Z * Z * bool :=
  let '(nin, nout, out) := st in
  if Ascii.eqb c (ch "-") then (nin, nout, true)
  else if Ascii.eqb c (ch "(") then (if out then (nin, nout + 1, out) else (nin + 1, nout, out))
  else st.
Lemma nstep_plain s : forall st, Forall (fun c => c <> ch "(" /\ c <> ch "-") s -> fold_left nstep s st = st.
Proof.
  induction s as [|c s IH]; intros st HF; cbn [fold_left]; [reflexivity|]. inversion HF as [|? ? [H1 H2] HF']; subst.
  rewrite IH by exact HF'. destruct st as [[a b] o]. unfold nstep. rewrite !eqb_neq' by assumption. reflexivity.
Qed.
Lemma nstep_blank t : forall st, fold_left nstep (filter (fun c => negb (Ascii.eqb c (ascii_of_nat 32))) t) st = fold_left nstep t st.
Proof.
  induction t as [|c t IH]; intro st; cbn [filter fold_left]; [reflexivity|].
  destruct (Ascii.eqb c (ascii_of_nat 32)) eqn:E; cbn [negb].
  - apply Ascii.eqb_eq in E. subst c. rewrite IH. destruct st as [[a b] o]. reflexivity.
  - cbn [fold_left]. apply IH.
Qed.
Definition bump (k : Z) (st : Z * Z * bool) : Z * Z * bool :=
  let '(a, b, o) := st in if o then (a, b + k, o) else (a + k, b, o).
Lemma bump_bump i j st : bump i (bump j st) = bump (j + i) st.
Proof. destruct st as [[a b] []]; cbn; f_equal; f_equal; lia. Qed.
Lemma nstep_paren b st : Forall plainc b -> fold_left nstep (paren b) st = bump 1 st.
Proof.
  intro H. unfold paren. rewrite !fold_left_app. cbn [S_ list_ascii_of_string fold_left].
  assert (E : nstep st (ch "(") = bump 1 st) by (destruct st as [[x y] []]; reflexivity).
  change ("(")%char with (ch "("). rewrite E. rewrite nstep_plain.
  - destruct st as [[x y] []]; reflexivity.
  - eapply Forall_impl; [|exact H]. unfold plainc. tauto.
Qed.
Lemma nstep_join lb : forall st, Forall (Forall plainc) lb -> fold_left nstep (join (S_ ",") (map paren lb)) st = bump (Z.of_nat (length lb)) st.
Proof.
  induction lb as [|b lb IH]; intros st HF; inversion HF as [|? ? Hb HF']; subst.
  - cbn. destruct st as [[x y] []]; cbn; rewrite Z.add_0_r; reflexivity.
  - destruct lb as [|c lb].
    + cbn [map join]. rewrite nstep_paren by exact Hb. reflexivity.
    + change (join (S_ ",") (map paren (b :: c :: lb))) with (paren b ++ S_ "," ++ join (S_ ",") (map paren (c :: lb))).
      rewrite !fold_left_app, nstep_paren by exact Hb. rewrite (nstep_plain (S_ ",")).
      2:{ apply Forall_cons; [split; discriminate|apply Forall_nil]. }
      rewrite IH by exact HF'. rewrite bump_bump. f_equal. cbn [length]. lia.
Qed.
Theorem nin_nout_spells g t : spells g t ->
  get_nin_nout t = (Z.of_nat (length (ins g)), Z.of_nat (length (outs g))).
Proof.
  intros (_ & _ & li & lo & H1 & H2 & E). unfold get_nin_nout. fold nstep.
  change (fold_left _ t (0, 0, false)) with (fold_left nstep t (0, 0, false)).
  rewrite <- nstep_blank, E, !fold_left_app.
  pose proof (ops_bodies _ _ H1) as (lb1 & -> & F1 & E1). pose proof (ops_bodies _ _ H2) as (lb2 & -> & F2 & E2).
  rewrite (nstep_join lb1) by exact F1.
  change (fold_left nstep (S_ "->") (bump (Z.of_nat (length lb1)) (0, 0, false))) with (Z.of_nat (length lb1), 0, true).
  rewrite (nstep_join lb2) by exact F2. cbn [bump]. rewrite Z.add_0_l.
  apply (f_equal (@length shape)) in E1. apply (f_equal (@length shape)) in E2. rewrite !map_length in E1, E2.
  rewrite <- E1, <- E2. reflexivity.
Qed.

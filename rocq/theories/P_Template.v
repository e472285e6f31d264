(** Proofs about the template expander. *)
From Coq Require Import ZArith Bool Ascii String List Lia Sorting.Sorted.
From Verif Require Import CSem M_Gen M_Gendot M_Template S_Gen S_GenNames S_Template P_Gen P_GenNames.
Import ListNotations.
Open Scope Z_scope.

(** ** characters *)
Lemma all_ascii (f : ascii -> bool) : forallb f (map ascii_of_nat (seq 0 256)) = true -> forall c, f c = true.
Proof.
  intros H c. rewrite forallb_forall in H. apply H. apply in_map_iff. exists (nat_of_ascii c). split; [apply ascii_nat_embedding|].
  apply in_seq. pose proof (nat_ascii_bounded c). lia.
Qed.
Definition memb (c : ascii) (l : str) : bool := existsb (Ascii.eqb c) l.
Lemma memb_In c l : memb c l = true <-> In c l.
Proof.
  unfold memb. rewrite existsb_exists. split; [intros (x & Hx & E); apply Ascii.eqb_eq in E; now subst|].
  intros H. exists c. split; [exact H|apply Ascii.eqb_refl].
Qed.
Lemma isword_In c : isword c = true <-> In c (letters ++ decimals).
Proof.
  rewrite <- memb_In. assert (E : isword c = memb c (letters ++ decimals)); [|now rewrite E].
  apply eqb_prop. revert c. apply all_ascii. vm_compute. reflexivity.
Qed.
Lemma isspace_In c : isspace c = true <-> In c whitespace.
Proof.
  rewrite <- memb_In. assert (E : isspace c = memb c whitespace); [|now rewrite E].
  apply eqb_prop. revert c. apply all_ascii. vm_compute. reflexivity.
Qed.
Lemma isdigit_In c : isdigit c = true <-> In c decimals.
Proof.
  rewrite <- memb_In. assert (E : isdigit c = memb c decimals); [|now rewrite E].
  apply eqb_prop. revert c. apply all_ascii. vm_compute. reflexivity.
Qed.
Lemma isspace_not c : isspace c = false <-> ~ In c whitespace.
Proof. rewrite <- isspace_In. destruct (isspace c); split; congruence. Qed.
Lemma word_not_space c : isword c = true -> isspace c = false.
Proof.
  assert (E : (if isword c then negb (isspace c) else true) = true) by (revert c; apply all_ascii; vm_compute; reflexivity).
  intros H. rewrite H in E. now apply negb_true_iff in E.
Qed.

Lemma memb_false c l : memb c l = false -> ~ In c l.
Proof. intros H K. apply memb_In in K. congruence. Qed.
Lemma space_not_decimal c : In c whitespace -> ~ In c decimals.
Proof.
  intros H. apply isspace_In in H. apply memb_false.
  assert (E : (if isspace c then negb (memb c decimals) else true) = true) by (revert c H; intros c _; revert c; apply all_ascii; vm_compute; reflexivity).
  rewrite H in E. now apply negb_true_iff in E.
Qed.

(** ** [span], [resub], [findall] *)
Lemma span_all f a b : Forall (fun c => f c = true) a -> (forall c r, b = c :: r -> f c = false) -> span f (a ++ b) = (a, b).
Proof.
  intros Ha Hb. induction Ha as [|c a Hc Ha IH]; cbn [app].
  - destruct b as [|c b]; [reflexivity|]. cbn. now rewrite (Hb c b eq_refl).
  - cbn [span]. rewrite Hc, IH. reflexivity.
Qed.
Lemma span_app f s : s = fst (span f s) ++ snd (span f s).
Proof. induction s as [|c s IH]; cbn; [reflexivity|]. destruct (f c); [|reflexivity]. destruct (span f s) as [a b]. cbn in *. now f_equal. Qed.
Lemma resub_skip m a r : resub m (length a) (a ++ r) = resub m 0 r.
Proof. induction a as [|c a IH]; [reflexivity|]. cbn [length app resub]. exact IH. Qed.
Lemma findall_skip {A} (m : str -> option (nat * A)) a r : findall m (length a) (a ++ r) = findall m 0 r.
Proof. induction a as [|c a IH]; [reflexivity|]. cbn [length app findall]. exact IH. Qed.
Lemma resub_hit m a r rep : a <> [] -> m (a ++ r) = Some (length a, rep) -> resub m 0 (a ++ r) = rep ++ resub m 0 r.
Proof.
  intros Ha E. destruct a as [|c a]; [congruence|]. cbn [app] in *. cbn [resub]. rewrite E. f_equal. cbn [length].
  rewrite Nat.sub_succ, Nat.sub_0_r. apply resub_skip.
Qed.
Lemma findall_hit {A} (m : str -> option (nat * A)) a r x : a <> [] -> m (a ++ r) = Some (length a, x) -> findall m 0 (a ++ r) = x :: findall m 0 r.
Proof.
  intros Ha E. destruct a as [|c a]; [congruence|]. cbn [app] in *. cbn [findall]. rewrite E. f_equal. cbn [length].
  rewrite Nat.sub_succ, Nat.sub_0_r. apply findall_skip.
Qed.
Lemma resub_miss m a r : (forall x y, a = x ++ y -> y <> [] -> m (y ++ r) = None) -> resub m 0 (a ++ r) = a ++ resub m 0 r.
Proof.
  induction a as [|c a IH]; intros H; [reflexivity|]. cbn [app resub]. change (c :: a ++ r) with ((c :: a) ++ r).
  rewrite (H [] (c :: a) eq_refl) by discriminate. f_equal. apply IH. intros x y E Ny. apply (H (c :: x) y); [cbn; congruence|exact Ny].
Qed.
Lemma findall_miss {A} (m : str -> option (nat * A)) a r : (forall x y, a = x ++ y -> y <> [] -> m (y ++ r) = None) -> findall m 0 (a ++ r) = findall m 0 r.
Proof.
  induction a as [|c a IH]; intros H; [reflexivity|]. cbn [app findall]. change (c :: a ++ r) with ((c :: a) ++ r).
  rewrite (H [] (c :: a) eq_refl) by discriminate. apply IH. intros x y E Ny. apply (H (c :: x) y); [cbn; congruence|exact Ny].
Qed.

(** ** value lists *)
Lemma commas_join l : commas l = join (S_ ",") l.
Proof. induction l as [|x [|y l] IH]; [reflexivity|reflexivity|]. change (x ++ S_ "," ++ commas (y :: l) = x ++ S_ "," ++ join (S_ ",") (y :: l)). now rewrite IH. Qed.
Lemma join_app sep l1 l2 : l1 <> [] -> l2 <> [] -> join sep (l1 ++ l2) = join sep l1 ++ sep ++ join sep l2.
Proof.
  intros H1 H2. induction l1 as [|x l1 IH]; [congruence|]. destruct l1 as [|y l1].
  - cbn [app join]. destruct l2; [congruence|]. reflexivity.
  - change ((x :: y :: l1) ++ l2) with (x :: (y :: l1) ++ l2). change (join sep (x :: (y :: l1) ++ l2)) with (x ++ sep ++ join sep ((y :: l1) ++ l2)).
    rewrite IH by discriminate. change (join sep (x :: y :: l1)) with (x ++ sep ++ join sep (y :: l1)). rewrite <- !app_assoc. reflexivity.
Qed.
Lemma join_concat sep ls : Forall (fun l => l <> []) ls -> join sep (map (join sep) ls) = join sep (concat ls).
Proof.
  intros H. induction H as [|l ls Hl Hls IH]; [reflexivity|]. destruct ls as [|l' ls].
  - cbn [map join concat]. now rewrite app_nil_r.
  - change (map (join sep) (l :: l' :: ls)) with (join sep l :: map (join sep) (l' :: ls)).
    change (join sep (join sep l :: map (join sep) (l' :: ls))) with (join sep l ++ sep ++ join sep (map (join sep) (l' :: ls))).
    rewrite IH. change (concat (l :: l' :: ls)) with (l ++ concat (l' :: ls)). rewrite join_app; [reflexivity|exact Hl|].
    inversion Hls as [|? ? H1 H2]; subst. cbn [concat]. destruct l'; [congruence|discriminate].
Qed.

Definition clean_of (l : str) (s : str) : Prop := Forall (fun c => ~ In c l) s.
Lemma blanks_clean s l : blanks s -> forallb (fun c => negb (memb c l)) whitespace = true -> clean_of l s.
Proof.
  intros H E. rewrite forallb_forall in E. eapply Forall_impl; [|exact H]. cbn. intros c Hc Hl. specialize (E c Hc).
  apply memb_In in Hl. rewrite Hl in E. discriminate.
Qed.
Lemma numeral_clean d n l : numeral d n -> forallb (fun c => negb (memb c l)) decimals = true -> clean_of l d.
Proof.
  intros H E. rewrite forallb_forall in E. eapply Forall_impl; [|exact (proj2 (numeral_digits d n H))]. cbn. intros c Hc Hl. specialize (E c Hc).
  apply memb_In in Hl. rewrite Hl in E. discriminate.
Qed.
Lemma clean_sub l l' s : clean_of l' s -> forallb (fun c => memb c l') l = true -> clean_of l s.
Proof. intros H E. rewrite forallb_forall in E. eapply Forall_impl; [|exact H]. cbn. intros c Hc Hl. apply Hc, memb_In, E, Hl. Qed.
Lemma clean_app l a b : clean_of l a -> clean_of l b -> clean_of l (a ++ b).
Proof. intros. apply Forall_app. split; assumption. Qed.
Lemma clean_notin l s c : clean_of l s -> In c l -> ~ In c s.
Proof. intros H Hc Hs. unfold clean_of in H. rewrite Forall_forall in H. exact (H c Hs Hc). Qed.
Lemma item_clean i t : spells_item i t -> clean_of (S_ ",#()") t.
Proof.
  intros H. destruct H as [a v b Ha Hb [Hv _]|a v d n b Ha Hb [Hv _] Nv Hd Hn].
  - repeat apply clean_app; try (apply blanks_clean; [assumption|reflexivity]). eapply clean_sub; [exact Hv|reflexivity].
  - repeat apply clean_app; try (apply blanks_clean; [assumption|reflexivity]). 
    + eapply clean_sub; [exact Hv|reflexivity].
    + repeat constructor; cbn; intuition congruence.
    + eapply numeral_clean; [exact Hd|reflexivity].
Qed.
Lemma blanks_app a b : blanks a -> blanks b -> blanks (a ++ b).
Proof. intros. apply Forall_app. split; assumption. Qed.
Lemma item_left a i t : blanks a -> spells_item i t -> spells_item i (a ++ t).
Proof.
  intros Ha H. destruct H as [a' v b Ha' Hb Hv|a' v d n b Ha' Hb Hv Nv Hd Hn]; rewrite app_assoc; constructor; try assumption; apply blanks_app; assumption.
Qed.
Lemma item_right b i t : blanks b -> spells_item i t -> spells_item i (t ++ b).
Proof.
  intros Hb H. destruct H as [a' v b' Ha' Hb' Hv|a' v d n b' Ha' Hb' Hv Nv Hd Hn]; rewrite <- !app_assoc.
  - apply s_one; try assumption. apply blanks_app; assumption.
  - apply s_many; try assumption. apply blanks_app; assumption.
Qed.
Lemma item_pad a b is ts : blanks a -> blanks b -> is <> [] -> Forall2 spells_item is ts ->
  exists ts', Forall2 spells_item is ts' /\ a ++ join (S_ ",") ts ++ b = join (S_ ",") ts'.
Proof.
  intros Ha Hb Hn H.
  assert (K : forall is ts, is <> [] -> Forall2 spells_item is ts -> exists ts', Forall2 spells_item is ts' /\ join (S_ ",") ts ++ b = join (S_ ",") ts').
  { clear is ts Hn H. intros is ts Hn H. induction H as [|i t is ts Hi H IH]; [congruence|]. destruct H as [|i2 t2 is ts Hi2 H].
    - exists [t ++ b]. split; [constructor; [apply item_right; assumption|constructor]|reflexivity].
    - destruct (IH ltac:(discriminate)) as (ts' & F & E). exists (t :: ts'). split; [constructor; assumption|].
      destruct ts' as [|t' ts']; [inversion F|]. change (join (S_ ",") (t :: t' :: ts')) with (t ++ S_ "," ++ join (S_ ",") (t' :: ts')).
      rewrite <- E. change (join (S_ ",") (t :: t2 :: ts)) with (t ++ S_ "," ++ join (S_ ",") (t2 :: ts)). rewrite <- !app_assoc. reflexivity. }
  destruct (K is ts Hn H) as (ts1 & F & E). destruct F as [|i t is ts1 Hi F]; [congruence|].
  exists ((a ++ t) :: ts1). split; [constructor; [apply item_left; assumption|exact F]|]. rewrite E.
  destruct ts1; cbn [join]; rewrite <- ?app_assoc; reflexivity.
Qed.

Lemma m_paren_none c s : c <> ch "(" -> m_paren (c :: s) = None.
Proof. intros H. unfold m_paren. now rewrite eqb_neq' by exact H. Qed.
Lemma paren_plain a r : clean_of (S_ "(") a -> resub m_paren 0 (a ++ r) = a ++ resub m_paren 0 r.
Proof.
  intros H. apply resub_miss. intros x y E Ny. destruct y as [|c y]; [congruence|]. cbn [app]. apply m_paren_none. intros ->.
  unfold clean_of in H. rewrite Forall_forall in H. apply (H (ch "(")); [rewrite E; apply in_or_app; right; left; reflexivity|left; reflexivity].
Qed.
Lemma numeral_fold d n : numeral d n -> fold_left (fun a c => a * 10 + digit c) d 0 = n.
Proof. apply numeral_value. Qed.
Lemma numeral_span d n r : numeral d n -> (forall c q, r = c :: q -> ~ In c decimals) -> span isdigit (d ++ r) = (d, r).
Proof.
  intros H Hr. apply span_all.
  - eapply Forall_impl; [|exact (proj2 (numeral_digits d n H))]. intros c. apply isdigit_In.
  - intros c q E. specialize (Hr c q E). destruct (isdigit c) eqn:K; [|reflexivity]. apply isdigit_In in K. contradiction.
Qed.
Lemma isnt_clean c a : ~ In c a -> Forall (fun x => isnt c x = true) a.
Proof. intros H. apply Forall_forall. intros x Hx. unfold isnt. apply negb_true_iff, eqb_neq'. intros ->. contradiction. Qed.
Lemma isnt_self c : isnt c c = false.
Proof. unfold isnt. now rewrite Ascii.eqb_refl. Qed.
Lemma group_step (body : str) d n r : ~ In (ch ")") body -> numeral d n -> (forall c q, r = c :: q -> ~ In c decimals) ->
  resub m_paren 0 (S_ "(" ++ body ++ S_ ")*" ++ d ++ r) = join (S_ ",") (repeat body (Z.to_nat n)) ++ resub m_paren 0 r.
Proof.
  intros Hb Hd Hr. replace (S_ "(" ++ body ++ S_ ")*" ++ d ++ r) with ((S_ "(" ++ body ++ S_ ")*" ++ d) ++ r) by (rewrite <- !app_assoc; reflexivity).
  apply resub_hit; [discriminate|]. rewrite <- !app_assoc. change (S_ "(") with [ch "("]. change (S_ ")*") with [ch ")"; ch "*"]. cbn [app].
  unfold m_paren. rewrite Ascii.eqb_refl. rewrite (span_all _ body (ch ")" :: ch "*" :: d ++ r)).
  2: apply isnt_clean, Hb. 2: { intros c q E. injection E as <- _. apply isnt_self. }
  rewrite Ascii.eqb_refl. rewrite (numeral_span d n r Hd Hr).
  destruct (numeral_digits d n Hd) as [Nd _]. destruct d as [|d0 d]; [congruence|].
  f_equal. f_equal.
  - cbn [length]. rewrite !app_length. cbn [length app]. rewrite ?app_length. cbn. lia.
  - unfold paren_repl. rewrite (numeral_fold (d0 :: d) n Hd). apply commas_join.
Qed.

Lemma join_clean l sep ts : Forall (clean_of l) ts -> clean_of l sep -> clean_of l (join sep ts).
Proof.
  intros H Hs. induction H as [|t ts Ht H IH]; [constructor|]. destruct ts as [|t' ts]; [exact Ht|].
  change (join sep (t :: t' :: ts)) with (t ++ sep ++ join sep (t' :: ts)). apply clean_app; [exact Ht|apply clean_app; assumption].
Qed.
Lemma items_clean is ts : Forall2 spells_item is ts -> Forall (clean_of (S_ ",#()")) ts.
Proof. induction 1 as [|i t is ts Hi H IH]; constructor; [eapply item_clean, Hi|exact IH]. Qed.
Lemma group_parts l ts n : l <> [] -> Forall2 spells_item l ts -> 1 <= n ->
  exists ts', Forall2 spells_item (concat (repeat l (Z.to_nat n))) ts' /\ join (S_ ",") (repeat (join (S_ ",") ts) (Z.to_nat n)) = join (S_ ",") ts'.
Proof.
  intros Hl H Hn. exists (concat (repeat ts (Z.to_nat n))). split.
  - clear Hn. induction (Z.to_nat n) as [|k IH]; [constructor|]. cbn [repeat concat]. apply Forall2_app; assumption.
  - rewrite <- join_concat.
    + f_equal. clear. induction (Z.to_nat n) as [|k IH]; [reflexivity|]. cbn [repeat map]. now rewrite IH.
    + apply Forall_forall. intros x Hx. apply repeat_spec in Hx. subst x. intros ->. inversion H. congruence.
Qed.

Lemma values_step1 l ts : l <> [] -> Forall2 spells_entry l ts ->
  exists ts', Forall2 spells_item (concat (map entry_items l)) ts' /\ resub m_paren 0 (join (S_ ",") ts) = join (S_ ",") ts'.
Proof.
  assert (One_ : forall e t, spells_entry e t -> forall r, (r = [] \/ exists q, r = ch "," :: q) ->
     exists ts', entry_items e <> [] /\ Forall2 spells_item (entry_items e) ts' /\ resub m_paren 0 (t ++ r) = join (S_ ",") ts' ++ resub m_paren 0 r).
  { intros e t H r Hr. destruct H as [i t Hi|a l' ts' d n b Ha Hb Hl F Hd Hn].
    - exists [t]. split; [discriminate|]. split; [repeat constructor; exact Hi|]. cbn [join]. apply paren_plain. eapply clean_sub; [eapply item_clean, Hi|reflexivity].
    - destruct (group_parts l' ts' n Hl F Hn) as (ts1 & F1 & E1).
      assert (N1 : concat (repeat l' (Z.to_nat n)) <> []).
      { destruct (Z.to_nat n) eqn:K; [lia|]. cbn [repeat concat]. destruct l'; [congruence|discriminate]. }
      destruct (item_pad a b _ _ Ha Hb N1 F1) as (ts2 & F2 & E2). exists ts2. split; [exact N1|]. split; [exact F2|].
      rewrite <- !app_assoc. rewrite paren_plain by (apply blanks_clean; [exact Ha|reflexivity]).
      rewrite (group_step _ d n); [| |exact Hd|].
      + rewrite paren_plain by (apply blanks_clean; [exact Hb|reflexivity]). rewrite E1. rewrite <- E2, <- !app_assoc. reflexivity.
      + apply (clean_notin (S_ ")")); [|left; reflexivity]. apply join_clean; [|repeat constructor; cbn; intuition congruence].
        eapply Forall_impl; [|eapply items_clean, F]. intros t Ht. eapply clean_sub; [exact Ht|reflexivity].
      + intros c q E Hc. destruct b as [|b0 b].
        * cbn [app] in E. destruct Hr as [->|[q' ->]]; [discriminate|]. injection E as <- _. revert Hc. apply memb_false. reflexivity.
        * injection E as <- _. inversion Hb as [|? ? B1 B2]; subst. revert Hc. apply (space_not_decimal _ B1). }
  intros Hl H. induction H as [|e t l ts He H IH]; [congruence|]. destruct H as [|e2 t2 l ts He2 H].
  - destruct (One_ e t He [] ltac:(left; reflexivity)) as (ts' & _ & F & E). exists ts'. rewrite app_nil_r in E. cbn [map concat join]. rewrite app_nil_r. split; [exact F|].
    rewrite E. cbn. apply app_nil_r.
  - destruct (IH ltac:(discriminate)) as (ts2 & F2 & E2). clear IH.
    set (R := join (S_ ",") (t2 :: ts)) in *. change (join (S_ ",") (t :: t2 :: ts)) with (t ++ ch "," :: R).
    destruct (One_ e t He (ch "," :: R) ltac:(right; eexists; reflexivity)) as (ts1 & N1 & F1 & E1).
    exists (ts1 ++ ts2). split; [cbn [map concat] in *; apply Forall2_app; assumption|].
    rewrite E1. change (ch "," :: R) with ([ch ","] ++ R). rewrite paren_plain by (repeat constructor; cbn; intuition congruence). rewrite E2.
    rewrite join_app; [reflexivity| |].
    + intros ->. inversion F1. congruence.
    + intros ->. inversion F2 as [K|]. destruct (One_ e2 t2 He2 [] ltac:(left; reflexivity)) as (? & N2 & _). cbn [map concat] in K.
      symmetry in K. apply app_eq_nil in K. tauto.
Qed.

Lemma strip_space_blanks a s : blanks a -> strip_space (a ++ s) = strip_space s.
Proof. intros H. induction H as [|c a Hc H IH]; [reflexivity|]. cbn [app strip_space]. apply isspace_In in Hc. now rewrite Hc. Qed.
Lemma blanks_rev a : blanks a -> blanks (rev a).
Proof. intros H. apply Forall_rev, H. Qed.
Lemma strip_pad a s b : blanks a -> blanks b -> (forall c r, s = c :: r \/ s = r ++ [c] -> ~ In c whitespace) -> strip (a ++ s ++ b) = s.
Proof.
  intros Ha Hb Hs. unfold strip. rewrite strip_space_blanks by exact Ha.
  assert (K : strip_space (s ++ b) = s ++ b \/ s = []).
  { destruct s as [|c s]; [right; reflexivity|left]. apply strip_space_id. intros d r E. injection E as <- _. apply isspace_not. apply (Hs c s). left; reflexivity. }
  destruct K as [K|K].
  - rewrite K, rev_app_distr, strip_space_blanks by (apply blanks_rev, Hb). rewrite strip_space_id; [apply rev_involutive|].
    intros c r E. apply isspace_not. apply (Hs c (rev r)). right. rewrite <- (rev_involutive s), E. reflexivity.
  - subst s. cbn [app]. rewrite <- (app_nil_r b), strip_space_blanks by exact Hb. reflexivity.
Qed.
Lemma m_plain_none v : ~ In (ch "*") v -> resub m_plain 0 v = v.
Proof.
  intros H. rewrite <- (app_nil_r v) at 1. rewrite resub_miss; [cbn; apply app_nil_r|]. intros x y E Ny. rewrite app_nil_r. unfold m_plain.
  rewrite <- (app_nil_r y), (span_all _ y []).
  - destruct y; reflexivity.
  - apply isnt_clean. intros K. apply H. rewrite E. apply in_or_app. right; exact K.
  - discriminate.
Qed.
Lemma m_plain_many v d n : v <> [] -> ~ In (ch "*") v -> numeral d n -> resub m_plain 0 (v ++ S_ "*" ++ d) = join (S_ ",") (repeat v (Z.to_nat n)).
Proof.
  intros Nv Hv Hd. rewrite <- (app_nil_r (v ++ S_ "*" ++ d)), (resub_hit m_plain _ [] (paren_repl v d)).
  - cbn [resub]. rewrite app_nil_r. unfold paren_repl. rewrite (numeral_fold d n Hd). apply commas_join.
  - destruct v; [congruence|discriminate].
  - rewrite app_nil_r. unfold m_plain. rewrite (span_all _ v (S_ "*" ++ d)); [|apply isnt_clean, Hv|intros c q E; injection E as <- _; apply isnt_self].
    destruct v as [|v0 v]; [congruence|]. cbn [S_ list_ascii_of_string app].
    assert (SD : span isdigit d = (d, [])) by (rewrite <- (app_nil_r d) at 1; apply (numeral_span d n); [exact Hd|discriminate]). rewrite SD.
    destruct (numeral_digits d n Hd) as [Nd _]. destruct d as [|d0 d]; [congruence|]. f_equal. f_equal.
    cbn [length]. rewrite app_length. cbn [length]. lia.
Qed.
Lemma item_step i t : spells_item i t -> resub m_plain 0 (strip t) = join (S_ ",") (item_values i) /\ item_values i <> [] /\ Forall (fun v => ~ In (ch ",") v) (item_values i).
Proof.
  intros H. destruct H as [a v b Ha Hb [Hv Tv]|a v d n b Ha Hb [Hv Tv] Nv Hd Hn].
  - rewrite strip_pad by assumption. rewrite m_plain_none by (eapply clean_notin; [exact Hv|cbn; tauto]). split; [reflexivity|]. split; [discriminate|].
    repeat constructor. eapply clean_notin; [exact Hv|cbn; tauto].
  - replace (a ++ v ++ S_ "*" ++ d ++ b) with (a ++ (v ++ S_ "*" ++ d) ++ b) by (rewrite <- !app_assoc; reflexivity).
    rewrite strip_pad; [|exact Ha|exact Hb|].
    + rewrite (m_plain_many v d n); [|exact Nv|eapply clean_notin; [exact Hv|cbn; tauto]|exact Hd]. split; [reflexivity|]. split.
      * cbn [item_values]. destruct (Z.to_nat n) eqn:K; [lia|]. discriminate.
      * cbn [item_values]. apply Forall_forall. intros x Hx. apply repeat_spec in Hx. subst x. eapply clean_notin; [exact Hv|cbn; tauto].
    + intros c r [E|E].
      * destruct v as [|v0 v]; [congruence|]. injection E as <- _. apply (Tv v0 v). left; reflexivity.
      * destruct (numeral_digits d n Hd) as [Nd Dd]. destruct (exists_last Nd) as (d' & c' & ->).
        rewrite !app_assoc in E. apply app_inj_tail in E as [_ <-]. apply Forall_app in Dd as [_ Dd]. inversion Dd as [|? ? D1 _]; subst.
        intros K. exact (space_not_decimal _ K D1).
Qed.
Lemma comma_split l : l <> [] -> Forall (fun x => ~ In (ch ",") x) l -> split_on (S_ ",") (join (S_ ",") l) = l.
Proof. exact (split_join (ch ",") [] l). Qed.
Theorem parse_values_spells l t : spells_values l t -> parse_values t = values l.
Proof.
  intros (Hl & ts & F & ->). unfold parse_values. destruct (values_step1 l ts Hl F) as (ts1 & F1 & ->).
  assert (N1 : concat (map entry_items l) <> []).
  { destruct F as [|e t l ts He F]; [congruence|]. cbn [map concat]. intros K. apply app_eq_nil in K as [K _].
    destruct He as [i t Hi|a l' ts' d n b Ha Hb Hl' F' Hd Hn]; [discriminate|]. cbn [entry_items] in K. destruct (Z.to_nat n) eqn:Z; [lia|].
    cbn [repeat concat] in K. apply app_eq_nil in K. tauto. }
  unfold values. set (is := concat (map entry_items l)) in *. clearbody is.
  rewrite (comma_split ts1).
  2: { intros ->. inversion F1. congruence. }
  2: { eapply Forall_impl; [|eapply items_clean, F1]. intros x Hx. eapply clean_notin; [exact Hx|cbn; tauto]. }
  assert (G : map (fun x => resub m_plain 0 (strip x)) ts1 = map (join (S_ ",")) (map item_values is) /\
     Forall (fun l => l <> []) (map item_values is) /\ Forall (fun v => ~ In (ch ",") v) (concat (map item_values is))).
  { clear N1. induction F1 as [|i x is ts1 Hi F1 (IH1 & IH2 & IH3)]; [repeat constructor|].
    destruct (item_step i x Hi) as (E1 & E2 & E3). cbn [map concat]. rewrite IH1, E1. repeat split; try (constructor; assumption).
    apply Forall_app. split; assumption. }
  destruct G as (G1 & G2 & G3). rewrite G1, commas_join, join_concat by exact G2. apply comma_split; [|exact G3].
  destruct is as [|i is]; [congruence|]. cbn [map concat] in *. inversion G2 as [|? ? A B]; subst. destruct (item_values i); [congruence|discriminate].
Qed.

(** ** headings *)
Lemma folded_resub raw clean : folded raw clean -> resub m_stripast 0 raw = clean.
Proof.
  induction 1 as [|c r s Hc H IH|ws r s Hw H IH|ws r s Hw Hr H IH]; [reflexivity| | |].
  - cbn [resub m_stripast]. unfold NL. rewrite eqb_neq' by exact Hc. now rewrite IH.
  - assert (SW : span isspace (ws ++ S_ "*" ++ r) = (ws, S_ "*" ++ r)).
    { apply span_all; [eapply Forall_impl; [|exact Hw]; intros; now apply isspace_In|]. intros c q E. injection E as <- _. reflexivity. }
    replace (ascii_of_nat 10 :: ws ++ S_ "*" ++ r) with ((ascii_of_nat 10 :: ws ++ S_ "*") ++ r) by (cbn [app]; now rewrite <- app_assoc).
    rewrite (resub_hit m_stripast _ r []); [exact IH|discriminate|]. cbn [app]. rewrite <- app_assoc. unfold m_stripast, NL.
    rewrite Ascii.eqb_refl, SW. change (S_ "*" ++ r) with (ch "*" :: r). cbn [Ascii.eqb]. rewrite Ascii.eqb_refl. f_equal. f_equal. cbn [length]. rewrite app_length. cbn. lia.
  - assert (SW : span isspace (ws ++ r) = (ws, r)).
    { apply span_all; [eapply Forall_impl; [|exact Hw]; intros; now apply isspace_In|]. intros c q E. apply isspace_not. intros K. apply (Hr c q E). right; exact K. }
    replace (ascii_of_nat 10 :: ws ++ r) with ((ascii_of_nat 10 :: ws) ++ r) by reflexivity.
    rewrite (resub_hit m_stripast _ r []); [exact IH|discriminate|]. cbn [app]. unfold m_stripast, NL.
    rewrite Ascii.eqb_refl, SW. f_equal. f_equal. cbn [length]. destruct r as [|c r]; [lia|]. rewrite eqb_neq'; [lia|]. intros ->. apply (Hr (ch "*") r eq_refl). left; reflexivity.
Qed.
Lemma word_span s r : word s -> (forall c q, r = c :: q -> isword c = false) -> span isword (s ++ r) = (s, r).
Proof. intros [_ H] Hr. apply span_all; [|exact Hr]. eapply Forall_impl; [|exact H]. intros c. apply isword_In. Qed.
Lemma blanks_span a r : blanks a -> (forall c q, r = c :: q -> isspace c = false) -> span isspace (a ++ r) = (a, r).
Proof. intros H Hr. apply span_all; [|exact Hr]. eapply Forall_impl; [|exact H]. intros c. apply isspace_In. Qed.
Lemma space_not_word c : isspace c = true -> isword c = false.
Proof. intros H. destruct (isword c) eqn:E; [|reflexivity]. apply word_not_space in E. congruence. Qed.
Lemma entry_clean e t : spells_entry e t -> clean_of (S_ "#") t.
Proof.
  intros H. destruct H as [i t Hi|a l ts d n b Ha Hb Hl F Hd Hn].
  - eapply clean_sub; [eapply item_clean, Hi|reflexivity].
  - repeat apply clean_app; try (apply blanks_clean; [assumption|reflexivity]); try (repeat constructor; cbn; intuition congruence).
    + apply join_clean; [|repeat constructor; cbn; intuition congruence]. eapply Forall_impl; [|eapply items_clean, F]. intros x Hx. eapply clean_sub; [exact Hx|reflexivity].
    + eapply numeral_clean; [exact Hd|reflexivity].
Qed.
Lemma values_clean l t : spells_values l t -> ~ In (ch "#") t.
Proof.
  intros (_ & ts & F & ->). apply (clean_notin (S_ "#")); [|left; reflexivity]. apply join_clean; [|repeat constructor; cbn; intuition congruence].
  induction F as [|e t l ts He F IH]; constructor; [eapply entry_clean, He|exact IH].
Qed.
Lemma decl_hit d t r : spells_decl d t -> exists v, m_named (t ++ r) = Some (length t, (fst d, v)) /\ parse_values v = values (snd d) /\ t <> [].
Proof.
  intros [a name b l v Ha [Nn Wn] Hb Hv]. exists v. cbn [fst snd]. split; [|split; [apply parse_values_spells, Hv|discriminate]].
  rewrite <- !app_assoc. change (S_ "#" ++ r) with (ch "#" :: r). change (S_ "#" ++ (a ++ name ++ b ++ S_ "=" ++ v ++ ch "#" :: r)) with (ch "#" :: a ++ name ++ b ++ ch "=" :: v ++ ch "#" :: r).
  unfold m_named. rewrite Ascii.eqb_refl. rewrite blanks_span; [|exact Ha|].
  2: { intros c q E. destruct name as [|n0 name]; [congruence|]. injection E as <- _. inversion Wn; subst. apply word_not_space, isword_In. assumption. }
  rewrite word_span; [|split; assumption|].
  2: { intros c q E. destruct b as [|b0 b]; injection E as <- _; [reflexivity|]. inversion Hb; subst. apply space_not_word, isspace_In. assumption. }
  rewrite blanks_span; [|exact Hb|intros c q E; injection E as <- _; reflexivity].
  rewrite Ascii.eqb_refl. rewrite (span_all _ v (ch "#" :: r)); [|apply isnt_clean; eapply values_clean, Hv|intros c q E; injection E as <- _; apply isnt_self].
  f_equal. f_equal. cbn [S_ list_ascii_of_string app length]. rewrite !app_length. cbn [length]. rewrite !app_length. cbn [length]. lia.
Qed.
Lemma named_gap g r : ~ In (ch "#") g -> findall m_named 0 (g ++ r) = findall m_named 0 r.
Proof.
  intros H. apply findall_miss. intros x y E Ny. destruct y as [|c y]; [congruence|]. cbn [app]. unfold m_named. rewrite eqb_neq'; [reflexivity|].
  intros ->. apply H. rewrite E. apply in_or_app. right; left; reflexivity.
Qed.
Lemma decls_found ds t : spells_decls ds t ->
  map (fun r : str * str => (fst r, parse_values (snd r))) (findall m_named 0 t) = map (fun d => (fst d, values (snd d))) ds.
Proof.
  induction 1 as [g Hg|g d t ds r Hg Hd H IH].
  - rewrite <- (app_nil_r g), named_gap by exact Hg. reflexivity.
  - rewrite named_gap by exact Hg. destruct (decl_hit d t r Hd) as (v & E & P & N). rewrite (findall_hit m_named t r (fst d, v) N E).
    cbn [map fst snd]. rewrite P, IH. reflexivity.
Qed.
Theorem heading_parsed level ds t : spells_heading level ds t ->
  parse_loop_header t = match settings ds with inl e => inl e | inr l => inr (map (@rev _) l) end.
Proof.
  intros [raw trail clean Hr Ht F D]. unfold parse_loop_header. rewrite (folded_resub _ _ F), (decls_found _ _ D). unfold settings.
  destruct ds as [|[n0 l0] ds]; [reflexivity|]. set (L := (n0, l0) :: ds). 
  change (map (fun d => (fst d, values (snd d))) L) with ((n0, values l0) :: map (fun d : str * list entry => (fst d, values (snd d))) ds). cbv iota beta.
  change ((n0, values l0) :: map (fun d : str * list entry => (fst d, values (snd d))) ds) with (map (fun d : str * list entry => (fst d, values (snd d))) L).
  assert (E : forallb (fun r : str * list str => Nat.eqb (length (values l0)) (length (snd r))) (map (fun d => (fst d, values (snd d))) L)
     = forallb (fun d => Nat.eqb (length (values (snd d))) (length (values l0))) L).
  { generalize L. clear. intros L. induction L as [|d L IH]; [reflexivity|]. cbn [map forallb fst snd]. rewrite IH, Nat.eqb_sym. reflexivity. }
  rewrite E. destruct (forallb _ L); [|reflexivity]. f_equal. rewrite map_map. apply map_ext. intros i. rewrite map_map. reflexivity.
Qed.

(** ** substitution *)
Definition env_ok (e : env) (f : str -> option str) : Prop := forall n, lookup e n = f n.
Lemma substitute_skip e a r : substitute e (length a) (a ++ r) = substitute e 0 r.
Proof. induction a as [|c a IH]; [reflexivity|]. cbn [length app substitute]. exact IH. Qed.
Lemma substitute_lit e a r : ~ In (ch "@") a ->
  substitute e 0 (a ++ r) = match substitute e 0 r with inr q => inr (a ++ q) | inl x => inl x end.
Proof.
  intros H. induction a as [|c a IH]; [cbn; destruct (substitute e 0 r); reflexivity|]. cbn [app substitute m_var].
  rewrite eqb_neq' by (intros ->; apply H; left; reflexivity). rewrite IH by (intros K; apply H; right; exact K). destruct (substitute e 0 r); reflexivity.
Qed.
Lemma at_not_word : isword (ch "@") = false. Proof. reflexivity. Qed.
Lemma substitute_var e n r : word n ->
  substitute e 0 (S_ "@" ++ n ++ S_ "@" ++ r) = match lookup e n with
    | Some v => match substitute e 0 r with inr q => inr (v ++ q) | inl x => inl x end | None => inl n end.
Proof.
  intros W. change (S_ "@" ++ n ++ S_ "@" ++ r) with (ch "@" :: n ++ ch "@" :: r). cbn [substitute m_var]. rewrite Ascii.eqb_refl.
  rewrite word_span by (first [exact W|intros c q E; injection E as <- _; reflexivity]). destruct W as [Nn _]. destruct n as [|n0 n]; [congruence|].
  rewrite Ascii.eqb_refl. destruct (lookup e (n0 :: n)); [|reflexivity].
  replace (length (n0 :: n) + 2 - 1)%nat with (length ((n0 :: n) ++ [ch "@"])) by (rewrite app_length; cbn [length]; lia).
  replace ((n0 :: n) ++ ch "@" :: r) with (((n0 :: n) ++ [ch "@"]) ++ r) by (rewrite <- app_assoc; reflexivity). rewrite substitute_skip. reflexivity.
Qed.
Lemma sub_text e f here x : env_ok e f -> Forall good_tok x -> sub_out e here (text_src x) = text_out f here x.
Proof.
  intros E H. unfold sub_out. induction H as [|t x Ht H IH]; [reflexivity|]. unfold text_src in *. cbn [map concat text_out]. destruct t as [s|n]; cbn [tok_src good_tok] in *.
  - rewrite substitute_lit by exact Ht. rewrite <- IH. destruct (substitute e 0 (concat (map tok_src x))); reflexivity.
  - rewrite <- !app_assoc, substitute_var by exact Ht. rewrite (E n). destruct (f n); [|reflexivity]. rewrite <- IH. destruct (substitute e 0 (concat (map tok_src x))); reflexivity.
Qed.

(** ** positions *)
Definition zl (s : str) : Z := Z.of_nat (length s).
Lemma zl_app a b : zl (a ++ b) = zl a + zl b.
Proof. unfold zl. rewrite app_length. lia. Qed.
Lemma zl_nonneg s : 0 <= zl s. Proof. unfold zl. lia. Qed.
Lemma pos_at a r : py_pos (a ++ r) (zl a) = length a.
Proof. unfold py_pos, zl. rewrite app_length. destruct (Z.ltb_spec (Z.of_nat (length a)) 0); lia. Qed.
Lemma find_at p a r : py_find p (a ++ r) (zl a) = find_sub p r (zl a).
Proof. unfold py_find. rewrite pos_at, skipn_app, skipn_all, Nat.sub_diag. reflexivity. Qed.
Lemma slice_at a m r : slice (a ++ m ++ r) (zl a) (zl a + zl m) = m.
Proof.
  unfold slice. rewrite pos_at, <- zl_app. replace (py_pos (a ++ m ++ r) (zl (a ++ m))) with (length (a ++ m)).
  - rewrite skipn_app, skipn_all, Nat.sub_diag. cbn [app skipn]. rewrite app_length. replace (length a + length m - length a)%nat with (length m) by lia.
    rewrite firstn_app, firstn_all, Nat.sub_diag. cbn. apply app_nil_r.
  - rewrite app_assoc. symmetry. apply pos_at.
Qed.
Lemma slice_from_at a r : slice_from (a ++ r) (zl a) = r.
Proof. unfold slice_from. rewrite pos_at, skipn_app, skipn_all, Nat.sub_diag. reflexivity. Qed.
Lemma lines_app a b : lines (a ++ b) = lines a + lines b.
Proof. unfold lines. rewrite count_occ_app. lia. Qed.
Lemma lines_none s : ~ In NL s -> lines s = 0.
Proof. intros H. unfold lines. apply (proj1 (count_occ_not_In ascii_dec s (ascii_of_nat 10))) in H. now rewrite H. Qed.
Lemma lines_filter s : Z.of_nat (length (filter (Ascii.eqb NL) s)) = lines s.
Proof.
  unfold lines. f_equal. induction s as [|c s IH]; [reflexivity|]. unfold NL in *. cbn [filter count_occ]. destruct (ascii_dec c (ascii_of_nat 10)) as [->|N].
  - rewrite Ascii.eqb_refl. cbn [length]. now rewrite IH.
  - rewrite eqb_neq' by congruence. exact IH.
Qed.
Lemma count_at a m r : count_lines (a ++ m ++ r) (zl a) (zl a + zl m) = lines m.
Proof. unfold count_lines. rewrite slice_at. apply lines_filter. Qed.

(** ** searching *)
Lemma prefixb_true p : forall s, prefixb p s = true -> exists r, s = p ++ r.
Proof.
  induction p as [|x p IH]; intros s H; [exists s; reflexivity|]. destruct s as [|y s]; [discriminate|]. cbn in H. apply andb_prop in H as [H1 H2].
  apply Ascii.eqb_eq in H1. destruct (IH s H2) as [r ->]. exists r. cbn. congruence.
Qed.
Lemma find_none p s : forall k, p <> [] -> absent p s -> find_sub p s k = -1.
Proof.
  induction s as [|c s IH]; intros k Np H.
  - destruct p; [congruence|reflexivity].
  - cbn [find_sub]. destruct (prefixb p (c :: s)) eqn:E.
    + apply prefixb_true in E as [r E]. exfalso. apply (H [] r). exact E.
    + apply IH; [exact Np|]. intros a b K. apply (H (c :: a) b). cbn. congruence.
Qed.
Lemma find_first p x r : forall k, p <> [] -> clear_of p x -> find_sub p (x ++ p ++ r) k = k + zl x.
Proof.
  induction x as [|c x IH]; intros k Np H.
  - cbn [app]. rewrite find_here. unfold zl. cbn. lia.
  - cbn [app find_sub]. destruct (prefixb p (c :: x ++ p ++ r)) eqn:E.
    + exfalso. apply prefixb_true in E as [q E]. destruct (exists_last Np) as (p' & z & Ep).
      assert (R : removelast p = p') by (rewrite Ep; apply removelast_last).
      unfold clear_of in H. rewrite R in H. clear R.
      assert (F : firstn (length p) (c :: x ++ p ++ r) = p) by (rewrite E, firstn_app, firstn_all, Nat.sub_diag; cbn; apply app_nil_r).
      assert (F2 : firstn (length p) ((c :: x) ++ p') = p).
      { rewrite <- F at 2. assert (E2 : c :: x ++ p ++ r = ((c :: x) ++ p') ++ [z] ++ r) by (rewrite Ep, <- !app_assoc; reflexivity).
        rewrite E2, (firstn_app _ ((c :: x) ++ p')). replace (length p - length ((c :: x) ++ p'))%nat with 0%nat.
        - cbn [firstn]. now rewrite app_nil_r.
        - rewrite Ep, !app_length. cbn [length]. lia. }
      apply (H [] (skipn (length p) ((c :: x) ++ p'))). cbn [app]. rewrite <- F2 at 1. symmetry. apply firstn_skipn.
    + rewrite IH; [unfold zl; cbn [length]; lia|exact Np|]. intros a b K. apply (H (c :: a) b). cbn. unfold clear_of in *. cbn in K. congruence.
Qed.

(** ** the markers *)
Lemma level_digits level : Forall (fun c => In c decimals) (level_text level).
Proof.
  destruct level as [|k]; [constructor|]. unfold level_text, dec. apply (numeral_digits _ (Z.of_nat (S k))). apply dec_numeral. lia.
Qed.
Lemma level_notin level c : memb c decimals = false -> ~ In c (level_text level).
Proof. intros H K. pose proof (level_digits level) as D. rewrite Forall_forall in D. apply D in K. apply memb_In in K. congruence. Qed.
Lemma beg_cons level : loopbeg level = ch "/" :: S_ "**begin repeat" ++ level_text level. Proof. reflexivity. Qed.
Lemma end_cons level : loopend level = ch "/" :: S_ "**end repeat" ++ level_text level ++ S_ "**/". Proof. reflexivity. Qed.
Lemma end_no_nl level : ~ In NL (loopend level).
Proof.
  unfold loopend. intros H. apply in_app_or in H as [H|H]; [revert H; apply memb_false; reflexivity|].
  apply in_app_or in H as [H|H]; [revert H; apply level_notin; reflexivity|revert H; apply memb_false; reflexivity].
Qed.
Lemma comment_past level x k : find_sub (S_ "*/") (loopbeg level ++ x) k = find_sub (S_ "*/") x (k + zl (loopbeg level)).
Proof.
  unfold loopbeg. rewrite <- app_assoc, zl_app. set (y := level_text level ++ x).
  assert (E : find_sub (S_ "*/") (S_ "/**begin repeat" ++ y) k = find_sub (S_ "*/") y (k + 15)).
  { cbn -[Z.add find_sub]. repeat (cbn [find_sub]; match goal with |- (if ?b then _ else _) = _ => replace b with false by reflexivity end). f_equal. lia. }
  rewrite E. unfold y. change (S_ "*/") with (ch "*" :: [ch "/"]). rewrite find_skip by (apply level_notin; reflexivity). f_equal. change (zl (S_ "/**begin repeat")) with 15. unfold zl. lia.
Qed.

(** ** the blocks of a template *)
Fixpoint nblocks (t : template) : nat := match t with Last _ => O | Block _ _ _ _ rest => S (nblocks rest) end.
Fixpoint layout (level : nat) (pos nl : Z) (t : template) : list block :=
  match t with
  | Last _ => []
  | Block pre h body trail rest =>
      let st := pos + zl (text_src pre) in
      let b1 := st + zl (h_text h) in
      let b2 := b1 + zl (src (S level) body) in
      let b3 := b2 + zl (loopend level) + zl trail + 1 in
      let n1 := nl + lines (text_src pre) + lines (h_text h) in
      (st, b1, b2, b3, n1) :: layout level b3 (n1 + lines (src (S level) body) + 1) rest
  end.
Lemma nl_skip x s k : ~ In NL x -> find_sub [NL] (x ++ s) k = find_sub [NL] s (k + zl x).
Proof. apply find_skip. Qed.
Lemma heading_shape level ds t : spells_heading level ds t -> exists raw tr, absent (S_ "*/") (raw ++ S_ "*") /\ ~ In NL tr /\ loopbeg level ++ raw ++ S_ "*/" ++ tr ++ [NL] = t.
Proof. intros [raw tr clean C1 C2 _ _]. exists raw, tr. repeat split; assumption. Qed.
Lemma blocks_layout level : forall t a m fuel s, (nblocks t < fuel)%nat -> good level t -> s = a ++ m ++ src level t -> ~ In (ch "/") m ->
  blocks fuel (loopbeg level) (loopend level) s (zl a) (lines a) = Some (layout level (zl a + zl m) (lines a + lines m) t).
Proof.
  induction t as [x|pre h body _ trail rest IH]; intros a m fuel s Hf G Es Hm; destruct fuel as [|fuel]; try lia.
  - cbn [good src] in *. destruct G as [_ G]. cbn [blocks layout]. rewrite Es, find_at. rewrite beg_cons, find_skip by exact Hm. rewrite <- beg_cons, find_none by (first [discriminate|exact G]). reflexivity.
  - cbn [good src nblocks] in *. destruct G as (_ & G1 & _ & G2 & G3 & _ & G4 & G5). apply heading_shape in G2 as (raw & tr & C1 & C2 & Eh).
    change (ascii_of_nat 10) with NL in *.
    set (P := text_src pre) in *. set (B := src (S level) body) in *. set (R := src level rest) in *. set (H := h_text h) in *.
    cbn [blocks layout]. fold P B H.
    assert (F1 : py_find (loopbeg level) s (zl a) = zl a + zl m + zl P).
    { rewrite Es, find_at. rewrite beg_cons, find_skip by exact Hm. rewrite <- beg_cons. rewrite <- Eh, <- !app_assoc. rewrite find_first by (first [discriminate|exact G1]). reflexivity. }
    assert (F2 : py_find (S_ "*/") s (zl a + zl m + zl P) = zl a + zl m + zl P + zl (loopbeg level) + zl raw).
    { rewrite Es. replace (a ++ m ++ P ++ H ++ B ++ loopend level ++ trail ++ [NL] ++ R) with ((a ++ m ++ P) ++ H ++ B ++ loopend level ++ trail ++ [NL] ++ R) by (rewrite <- !app_assoc; reflexivity).
      replace (zl a + zl m + zl P) with (zl (a ++ m ++ P)) by (rewrite !zl_app; lia). rewrite find_at. rewrite <- Eh, <- !app_assoc, comment_past, find_first by (first [discriminate|exact C1]). reflexivity. }
    assert (F3 : py_find [NL] s (zl a + zl m + zl P + zl (loopbeg level) + zl raw) = zl a + zl m + zl P + zl H - 1).
    { rewrite Es, <- Eh. replace (a ++ m ++ P ++ (loopbeg level ++ raw ++ S_ "*/" ++ tr ++ [NL]) ++ B ++ loopend level ++ trail ++ [NL] ++ R)
        with ((a ++ m ++ P ++ loopbeg level ++ raw) ++ (S_ "*/" ++ tr) ++ [NL] ++ B ++ loopend level ++ trail ++ [NL] ++ R) by (rewrite <- !app_assoc; reflexivity).
      replace (zl a + zl m + zl P + zl (loopbeg level) + zl raw) with (zl (a ++ m ++ P ++ loopbeg level ++ raw)) by (rewrite !zl_app; lia). rewrite find_at.
      rewrite nl_skip, find_here.
      - rewrite !zl_app. change (zl [NL]) with 1. lia.
      - intros K. apply in_app_or in K as [K|K]; [revert K; apply memb_false; reflexivity|contradiction]. }
    assert (HH : exists H', H = H' ++ [NL]).
    { exists (loopbeg level ++ raw ++ S_ "*/" ++ tr). rewrite <- Eh, <- !app_assoc. reflexivity. }
    destruct HH as [H' EH].
    assert (F4 : py_find (loopend level) s (zl a + zl m + zl P + zl H - 1) = zl a + zl m + zl P + zl H + zl B).
    { rewrite Es, EH. replace (a ++ m ++ P ++ (H' ++ [NL]) ++ B ++ loopend level ++ trail ++ [NL] ++ R)
        with ((a ++ m ++ P ++ H') ++ [NL] ++ B ++ loopend level ++ trail ++ [NL] ++ R) by (rewrite <- !app_assoc; reflexivity).
      replace (zl a + zl m + zl P + zl (H' ++ [NL]) - 1) with (zl (a ++ m ++ P ++ H')) by (rewrite !zl_app; change (zl [NL]) with 1; lia). rewrite find_at.
      rewrite end_cons, find_skip by (apply memb_false; reflexivity). rewrite <- end_cons. rewrite find_first by (first [discriminate|exact G3]).
      rewrite !zl_app. change (zl [NL]) with 1. change (Z.of_nat (length [NL])) with 1. lia. }
    assert (F5 : py_find [NL] s (zl a + zl m + zl P + zl H + zl B) = zl a + zl m + zl P + zl H + zl B + zl (loopend level) + zl trail).
    { rewrite Es. replace (a ++ m ++ P ++ H ++ B ++ loopend level ++ trail ++ [NL] ++ R)
        with ((a ++ m ++ P ++ H ++ B) ++ (loopend level ++ trail) ++ [NL] ++ R) by (rewrite <- !app_assoc; reflexivity).
      replace (zl a + zl m + zl P + zl H + zl B) with (zl (a ++ m ++ P ++ H ++ B)) by (rewrite !zl_app; lia). rewrite find_at.
      rewrite nl_skip, find_here; [rewrite !zl_app; lia|]. intros K. apply in_app_or in K as [K|K]; [exact (end_no_nl level K)|contradiction]. }
    rewrite F1. pose proof (zl_nonneg a). pose proof (zl_nonneg m). pose proof (zl_nonneg P).
    destruct (Z.eqb_spec (zl a + zl m + zl P) (-1)) as [Z|_]; [lia|]. rewrite F2, F3, F4, F5.
    assert (L1 : count_lines s (zl a) (zl a + zl m + zl P + zl H - 1 + 1) = lines m + lines P + lines H).
    { rewrite Es. replace (a ++ m ++ P ++ H ++ B ++ loopend level ++ trail ++ [NL] ++ R)
        with (a ++ (m ++ P ++ H) ++ B ++ loopend level ++ trail ++ [NL] ++ R) by (rewrite <- !app_assoc; reflexivity).
      replace (zl a + zl m + zl P + zl H - 1 + 1) with (zl a + zl (m ++ P ++ H)) by (rewrite !zl_app; lia). rewrite count_at, !lines_app. lia. }
    assert (L2 : count_lines s (zl a + zl m + zl P + zl H - 1 + 1) (zl a + zl m + zl P + zl H + zl B + zl (loopend level) + zl trail) = lines B).
    { rewrite Es. replace (a ++ m ++ P ++ H ++ B ++ loopend level ++ trail ++ [NL] ++ R)
        with ((a ++ m ++ P ++ H) ++ (B ++ loopend level ++ trail) ++ [NL] ++ R) by (rewrite <- !app_assoc; reflexivity).
      replace (zl a + zl m + zl P + zl H - 1 + 1) with (zl (a ++ m ++ P ++ H)) by (rewrite !zl_app; lia).
      replace (zl a + zl m + zl P + zl H + zl B + zl (loopend level) + zl trail) with (zl (a ++ m ++ P ++ H) + zl (B ++ loopend level ++ trail)) by (rewrite !zl_app; lia).
      rewrite count_at, !lines_app. rewrite (lines_none (loopend level)) by apply end_no_nl. rewrite (lines_none trail) by exact G4. lia. }
    rewrite L1, L2.
    set (a' := a ++ m ++ P ++ H ++ B ++ loopend level ++ trail).
    replace (zl a + zl m + zl P + zl H + zl B + zl (loopend level) + zl trail) with (zl a') by (unfold a'; rewrite !zl_app; lia).
    replace (lines a + (lines m + lines P + lines H) + lines B) with (lines a').
    2: { unfold a'. rewrite !lines_app. rewrite (lines_none (loopend level)) by apply end_no_nl. rewrite (lines_none trail) by exact G4. lia. }
    rewrite (IH a' [NL] fuel s); [|lia|exact G5|unfold a'; rewrite Es, <- !app_assoc; reflexivity|apply memb_false; reflexivity].
    apply f_equal. apply (f_equal2 (@cons block)).
    + apply (f_equal2 pair); [apply (f_equal2 pair); [apply (f_equal2 pair); [apply (f_equal2 pair)|]|]|]; unfold a'; rewrite ?zl_app; lia.
    + apply (f_equal2 (fun p q => layout level p q rest)); unfold a'; rewrite ?zl_app, ?lines_app; change (zl [NL]) with 1; change (lines [NL]) with 1; try lia.
      rewrite (lines_none (loopend level)) by apply end_no_nl. rewrite (lines_none trail) by exact G4. lia.
Qed.

(** ** environments *)
Lemma lookup_app e d n : lookup (e ++ d) n = match lookup e n with Some v => Some v | None => lookup d n end.
Proof. induction e as [|[k v] e IH]; [reflexivity|]. cbn. destruct (eqs k n); [reflexivity|exact IH]. Qed.
Lemma lookup_assoc d n : lookup d n = assoc d n.
Proof.
  induction d as [|[k v] d IH]; [reflexivity|]. cbn. rewrite IH. destruct (list_eq_dec ascii_dec k n) as [->|N].
  - now rewrite eqs_refl.
  - destruct (eqs k n) eqn:E; [apply eqs_spec in E; contradiction|reflexivity].
Qed.
Lemma assoc_none d n : ~ In n (map fst d) -> assoc d n = None.
Proof.
  induction d as [|[k v] d IH]; [reflexivity|]. cbn. intros H. destruct (list_eq_dec ascii_dec k n); [exfalso; apply H; now left|]. apply IH. tauto.
Qed.
Lemma lookup_rev d n : NoDup (map fst d) -> lookup (rev d) n = assoc d n.
Proof.
  induction d as [|[k v] d IH]; [reflexivity|]. cbn [map fst rev assoc]. intros H. inversion H as [|? ? N1 N2]. subst. rewrite lookup_app, IH by exact N2. cbn [lookup].
  destruct (list_eq_dec ascii_dec k n) as [<-|N].
  - rewrite assoc_none by exact N1. now rewrite eqs_refl.
  - destruct (assoc d n); [reflexivity|]. destruct (eqs k n) eqn:E; [apply eqs_spec in E; contradiction|reflexivity].
Qed.
Lemma env_extend e f d : env_ok e f -> NoDup (map fst d) -> env_ok (e ++ rev d) (extend f d).
Proof. intros E H n. rewrite lookup_app, (E n), lookup_rev by exact H. reflexivity. Qed.
Lemma settings_names ds l d : settings ds = inr l -> In d l -> map fst d = map fst ds.
Proof.
  unfold settings. destruct ds as [|[n0 l0] ds]; [discriminate|]. destruct (forallb _ _); [|discriminate]. intros E. injection E as <-. intros H. apply in_map_iff in H as (i & <- & _).
  cbn [map fst]. f_equal. rewrite map_map. apply map_ext. reflexivity.
Qed.

(** ** expansion *)
Lemma nblocks_le level t : (nblocks t <= length (src level t))%nat.
Proof.
  induction t as [x|pre h body _ trail rest IH]; cbn [nblocks src]; [lia|]. rewrite !app_length. cbn [length]. lia.
Qed.
Lemma structure_layout level t : good level t -> parse_structure (src level t) level = Some (layout level 0 0 t).
Proof.
  intros G. unfold parse_structure. pose proof (nblocks_le level t). apply (blocks_layout level t [] []); [lia|exact G|reflexivity|intros []].
Qed.
Lemma each_env_fold f l : each_env f l = fold_right andthen (Text []) (map f l).
Proof. induction l as [|d l IH]; [reflexivity|]. cbn. rewrite IH. reflexivity. Qed.
Lemma each_block_pieces level f g e here N :
  env_ok e g ->
  (forall body d d' n, (length (src (S level) body) < N)%nat -> good (S level) body -> env_ok d d' ->
     f (src (S level) body) d n = andthen (Text (S_ "#line " ++ dec n ++ [NL])) (andthen (pieces (S level) n n d' body) (Text [NL]))) ->
  forall t a nl, good level t -> (length (src level t) <= N)%nat ->
  each_block f (a ++ src level t) e here (layout level (zl a) nl t) (zl a) = pieces level here (here + nl) g t.
Proof.
  intros E Hf. induction t as [x|pre h body _ trail rest IH]; intros a nl G HN.
  - cbn [layout each_block pieces src]. rewrite slice_from_at. apply sub_text; [exact E|apply G].
  - cbn [good src layout each_block pieces] in *. destruct G as (G0 & G1 & GN & G2 & G3 & GB & G4 & G5). pose proof (heading_parsed _ _ _ G2) as HP.
    change (ascii_of_nat 10) with NL in *.
    set (P := text_src pre) in *. set (B := src (S level) body) in *. set (R := src level rest) in *. set (H := h_text h) in *.
    apply (f_equal2 app_out); [|apply (f_equal2 app_out)].
    + rewrite slice_at. apply sub_text; assumption.
    + assert (S1 : slice (a ++ P ++ H ++ B ++ loopend level ++ trail ++ [NL] ++ R) (zl a + zl P) (zl a + zl P + zl H) = H).
      { rewrite (app_assoc a). rewrite <- (zl_app a P). apply slice_at. }
      assert (S2 : slice (a ++ P ++ H ++ B ++ loopend level ++ trail ++ [NL] ++ R) (zl a + zl P + zl H) (zl a + zl P + zl H + zl B) = B).
      { rewrite (app_assoc a), (app_assoc (a ++ P)). rewrite <- !zl_app. rewrite (zl_app ((a ++ P) ++ H)). apply slice_at. }
      rewrite S1, S2, HP. replace (here + (nl + lines P + lines H)) with (here + nl + lines P + lines H) by lia.
      destruct (settings (h_decls h)) as [err|l] eqn:ES; [reflexivity|]. rewrite each_env_fold, map_map. f_equal. apply map_ext_in. intros d Hd. unfold B.
      apply Hf; [|exact GB|].
      * fold B. rewrite !app_length in HN. cbn [length] in HN. lia.
      * apply env_extend; [exact E|]. rewrite (settings_names _ _ _ ES Hd). exact GN.
    + set (a' := a ++ P ++ H ++ B ++ loopend level ++ trail ++ [NL]).
      replace (a ++ P ++ H ++ B ++ loopend level ++ trail ++ [NL] ++ R) with (a' ++ R) by (unfold a'; rewrite <- !app_assoc; reflexivity).
      replace (zl a + zl P + zl H + zl B + zl (loopend level) + zl trail + 1) with (zl a') by (unfold a'; rewrite !zl_app; change (zl [NL]) with 1; lia).
      unfold R. rewrite IH; [f_equal; lia|exact G5|]. fold R. rewrite !app_length in HN. lia.
Qed.
Lemma parse_expansion fuel : forall t level e g here, (length (src level t) < fuel)%nat -> good level t -> env_ok e g ->
  parse_string fuel (src level t) e level here = andthen (Text (S_ "#line " ++ dec here ++ [NL])) (andthen (pieces level here here g t) (Text [NL])).
Proof.
  induction fuel as [|fuel IH]; intros t level e g here Hl G E; [lia|]. cbn [parse_string]. rewrite structure_layout by exact G.
  apply (f_equal2 app_out); [reflexivity|]. apply (f_equal2 app_out); [|reflexivity].
  pose proof (each_block_pieces level (fun t d n => parse_string fuel t d (S level) n) g e here fuel E) as K.
  assert (K' : each_block (fun t d n => parse_string fuel t d (S level) n) (src level t) e here (layout level 0 0 t) 0 = pieces level here here g t).
  { replace (pieces level here here g t) with (pieces level here (here + 0) g t) by (f_equal; lia). apply (K (fun body d d' n Hb Gb Ed => IH body (S level) d d' n Hb Gb Ed) t [] 0 G). lia. }
  rewrite <- K'. destruct (layout level 0 0 t); [|reflexivity]. cbn [each_block]. change 0 with (zl []). change (src level t) with ([] ++ src level t) at 2. now rewrite slice_from_at.
Qed.
Lemma andthen_assoc a b c : andthen a (andthen b c) = andthen (andthen a b) c.
Proof. destruct a; try reflexivity. destruct b; try reflexivity. destruct c; try reflexivity. cbn. now rewrite app_assoc. Qed.
Lemma process_expansion t : good 0 t -> process_str (src 0 t) = expansion t.
Proof.
  intros G. unfold process_str, expansion. rewrite (parse_expansion _ t 0 [] (fun _ => None)); [|lia|exact G|intros n; reflexivity].
  change app_out with andthen. rewrite andthen_assoc. cbn [andthen]. reflexivity.
Qed.

(** ** the expander ends *)
Lemma find_sub_spec p s : forall k, find_sub p s k = -1 \/ exists n, find_sub p s k = k + Z.of_nat n /\ prefixb p (skipn n s) = true.
Proof.
  induction s as [|c s IH]; intros k; cbn [find_sub].
  - destruct p; [right; exists 0%nat; split; [cbn; lia|reflexivity]|left; reflexivity].
  - destruct (prefixb p (c :: s)) eqn:E.
    + right. exists 0%nat. split; [lia|exact E].
    + destruct (IH (k + 1)) as [H|(n & H1 & H2)]; [left; exact H|]. right. exists (S n). split; [lia|exact H2].
Qed.
Lemma prefixb_length p s : prefixb p s = true -> (length p <= length s)%nat.
Proof. intros H. apply prefixb_true in H as [r ->]. rewrite app_length. lia. Qed.
Lemma py_pos_le s i : (py_pos s i <= length s)%nat.
Proof. unfold py_pos. lia. Qed.
Lemma py_pos_nat s n : (n <= length s)%nat -> py_pos s (Z.of_nat n) = n.
Proof. intros H. unfold py_pos. destruct (Z.ltb_spec (Z.of_nat n) 0); lia. Qed.
Lemma py_pos_last s : py_pos s (-1) = (length s - 1)%nat.
Proof. unfold py_pos. cbn [Z.ltb Z.compare]. lia. Qed.
Lemma skipn_skipn {A} y : forall x (l : list A), skipn x (skipn y l) = skipn (x + y) l.
Proof.
  induction y as [|y IH]; intros x l; [now rewrite Nat.add_0_r|]. rewrite Nat.add_succ_r. destruct l as [|a l]; [cbn; apply skipn_nil|]. cbn. apply IH.
Qed.
Lemma py_find_spec p s i : py_find p s i = -1 \/
  exists n, (py_pos s i <= n)%nat /\ (n + length p <= length s)%nat /\ py_find p s i = Z.of_nat n /\ prefixb p (skipn n s) = true.
Proof.
  unfold py_find. destruct (find_sub_spec p (skipn (py_pos s i) s) (Z.of_nat (py_pos s i))) as [H|(n & H1 & H2)]; [left; exact H|].
  right. rewrite skipn_skipn in H2. exists (n + py_pos s i)%nat. split; [lia|]. pose proof (prefixb_length _ _ H2) as L. rewrite skipn_length in L.
  pose proof (py_pos_le s i). split; [|split; [rewrite H1; lia|exact H2]].
  destruct (le_lt_dec (n + py_pos s i) (length s)) as [B|B]; [lia|]. exfalso.
  assert (n <= length (skipn (py_pos s i) s))%nat; [|rewrite skipn_length in *; lia]. pose proof (Nat2Z.is_nonneg (py_pos s i)) as K0. clear - H1 K0. revert H1 K0. generalize (Z.of_nat (py_pos s i)) as k. generalize (skipn (py_pos s i) s) as t. intros t.
  intros k H K0. assert (K : find_sub p t k <= k + Z.of_nat (length t)).
  { clear H. revert k K0. induction t as [|c t IH]; intros k K0; cbn [find_sub length].
    - destruct p; cbn; lia.
    - destruct (prefixb _ _); [lia|]. specialize (IH (k + 1)). lia. }
  lia.
Qed.

Lemma find_forward p s i : p <> [] -> (py_pos s i < length s)%nat ->
  (py_pos s i <= py_pos s (py_find p s i) < length s)%nat.
Proof.
  intros Np H. destruct (py_find_spec p s i) as [E|(n & H1 & H2 & E & _)]; rewrite E.
  - rewrite py_pos_last. lia.
  - destruct p; [congruence|]. cbn [length] in H2. rewrite py_pos_nat by lia. lia.
Qed.
Lemma prefixb_head c p n s : prefixb (c :: p) (skipn n s) = true -> nth_error s n = Some c.
Proof.
  intros H. apply prefixb_true in H as [r H]. revert s H. induction n as [|n IH]; intros s H; cbn [skipn] in H.
  - rewrite H. reflexivity.
  - destruct s as [|d s]; [discriminate|]. cbn. apply IH. exact H.
Qed.
(** the position after a block lies beyond the start of its marker *)
Lemma block_forward level s ind n : (py_pos s ind <= n)%nat -> (n + length (loopbeg level) <= length s)%nat -> prefixb (loopbeg level) (skipn n s) = true ->
  (n < py_pos s (py_find [NL] s (py_find (loopend level) s (py_find [NL] s (py_find (S_ "*/") s (Z.of_nat n))))))%nat.
Proof.
  intros H1 H2 H3. rewrite beg_cons in H2, H3. apply prefixb_head in H3. cbn [length] in H2.
  assert (P0 : (py_pos s (Z.of_nat n) < length s)%nat) by (rewrite py_pos_nat by lia; lia).
  pose proof (find_forward (S_ "*/") s _ ltac:(discriminate) P0) as P1. set (i1 := py_find (S_ "*/") s (Z.of_nat n)) in *.
  pose proof (find_forward [NL] s i1 ltac:(discriminate) ltac:(lia)) as P2. set (i2 := py_find [NL] s i1) in *.
  pose proof (find_forward (loopend level) s i2 ltac:(discriminate) ltac:(lia)) as P3. set (i3 := py_find (loopend level) s i2) in *.
  rewrite py_pos_nat in P1 by lia.
  destruct (py_find_spec [NL] s i3) as [E|(k & K1 & K2 & E & K3)]; rewrite E.
  - rewrite py_pos_last. assert (1 <= length (S_ "**begin repeat" ++ level_text level))%nat by (rewrite app_length; cbn; lia). lia.
  - cbn [length] in K2. rewrite py_pos_nat by lia. apply prefixb_head in K3. assert (k <> n); [|lia]. intros ->. rewrite H3 in K3. discriminate.
Qed.
Lemma blocks_total level s : forall fuel ind line, (length s - py_pos s ind < fuel)%nat ->
  exists l, blocks fuel (loopbeg level) (loopend level) s ind line = Some l /\
    StronglySorted Z.lt (map (fun b : block => match b with (b0, _, _, _, _) => b0 end) l) /\
    Forall (fun b : block => match b with (b0, _, _, _, _) => Z.of_nat (py_pos s ind) <= b0 end) l.
Proof.
  induction fuel as [|fuel IH]; intros ind line Hf; [lia|]. cbn [blocks].
  destruct (py_find_spec (loopbeg level) s ind) as [E|(n & H1 & H2 & E & H3)]; rewrite E.
  - exists []. repeat split; constructor.
  - destruct (Z.eqb_spec (Z.of_nat n) (-1)) as [Z|_]; [lia|]. pose proof (block_forward level s ind n H1 H2 H3) as F.
    set (i2 := py_find [NL] s (py_find (S_ "*/") s (Z.of_nat n))) in *. set (i4 := py_find [NL] s (py_find (loopend level) s i2)) in *.
    set (line' := _ + _ + _). assert (n + 15 <= length s)%nat by (unfold loopbeg in H2; rewrite app_length in H2; cbn [length S_ list_ascii_of_string] in H2; lia).
    destruct (IH i4 line') as (l & El & S & A); [pose proof (py_pos_le s i4); lia|]. rewrite El. eexists. split; [reflexivity|]. split.
    + cbn [map]. constructor; [exact S|]. rewrite Forall_map. apply (Forall_impl (P := fun b : block => match b with (b0, _, _, _, _) => Z.of_nat (py_pos s i4) <= b0 end)); [|exact A].
      intros [[[[b0 b1] b2] b3] b4]. lia.
    + constructor; [lia|]. apply (Forall_impl (P := fun b : block => match b with (b0, _, _, _, _) => Z.of_nat (py_pos s i4) <= b0 end)); [|exact A].
      intros [[[[b0 b1] b2] b3] b4]. lia.
Qed.
Lemma structure_sorted s level : exists l, parse_structure s level = Some l /\
  StronglySorted Z.lt (map (fun b : block => match b with (b0, _, _, _, _) => b0 end) l).
Proof.
  destruct (blocks_total level s (S (S (length s))) 0 0) as (l & E & S & _); [lia|]. exists l. split; assumption.
Qed.
Lemma slice_length s a b : (length (slice s a b) = Nat.min (py_pos s b - py_pos s a) (length s - py_pos s a))%nat.
Proof. unfold slice. rewrite firstn_length, skipn_length. reflexivity. Qed.
Lemma header_nonempty t l : parse_loop_header t = inr l -> t <> [].
Proof. intros H ->. cbn in H. discriminate. Qed.
Lemma app_out_fuel a b : a <> NoFuel -> b <> NoFuel -> app_out a b <> NoFuel.
Proof. destruct a, b; cbn; congruence. Qed.
Lemma sub_out_fuel e n s : sub_out e n s <> NoFuel.
Proof. unfold sub_out. destruct (substitute e 0 s); discriminate. Qed.
Lemma each_block_fuel f s e here : (forall t d n, (length t < length s)%nat -> f t d n <> NoFuel) -> forall l oldend, each_block f s e here l oldend <> NoFuel.
Proof.
  intros Hf. induction l as [|[[[[b0 b1] b2] b3] b4] l IH]; intros oldend; cbn [each_block]; [apply sub_out_fuel|].
  apply app_out_fuel; [apply sub_out_fuel|]. apply app_out_fuel; [|apply IH].
  destruct (parse_loop_header (slice s b0 b1)) as [err|envs] eqn:E; [discriminate|]. apply header_nonempty in E.
  assert (L : (length (slice s b1 b2) < length s)%nat).
  { pose proof (slice_length s b0 b1) as L1. pose proof (slice_length s b1 b2) as L2. pose proof (py_pos_le s b2). pose proof (py_pos_le s b1).
    destruct (slice s b0 b1); [congruence|]. cbn [length] in L1. lia. }
  induction envs as [|d envs IHe]; cbn [each_env]; [discriminate|]. apply app_out_fuel; [apply Hf, L|exact IHe].
Qed.
Lemma parse_fuel fuel : forall s e level here, (length s < fuel)%nat -> parse_string fuel s e level here <> NoFuel.
Proof.
  induction fuel as [|fuel IH]; intros s e level here H; [lia|]. cbn [parse_string]. destruct (structure_sorted s level) as (l & -> & _).
  apply app_out_fuel; [discriminate|]. apply app_out_fuel; [|discriminate].
  destruct l as [|b l]; [apply sub_out_fuel|]. apply each_block_fuel. intros t d n Ht. apply IH. lia.
Qed.
Lemma process_total s : process_str s <> NoFuel.
Proof. unfold process_str. apply app_out_fuel; [discriminate|]. apply parse_fuel. lia. Qed.

(** a text without markers and names is copied *)
Lemma process_plain s : absent (S_ "/**begin repeat") s -> ~ In (ch "@") s ->
  process_str s = Text (header ++ S_ "#line 1" ++ [ascii_of_nat 10] ++ s ++ [ascii_of_nat 10]).
Proof.
  intros A H. pose proof (process_expansion (Last [Lit s])) as K. cbn [src text_src map concat tok_src good] in K. rewrite app_nil_r in K.
  rewrite K; [|split; [constructor; [exact H|constructor]|exact A]].
  unfold expansion. cbn [pieces text_out andthen]. rewrite app_nil_r, <- !app_assoc. reflexivity.
Qed.

(** deciding absence, for the examples *)
Lemma absent_check p s : find_sub p s 0 = -1 -> absent p s.
Proof.
  intros H a b E. assert (K : forall k, 0 <= k -> find_sub p s k <> -1); [|exact (K 0 ltac:(lia) H)]. rewrite E. clear. induction a as [|c a IH]; intros k Hk.
  - cbn [app]. rewrite find_here. lia.
  - cbn [app find_sub]. destruct (prefixb _ _); [lia|]. apply IH. lia.
Qed.
Lemma notin_check c s : memb c s = false -> ~ In c s.
Proof. apply memb_false. Qed.
Lemma blanks_check s : forallb isspace s = true -> blanks s.
Proof. intros H. apply Forall_forall. intros c Hc. apply isspace_In. exact (proj1 (forallb_forall _ _) H c Hc). Qed.
Lemma word_check s : negb (Nat.eqb (length s) 0) && forallb isword s = true -> word s.
Proof.
  intros H. apply andb_prop in H as [H1 H2]. split; [intros ->; discriminate|]. apply Forall_forall. intros c Hc. apply isword_In. exact (proj1 (forallb_forall _ _) H2 c Hc).
Qed.
Lemma value_check v : forallb (fun c => negb (memb c (S_ ",#*()"))) v && negb (isspace (hd (ch "x") v)) && negb (isspace (last v (ch "x"))) = true -> value v.
Proof.
  intros H. apply andb_prop in H as [H H3]. apply andb_prop in H as [H1 H2]. split.
  - apply Forall_forall. intros c Hc. apply memb_false. apply negb_true_iff. exact (proj1 (forallb_forall _ _) H1 c Hc).
  - intros c r [-> | ->].
    + apply isspace_not. now apply negb_true_iff in H2.
    + apply isspace_not. rewrite last_last in H3. now apply negb_true_iff in H3.
Qed.

(** what is reported *)
Lemma process_undefined a w b : ~ In (ch "@") a -> word w -> absent (S_ "/**begin repeat") (a ++ S_ "@" ++ w ++ S_ "@" ++ b) ->
  process_str (a ++ S_ "@" ++ w ++ S_ "@" ++ b) = ValueError 1 (Undefined w).
Proof.
  intros Ha Hw A. unfold process_str. set (s := a ++ S_ "@" ++ w ++ S_ "@" ++ b) in *. cbn [parse_string]. unfold parse_structure. cbn [blocks].
  assert (F : py_find (loopbeg 0) s 0 = -1) by (exact (eq_trans (find_at (loopbeg 0) [] s) (find_none (S_ "/**begin repeat") s (zl []) ltac:(discriminate) A))). rewrite F.
  cbn [Z.eqb Pos.eqb]. unfold sub_out, s. rewrite substitute_lit, substitute_var by assumption. reflexivity.
Qed.
Lemma text_out_lit f here x : Forall (fun t => match t with Lit _ => True | Var _ => False end) x -> exists r, text_out f here x = Text r.
Proof.
  induction 1 as [|t x Ht H IH]; [exists []; reflexivity|]. destruct t as [s|n]; [|contradiction]. destruct IH as [r IH]. cbn [text_out]. rewrite IH. eexists. reflexivity.
Qed.
Lemma process_bad_block pre h body trail rest e : good 0 (Block pre h body trail rest) -> Forall (fun t => match t with Lit _ => True | Var _ => False end) pre ->
  settings (h_decls h) = inl e -> process_str (src 0 (Block pre h body trail rest)) = ValueError (1 + lines (text_src pre) + lines (h_text h)) e.
Proof.
  intros G H E. rewrite process_expansion by exact G. unfold expansion. cbn [pieces]. destruct (text_out_lit (fun _ => None) 1 pre H) as [r ->]. rewrite E. reflexivity.
Qed.

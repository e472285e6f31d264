(** Which templates are rejected. *)
From Coq Require Import ZArith Ascii String List Bool Lia.
From Verif Require Import CSem M_Gen S_Gen P_Gen M_Template S_Template S_TemplateE P_Template.
Import ListNotations.
Open Scope Z_scope.

Definition env_of (scope : list str) (e : str -> option str) : Prop := forall n, e n <> None <-> In n scope.

Lemma andthen_text a b r : andthen a b = Text r -> exists x y, a = Text x /\ b = Text y.
Proof. destruct a as [x|l e|]; try discriminate. destruct b as [y|l e|]; try discriminate. intros _. exists x, y. split; reflexivity. Qed.
Lemma andthen_err a b l e : andthen a b = ValueError l e -> a = ValueError l e \/ (exists x, a = Text x) /\ b = ValueError l e.
Proof. destruct a as [x|l' e'|]; try discriminate; [|intros H; left; exact H]. destruct b as [y|l' e'|]; try discriminate. intros H. right. split; [exists x; reflexivity|exact H]. Qed.
Lemma fold_text l : (forall o, In o l -> exists r, o = Text r) -> exists r, fold_right andthen (Text []) l = Text r.
Proof.
  induction l as [|o l IH]; intros H; [exists []; reflexivity|]. cbn [fold_right]. destruct (H o (or_introl eq_refl)) as [x ->].
  destruct IH as [y ->]; [intros o Ho; apply H; right; exact Ho|]. exists (x ++ y). reflexivity.
Qed.
Lemma fold_text_inv l r : fold_right andthen (Text []) l = Text r -> forall o, In o l -> exists r, o = Text r.
Proof.
  revert r. induction l as [|o l IH]; intros r H; [intros o []|]. cbn [fold_right] in H. destruct (andthen_text _ _ _ H) as (x & y & E1 & E2).
  intros o' [<-|Ho]; [exists x; exact E1|exact (IH y E2 o' Ho)].
Qed.
Lemma fold_err l line e : fold_right andthen (Text []) l = ValueError line e -> exists o, In o l /\ o = ValueError line e.
Proof.
  induction l as [|o l IH]; [discriminate|]. cbn [fold_right]. intros H. destruct (andthen_err _ _ _ _ H) as [E|[_ E]]; [exists o; split; [left; reflexivity|exact E]|].
  destruct (IH E) as (o' & Ho & E'). exists o'. split; [right; exact Ho|exact E'].
Qed.

Lemma text_out_iff e scope here x : env_of scope e -> (exists r, text_out e here x = Text r) <-> Forall (tok_ok scope) x.
Proof.
  intros He. induction x as [|t x IH]; [split; [constructor|exists []; reflexivity]|]. destruct t as [s|n]; cbn [text_out].
  - split.
    + intros [r H]. destruct (andthen_text _ _ _ H) as (a & b & _ & E). constructor; [exact I|]. apply IH. exists b. exact E.
    + intros H. inversion H as [|? ? _ H']; subst. destruct (proj2 IH H') as [b ->]. eexists. reflexivity.
  - specialize (He n). destruct (e n) as [v|].
    + assert (IN : In n scope) by (apply He; discriminate). split.
      * intros [r H]. destruct (andthen_text _ _ _ H) as (a & b & _ & E). constructor; [exact IN|]. apply IH. exists b. exact E.
      * intros H. inversion H as [|? ? _ H']; subst. destruct (proj2 IH H') as [b ->]. eexists. reflexivity.
    + split; [intros [r H]; discriminate|]. intros H. inversion H as [|? ? K _]; subst. cbn in K. apply He in K. congruence.
Qed.
Lemma text_out_err e scope here x line err : env_of scope e -> text_out e here x = ValueError line err ->
  line = here /\ exists a n b, x = a ++ Var n :: b /\ err = Undefined n /\ Forall (tok_ok scope) a /\ ~ In n scope.
Proof.
  intros He. induction x as [|t x IH]; [discriminate|]. destruct t as [s|n]; cbn [text_out].
  - intros H. destruct (andthen_err _ _ _ _ H) as [E|[_ E]]; [discriminate|]. destruct (IH E) as (A & a & m & b & -> & B & C & D). split; [exact A|].
    exists (Lit s :: a), m, b. split; [reflexivity|]. split; [exact B|]. split; [constructor; [exact I|exact C]|exact D].
  - pose proof (He n) as Hn. destruct (e n) as [v|].
    + intros H. destruct (andthen_err _ _ _ _ H) as [E|[_ E]]; [discriminate|]. destruct (IH E) as (A & a & m & b & -> & B & C & D). split; [exact A|].
      exists (Var n :: a), m, b. split; [reflexivity|]. split; [exact B|]. split; [constructor; [apply Hn; discriminate|exact C]|exact D].
    + intros H. injection H as <- <-. split; [reflexivity|]. exists [], n, x. split; [reflexivity|]. split; [reflexivity|]. split; [constructor|]. intros K. apply Hn in K. congruence.
Qed.
Lemma text_out_stop e scope here a n b : env_of scope e -> Forall (tok_ok scope) a -> ~ In n scope ->
  text_out e here (a ++ Var n :: b) = ValueError here (Undefined n).
Proof.
  intros He HF N. induction HF as [|t a Ht HF IH]; cbn [app text_out].
  - specialize (He n). destruct (e n); [exfalso; apply N, He; discriminate|reflexivity].
  - destruct t as [s|m]; [rewrite IH; reflexivity|]. specialize (He m). destruct (e m); [rewrite IH; reflexivity|]. exfalso. apply (proj2 He Ht). reflexivity.
Qed.

Lemma item_some i t : spells_item i t -> item_values i <> [].
Proof. intros H. destruct H; cbn [item_values]; [discriminate|]. destruct (Z.to_nat n) eqn:E; [lia|discriminate]. Qed.
Lemma entry_some e t : spells_entry e t -> concat (map item_values (entry_items e)) <> [].
Proof.
  intros H. destruct H as [i t Hi|a l ts d n b Ha Hb Hl HF Hn Hn1]; cbn [entry_items].
  - cbn. rewrite app_nil_r. exact (item_some _ _ Hi).
  - destruct HF as [|i t l ts Hi HF]; [congruence|]. destruct (Z.to_nat n) eqn:E; [lia|]. cbn [repeat concat app map]. pose proof (item_some _ _ Hi). destruct (item_values i); [congruence|discriminate].
Qed.
Lemma values_some l t : spells_values l t -> values l <> [].
Proof.
  intros (Hl & ts & HF & _). destruct HF as [|e t' l ts He HF]; [congruence|]. unfold values. cbn [map concat]. rewrite map_app, concat_app.
  pose proof (entry_some _ _ He). destruct (concat (map item_values (entry_items e))); [congruence|discriminate].
Qed.
Lemma decls_some ds t : spells_decls ds t -> forall d, In d ds -> values (snd d) <> [].
Proof.
  intros H. induction H as [g Hg|g d t ds r Hg Hd H IH]; intros d' Hin; [destruct Hin|]. destruct Hin as [<-|Hin]; [|exact (IH d' Hin)].
  inversion Hd; subst. cbn [snd]. eapply values_some; eassumption.
Qed.
Lemma heading_some level ds t : spells_heading level ds t -> forall d, In d ds -> values (snd d) <> [].
Proof. intros H. destruct H. eapply decls_some; eassumption. Qed.

Lemma settings_inl ds e : settings ds = inl e -> (ds = [] /\ e = NoVariables) \/
  (e = Mismatch /\ exists d d', In d ds /\ In d' ds /\ length (values (snd d)) <> length (values (snd d'))).
Proof.
  destruct ds as [|[n0 l0] ds]; cbn [settings]; [intros H; injection H as <-; left; split; reflexivity|].
  destruct (forallb _ _) eqn:F; [discriminate|]. intros H. injection H as <-. right. split; [reflexivity|].
  assert (E : exists d, In d ((n0, l0) :: ds) /\ Nat.eqb (length (values (snd d))) (length (values l0)) = false).
  { revert F. generalize ((n0, l0) :: ds). intros l. induction l as [|d l IH]; [discriminate|]. cbn [forallb].
    destruct (Nat.eqb (length (values (snd d))) (length (values l0))) eqn:B; intros F; [destruct (IH F) as (d' & H1 & H2); exists d'; split; [right; exact H1|exact H2]|exists d; split; [left; reflexivity|exact B]]. }
  destruct E as (d & Hd & B). apply Nat.eqb_neq in B. exists d, (n0, l0). split; [exact Hd|]. split; [left; reflexivity|exact B].
Qed.
Lemma settings_inr ds l : settings ds = inr l -> ds <> [] /\
  (forall d d', In d ds -> In d' ds -> length (values (snd d)) = length (values (snd d'))) /\
  (forall d, In d l -> map fst d = map fst ds) /\ ((forall d, In d ds -> values (snd d) <> []) -> l <> []).
Proof.
  destruct ds as [|[n0 l0] ds]; cbn [settings]; [discriminate|]. destruct (forallb _ _) eqn:F; [|discriminate]. intros H. injection H as <-.
  rewrite forallb_forall in F. split; [discriminate|]. split; [|split].
  - intros d d' H1 H2. apply F in H1. apply F in H2. apply Nat.eqb_eq in H1, H2. congruence.
  - intros d Hd. apply in_map_iff in Hd. destruct Hd as (i & <- & _). cbn [map fst]. f_equal. rewrite map_map. reflexivity.
  - intros H. specialize (H (n0, l0) (or_introl eq_refl)). cbn [snd] in H. destruct (values l0); [congruence|]. cbn [length seq map]. discriminate.
Qed.
Lemma settings_ok ds : ds <> [] -> (forall d d', In d ds -> In d' ds -> length (values (snd d)) = length (values (snd d'))) -> exists l, settings ds = inr l.
Proof.
  intros N H. destruct (settings ds) as [e|l] eqn:E; [|exists l; reflexivity]. destruct (settings_inl ds e E) as [[K _]|(_ & d & d' & H1 & H2 & H3)]; [congruence|]. exfalso. apply H3. apply H; assumption.
Qed.

Lemma assoc_in d n : assoc d n <> None <-> In n (map fst d).
Proof.
  induction d as [|[k v] d IH]; cbn [assoc map fst In]; [split; [congruence|intros []]|]. destruct (list_eq_dec ascii_dec k n) as [->|N]; [split; [left; reflexivity|discriminate]|].
  rewrite IH. split; [intros H; right; exact H|intros [H|H]; [congruence|exact H]].
Qed.
Lemma env_extend scope e d names : env_of scope e -> map fst d = names -> env_of (scope ++ names) (extend e d).
Proof.
  intros He <- n. unfold extend. rewrite in_app_iff, <- assoc_in, <- (He n). destruct (e n); split; intros H; try (left; discriminate); try discriminate.
  - right. exact H.
  - destruct H as [H|H]; [congruence|exact H].
Qed.

Lemma pieces_iff : forall t level here pos scope e, good level t -> env_of scope e ->
  (exists r, pieces level here pos e t = Text r) <-> well_formed scope t.
Proof.
  induction t as [x|pre h body IHb trail rest IHr]; intros level here pos scope e G He; cbn [pieces well_formed].
  - apply text_out_iff; exact He.
  - cbn [good] in G. destruct G as (_ & _ & _ & SH & _ & GB & _ & GR). pose proof (text_out_iff e scope here pre He) as TP.
    set (L := pos + lines (text_src pre) + lines (h_text h)). split.
    + intros [r H]. destruct (andthen_text _ _ _ H) as (a & b & E1 & E2). destruct (andthen_text _ _ _ E2) as (c & d & E3 & E4).
      split; [apply TP; exists a; exact E1|]. destruct (settings (h_decls h)) as [err|l] eqn:ES; [discriminate|].
      destruct (settings_inr _ _ ES) as (N & Q & NM & NE). split; [exact N|]. split; [exact Q|].
      split; [|apply (IHr level here (L + lines (src (S level) body) + 1) scope e GR He); exists d; exact E4].
      specialize (NE (heading_some _ _ _ SH)). destruct l as [|d0 l]; [congruence|].
      pose proof (fold_text_inv _ _ E3 _ (or_introl eq_refl)) as [r0 E0]. destruct (andthen_text _ _ _ E0) as (? & ? & _ & E5). destruct (andthen_text _ _ _ E5) as (y & ? & E6 & _).
      apply (IHb (S level) L L _ (extend e d0) GB); [apply env_extend; [exact He|apply NM; left; reflexivity]|]. exists y. exact E6.
    + intros (HP & N & Q & WB & WR). destruct (proj2 TP HP) as [a ->]. destruct (settings_ok _ N Q) as [l ES]. rewrite ES.
      destruct (settings_inr _ _ ES) as (_ & _ & NM & _).
      destruct (proj2 (IHr level here (L + lines (src (S level) body) + 1) scope e GR He) WR) as [d ->].
      match goal with |- context [fold_right andthen (Text []) ?q] => destruct (fold_text q) as [c ->] end.
      { intros o Ho. apply in_map_iff in Ho. destruct Ho as (d0 & <- & Hd). destruct (proj2 (IHb (S level) L L (scope ++ map fst (h_decls h)) (extend e d0) GB (env_extend _ _ _ _ He (NM d0 Hd))) WB) as [y ->]. eexists. reflexivity. }
      eexists. reflexivity.
Qed.

Lemma pieces_fault : forall t level here pos scope e line err, good level t -> env_of scope e ->
  pieces level here pos e t = ValueError line err -> fault level here pos scope t line err.
Proof.
  induction t as [x|pre h body IHb trail rest IHr]; intros level here pos scope e line err G He H; cbn [pieces] in H.
  - destruct (text_out_err _ _ _ _ _ _ He H) as (-> & a & n & b & -> & -> & A & B). apply f_last; assumption.
  - cbn [good] in G. destruct G as (_ & _ & _ & SH & _ & GB & _ & GR). destruct (andthen_err _ _ _ _ H) as [E|[TP E]].
    { destruct (text_out_err _ _ _ _ _ _ He E) as (-> & a & n & b & -> & -> & A & B). apply f_pre; assumption. }
    apply (text_out_iff e scope here pre He) in TP.
    destruct (settings (h_decls h)) as [er|l] eqn:ES.
    + cbn [andthen] in E. injection E as <- <-. destruct (settings_inl _ _ ES) as [[K ->]|(-> & d & d' & H1 & H2 & H3)]; [apply f_empty; assumption|].
      exact (f_mismatch _ _ _ _ _ _ _ _ _ d d' TP H1 H2 H3).
    + destruct (settings_inr _ _ ES) as (N & Q & NM & NE). destruct (andthen_err _ _ _ _ E) as [E1|[[c E0] E1]].
      * destruct (fold_err _ _ _ E1) as (o & Ho & E2). apply in_map_iff in Ho. destruct Ho as (d & <- & Hd).
        destruct (andthen_err _ _ _ _ E2) as [E3|[_ E3]]; [discriminate|]. destruct (andthen_err _ _ _ _ E3) as [E4|[_ E4]]; [|discriminate].
        apply f_body; [exact TP|split; assumption|]. eapply IHb; [exact GB| |exact E4]. apply env_extend; [exact He|apply NM; exact Hd].
      * apply f_rest; [exact TP|split; assumption| |eapply IHr; eassumption].
        specialize (NE (heading_some _ _ _ SH)). destruct l as [|d0 l]; [congruence|].
        pose proof (fold_text_inv _ _ E0 _ (or_introl eq_refl)) as [r0 E2]. destruct (andthen_text _ _ _ E2) as (? & ? & _ & E5). destruct (andthen_text _ _ _ E5) as (y & ? & E6 & _).
        eapply pieces_iff; [exact GB|apply (env_extend scope e d0); [exact He|apply NM; left; reflexivity]|]. exists y. exact E6.
Qed.
Lemma fault_pieces level here pos scope t line err : fault level here pos scope t line err ->
  forall e, good level t -> env_of scope e -> pieces level here pos e t = ValueError line err.
Proof.
  intros F. induction F as [level here pos scope a n b A N|level here pos scope a n b h body trail rest A N|level here pos scope pre h body trail rest A K
    |level here pos scope pre h body trail rest d d' A H1 H2 H3|level here pos scope pre h body trail rest line err A [N Q] F IH
    |level here pos scope pre h body trail rest line err A [N Q] W F IH]; intros e G He; cbn [pieces].
  - eapply text_out_stop; eassumption.
  - rewrite (text_out_stop e scope here a n b He A N). reflexivity.
  - destruct (proj2 (text_out_iff e scope here pre He) A) as [x ->]. rewrite K. reflexivity.
  - destruct (proj2 (text_out_iff e scope here pre He) A) as [x ->]. destruct (settings (h_decls h)) as [er|l] eqn:ES.
    + destruct (settings_inl _ _ ES) as [[K _]|[-> _]]; [rewrite K in H1; destruct H1|reflexivity].
    + exfalso. destruct (settings_inr _ _ ES) as (_ & Q & _). apply H3, Q; assumption.
  - cbn [good] in G. destruct G as (_ & _ & _ & SH & _ & GB & _ & GR). destruct (proj2 (text_out_iff e scope here pre He) A) as [x ->].
    destruct (settings_ok _ N Q) as [l ES]. rewrite ES. destruct (settings_inr _ _ ES) as (_ & _ & NM & NE). specialize (NE (heading_some _ _ _ SH)). destruct l as [|d0 l]; [congruence|].
    cbn [map fold_right]. rewrite (IH (extend e d0) GB); [reflexivity|]. apply env_extend; [exact He|apply NM; left; reflexivity].
  - cbn [good] in G. destruct G as (_ & _ & _ & SH & _ & GB & _ & GR). destruct (proj2 (text_out_iff e scope here pre He) A) as [x ->].
    destruct (settings_ok _ N Q) as [l ES]. rewrite ES. destruct (settings_inr _ _ ES) as (_ & _ & NM & _). rewrite (IH e GR He).
    match goal with |- context [fold_right andthen (Text []) ?q] => destruct (fold_text q) as [c ->] end; [|reflexivity].
    intros o Ho. apply in_map_iff in Ho. destruct Ho as (d0 & <- & Hd). destruct (proj2 (pieces_iff body (S level) (pos + lines (text_src pre) + lines (h_text h)) (pos + lines (text_src pre) + lines (h_text h)) (scope ++ map fst (h_decls h)) (extend e d0) GB (env_extend _ _ _ _ He (NM d0 Hd))) W) as [y ->]. eexists. reflexivity.
Qed.

Lemma env0 : env_of [] (fun _ => None).
Proof. intros n. split; [congruence|intros []]. Qed.
Theorem accepted_iff t : good 0 t -> (exists r, process_str (src 0 t) = Text r) <-> well_formed [] t.
Proof.
  intros G. rewrite process_expansion by exact G. rewrite <- (pieces_iff t 0 1 1 [] (fun _ => None) G env0). unfold expansion. split.
  - intros [r H]. destruct (andthen_text _ _ _ H) as (_ & b & _ & E). destruct (andthen_text _ _ _ E) as (c & _ & E1 & _). exists c. exact E1.
  - intros [r ->]. eexists. reflexivity.
Qed.
Theorem rejected_iff t line e : good 0 t -> process_str (src 0 t) = ValueError line e <-> fault 0 1 1 [] t line e.
Proof.
  intros G. rewrite process_expansion by exact G. unfold expansion. split.
  - intros E. destruct (andthen_err _ _ _ _ E) as [E1|[_ E1]]; [discriminate|]. destruct (andthen_err _ _ _ _ E1) as [E2|[_ E2]]; [|discriminate].
    exact (pieces_fault t 0 1 1 [] (fun _ => None) line e G env0 E2).
  - intros F. rewrite (fault_pieces _ _ _ _ _ _ _ F _ G env0). reflexivity.
Qed.

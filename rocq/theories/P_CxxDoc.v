(** Proofs about the docstring macros. *)
From Coq Require Import ZArith Lia Bool Ascii String List.
From Verif Require Import CSem M_Stat M_Gen M_Types M_Cxx S_Cxx P_Gen.
Import ListNotations.
Open Scope list_scope.

Lemma splice_other c s : c <> bslash -> splice (c :: s) = c :: splice s.
Proof. intros H. destruct s as [|n s]; [reflexivity|]. cbn [splice]. rewrite (eqb_neq' _ _ H). reflexivity. Qed.
Lemma splice_cut s : splice (bslash :: nl :: s) = splice s.
Proof. reflexivity. Qed.
Lemma splice_esc c s : c <> nl -> splice (bslash :: c :: s) = bslash :: splice (c :: s).
Proof. intros H. cbn [splice]. rewrite (eqb_neq' _ _ H), andb_false_r. reflexivity. Qed.
Lemma splice_app w s : Forall (fun c => c <> bslash) w -> splice (w ++ s) = w ++ splice s.
Proof. induction 1 as [|c w H HF IH]; [reflexivity|]. cbn [app]. rewrite splice_other by exact H. rewrite IH. reflexivity. Qed.

Lemma word_app w s : Forall (fun c => c <> ch " ") w -> word (w ++ ch " " :: s) = (w, s).
Proof. induction 1 as [|c w H HF IH]; [reflexivity|]. cbn [app word]. rewrite (eqb_neq' _ _ H), IH. reflexivity. Qed.

Lemma upper_ident name : ident name -> Forall (fun c => c <> bslash /\ c <> ch " ") (upper name ++ S_ "_DOCSTRING").
Proof.
  intros H. apply Forall_app. split; [|cbn; repeat (constructor; [split; discriminate|]); constructor].
  unfold upper. apply Forall_forall. intros x Hx. apply in_map_iff in Hx as (c & <- & Hc). unfold ident in H. rewrite Forall_forall in H. specialize (H c Hc).
  clear Hc. revert H. unfold ident_char. destruct c as [[] [] [] [] [] [] [] []]; cbn; intros; try (split; discriminate); lia.
Qed.

Lemma read_define_name name body b : ident name -> lits false (splice body) = Some b ->
  read_define (S_ "#define " ++ upper name ++ S_ "_DOCSTRING " ++ body) = Some (upper name ++ S_ "_DOCSTRING", b).
Proof.
  intros Hn Hb. unfold read_define.
  replace (S_ "#define " ++ upper name ++ S_ "_DOCSTRING " ++ body)
    with (S_ "#define" ++ (ch " " :: (upper name ++ S_ "_DOCSTRING") ++ [ch " "] ++ body)) by (rewrite <- !app_assoc; reflexivity).
  rewrite splice_app by (cbn; repeat (constructor; [discriminate|]); constructor). rewrite splice_other by discriminate.
  pose proof (upper_ident name Hn) as HU.
  rewrite splice_app by (eapply Forall_impl; [|exact HU]; intros ? [? ?]; assumption).
  cbn [app]. rewrite splice_other by discriminate.
  rewrite word_app by (cbn; repeat (constructor; [discriminate|]); constructor).
  rewrite eqs_refl. rewrite word_app by (eapply Forall_impl; [|exact HU]; intros ? [? ?]; assumption).
  rewrite Hb. reflexivity.
Qed.

Lemma lits_char c s : c <> quote -> c <> nl -> c <> bslash -> lits true (c :: s) = option_map (cons c) (lits true s).
Proof. intros H1 H2 H3. cbn [lits]. rewrite (eqb_neq' _ _ H1), (eqb_neq' _ _ H2), (eqb_neq' _ _ H3). reflexivity. Qed.

(** ** the macro of an elementwise ufunc *)
Lemma cdef_body doc : unescaped doc ->
  lits true (splice (replace_char nl [bslash; ch "n"; quote; bslash; nl; quote] doc ++ [quote])) = Some doc.
Proof.
  induction 1 as [|c doc [H1 H2] HF IH]; [reflexivity|]. cbn [replace_char flat_map].
  change (flat_map _ doc) with (replace_char nl [bslash; ch "n"; quote; bslash; nl; quote] doc).
  destruct (Ascii.eqb c nl) eqn:E.
  - apply Ascii.eqb_eq in E. subst c. cbn [app]. rewrite splice_esc by discriminate. rewrite splice_other by discriminate.
    rewrite splice_other by discriminate. rewrite splice_cut, splice_other by discriminate.
    set (r := splice _) in *. transitivity (option_map (cons nl) (lits true r)); [reflexivity|]. rewrite IH. reflexivity.
  - cbn [app]. rewrite splice_other by exact H2. rewrite lits_char; [|exact H1|apply Ascii.eqb_neq; exact E|exact H2]. rewrite IH. reflexivity.
Qed.
Theorem cdef_docstring_verbatim name doc : ident name -> unescaped doc ->
  read_define (cdef_docstring name doc) = Some (upper name ++ S_ "_DOCSTRING", doc).
Proof.
  intros Hn Hd. unfold cdef_docstring. apply read_define_name; [exact Hn|].
  cbn [app]. rewrite splice_cut, splice_other by discriminate. exact (cdef_body doc Hd).
Qed.

(** ** the macro of a gufunc *)
Lemma with_nl_app x s : s <> [] -> with_nl (x ++ s) = x ++ with_nl s.
Proof.
  intros H. unfold with_nl. rewrite rev_app_distr. destruct (rev s) as [|c r] eqn:E.
  - apply (f_equal (@rev ascii)) in E. rewrite rev_involutive in E. contradiction.
  - cbn [app]. destruct (Ascii.eqb c nl); [reflexivity|]. symmetry. apply app_assoc.
Qed.
Definition noline (s : str) : Prop := Forall (fun c => c <> nl) s.
Lemma with_nl_line s : noline s -> s <> [] -> with_nl s = s ++ [nl].
Proof.
  intros H Hs. unfold with_nl. destruct (rev s) as [|c r] eqn:E; [apply (f_equal (@rev ascii)) in E; rewrite rev_involutive in E; contradiction|].
  assert (c <> nl) as Hc. { unfold noline in H. rewrite Forall_forall in H. apply H. apply in_rev. rewrite E. left. reflexivity. }
  rewrite (eqb_neq' _ _ Hc). reflexivity.
Qed.

Lemma splitlines_join : forall s cur, only_nl s -> noline cur ->
  concat (map (fun l => l ++ [nl]) (splitlines_go false cur s)) = with_nl (rev cur ++ s).
Proof.
  induction s as [|c s IH]; intros cur Hs Hc.
  - cbn [splitlines_go]. rewrite app_nil_r. destruct cur as [|x cur]; [reflexivity|]. cbn [map concat]. rewrite app_nil_r.
    symmetry. apply with_nl_line; [apply Forall_rev; exact Hc|]. intros E. apply (f_equal (@length ascii)) in E. rewrite rev_length in E. discriminate.
  - inversion Hs as [|? ? Hb Hs']; subst. cbn [splitlines_go andb]. destruct (is_break c) eqn:B.
    + rewrite (Hb eq_refl). change (Ascii.eqb nl (ascii_of_nat 13)) with false. cbn [map concat]. rewrite IH by (assumption || constructor).
      cbn [rev app]. destruct s as [|d s].
      * cbn. rewrite app_nil_r. unfold with_nl. rewrite rev_app_distr. reflexivity.
      * rewrite <- app_assoc. change (rev cur ++ nl :: d :: s) with (rev cur ++ [nl] ++ d :: s). rewrite !with_nl_app by discriminate.
        reflexivity.
    + rewrite IH; [cbn [rev]; rewrite <- app_assoc; reflexivity|exact Hs'|]. constructor; [|exact Hc]. intros ->. discriminate B.
Qed.
Lemma splitlines_lines (P : ascii -> Prop) : forall s cr cur, Forall P s -> Forall P cur -> noline cur ->
  Forall (fun l => Forall P l /\ noline l) (splitlines_go cr cur s).
Proof.
  induction s as [|c s IH]; intros cr cur Hs Hp Hc; cbn [splitlines_go].
  - destruct cur; [constructor|]. constructor; [|constructor]. split; apply Forall_rev; assumption.
  - inversion Hs; subst. destruct (cr && Ascii.eqb c nl); [apply IH; assumption|]. destruct (is_break c) eqn:B.
    + constructor; [split; apply Forall_rev; assumption|]. apply IH; [assumption|constructor|constructor].
    + apply IH; [assumption|constructor; assumption|]. constructor; [|exact Hc]. intros ->. discriminate B.
Qed.
Lemma splitlines_nil s : splitlines s = [] -> s = [].
Proof.
  unfold splitlines. assert (G : forall s cr cur, splitlines_go cr cur s = [] -> cur = [] ).
  { clear. induction s as [|c s IH]; intros cr cur H; cbn [splitlines_go] in H; [destruct cur; [reflexivity|discriminate]|].
    destruct (cr && Ascii.eqb c nl); [eapply IH; exact H|]. destruct (is_break c); [discriminate|]. apply IH in H. discriminate. }
  destruct s as [|c s]; [reflexivity|]. cbn [splitlines_go andb]. destruct (is_break c); [discriminate|]. intros H. apply G in H. discriminate.
Qed.

Lemma lits_line line s : unescaped line -> noline line -> lits true (line ++ s) = option_map (app line) (lits true s).
Proof.
  induction 1 as [|c line [H1 H2] HF IH]; intros HN; [cbn; destruct (lits true s); reflexivity|]. inversion HN; subst.
  cbn [app]. rewrite lits_char by assumption. rewrite IH by assumption. destruct (lits true s); reflexivity.
Qed.
Lemma lits_spaces n s : lits false (repeat (ch " ") n ++ s) = lits false s.
Proof. induction n as [|n IH]; [reflexivity|]. cbn [repeat app]. exact IH. Qed.

Definition dline (llen : nat) (line : str) : str :=
  [quote] ++ line ++ [bslash; ch "n"; quote] ++ repeat (ch " ") (llen - length line + 2) ++ [bslash].
Lemma dline_read llen line rest : unescaped line -> noline line ->
  lits false (splice (dline llen line ++ nl :: rest)) = option_map (app (line ++ [nl])) (lits false (splice rest)).
Proof.
  intros H1 H2. unfold dline. rewrite <- !app_assoc. cbn [app].
  rewrite splice_other by discriminate. rewrite splice_app by (eapply Forall_impl; [|exact H1]; intros ? [? ?]; assumption).
  rewrite splice_esc by discriminate. rewrite splice_other by discriminate. rewrite splice_other by discriminate.
  rewrite splice_app by (apply Forall_forall; intros c Hc; apply repeat_spec in Hc; subst; discriminate).
  rewrite splice_cut. set (r := splice rest).
  transitivity (lits true (line ++ bslash :: ch "n" :: quote :: repeat (ch " ") (llen - length line + 2) ++ r)); [reflexivity|].
  rewrite lits_line by assumption.
  transitivity (option_map (app line) (option_map (cons nl) (lits false (repeat (ch " ") (llen - length line + 2) ++ r)))); [reflexivity|].
  rewrite lits_spaces. destruct (lits false r); [|reflexivity]. cbn. rewrite <- app_assoc. reflexivity.
Qed.

Definition tail_text (llen : nat) (lines : list str) : str :=
  concat (map (fun y => [nl] ++ y) (map (dline llen) lines ++ [[quote; quote]])).
Lemma tail_eq llen : forall lines, exists r, tail_text llen lines = nl :: r /\
  (Forall (fun l => unescaped l /\ noline l) lines -> lits false (splice r) = Some (concat (map (fun l => l ++ [nl]) lines))).
Proof.
  induction lines as [|l lines (r & E & H)].
  - exists [quote; quote]. split; [reflexivity|]. reflexivity.
  - exists (dline llen l ++ nl :: r). split.
    + unfold tail_text in *. cbn [map app concat]. cbn [app] in E. rewrite E. reflexivity.
    + intros HF. inversion HF as [|? ? [H1 H2] HF']; subst. rewrite dline_read by assumption. rewrite H by assumption. reflexivity.
Qed.

Theorem create_c_docstring_def_reads name doc : ident name -> unescaped doc -> only_nl doc -> doc <> [] ->
  exists text, create_c_docstring_def name doc = Some text /\
    read_define text = Some (upper name ++ S_ "_DOCSTRING", with_nl doc).
Proof.
  intros Hn Hp Ho Hd. unfold create_c_docstring_def.
  destruct (splitlines doc) as [|l0 ls] eqn:E; [apply splitlines_nil in E; contradiction|].
  eexists. split; [reflexivity|]. rewrite <- E. clear l0 ls E.
  set (llen := fold_right Nat.max 0%nat (map (@length ascii) (splitlines doc))).
  destruct (tail_eq llen (splitlines doc)) as (r & Er & Hr).
  unfold py_join. cbn [app]. fold (dline llen).
  assert (T : concat (map (fun y => nl :: y) (map (fun line => quote :: line ++ bslash :: ch "n" :: quote :: repeat (ch " ") (llen - length line + 2) ++ [bslash]) (splitlines doc) ++ [[quote; quote]])) = nl :: r) by exact Er.
  rewrite T. replace ((S_ "#define " ++ upper name ++ S_ "_DOCSTRING " ++ [bslash]) ++ nl :: r)
    with (S_ "#define " ++ upper name ++ S_ "_DOCSTRING " ++ (bslash :: nl :: r)) by (rewrite <- !app_assoc; reflexivity).
  apply read_define_name; [exact Hn|]. rewrite splice_cut. rewrite Hr.
  - unfold splitlines. rewrite splitlines_join by (assumption || constructor). reflexivity.
  - apply splitlines_lines; [exact Hp|constructor|constructor].
Qed.

(** ** what goes wrong *)
Lemma quote_breaks : exists name doc, ident name /\ read_define (cdef_docstring name doc) = None.
Proof.
  exists (S_ "f"), (S_ "f(x) is ""f"""). split; [constructor; [cbv; lia|constructor]|]. vm_compute. reflexivity.
Qed.
Lemma escape_breaks : exists name doc d', ident name /\ read_define (cdef_docstring name doc) = Some (upper name ++ S_ "_DOCSTRING", d') /\ d' <> doc.
Proof.
  exists (S_ "f"), (S_ "split at \n"). eexists. split; [constructor; [cbv; lia|constructor]|]. split; [vm_compute; reflexivity|]. discriminate.
Qed.
Lemma newline_added : exists name doc text d', ident name /\ unescaped doc /\ create_c_docstring_def name doc = Some text /\
  read_define text = Some (upper name ++ S_ "_DOCSTRING", d') /\ d' <> doc.
Proof.
  exists (S_ "f"), (S_ "f(x)"). eexists. exists (S_ "f(x)" ++ [nl]). split; [constructor; [cbv; lia|constructor]|].
  split; [repeat (constructor; [split; discriminate|]); constructor|].
  split; [reflexivity|]. split; [vm_compute; reflexivity|]. discriminate.
Qed.
Lemma empty_rejected : forall name, create_c_docstring_def name [] = None.
Proof. reflexivity. Qed.
Lemma module_clash : exists text text' d d', create_c_docstring_def (S_ "module") (S_ "module(x)") = Some text /\
  create_c_docstring_def (S_ "MODULE") (S_ "functions") = Some text' /\
  read_define text = Some d /\ read_define text' = Some d' /\ fst d = fst d' /\ snd d <> snd d'.
Proof.
  do 4 eexists. split; [reflexivity|]. split; [reflexivity|]. split; [vm_compute; reflexivity|]. split; [vm_compute; reflexivity|].
  split; [reflexivity|discriminate].
Qed.

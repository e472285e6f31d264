(** Property theorems C60, C61: the template expander. *)
From Coq Require Import ZArith Bool Ascii String List Lia Sorting.Sorted.
From Verif Require Import CSem M_Gen M_Gendot M_Template S_Gen S_GenNames S_Template P_Template.
Import ListNotations.
Open Scope Z_scope.
Open Scope list_scope.

(** the output of a well-formed template is its expansion: text copied, names replaced,
    every block repeated once per assignment, with the line numbers of the bodies *)
Theorem C60_expand : forall t, good 0 t -> process_str (src 0 t) = expansion t.
Proof. exact process_expansion. Qed.
Print Assumptions C60_expand.

(** every text is expanded or rejected *)
Theorem C60_total : forall s, exists r, process_str s = Text r \/ exists line e, process_str s = ValueError line e.
Proof.
  intros s. pose proof (process_total s) as H. destruct (process_str s) as [r|line e|]; [exists r; now left| |congruence].
  exists []. right. exists line, e. reflexivity.
Qed.
Print Assumptions C60_total.

Theorem C60_plain : forall s, absent (S_ "/**begin repeat") s -> ~ In (ch "@") s ->
  process_str s = Text (header ++ S_ "#line 1" ++ [ascii_of_nat 10] ++ s ++ [ascii_of_nat 10]).
Proof. exact process_plain. Qed.
Print Assumptions C60_plain.

(** the blocks are found in the order of their starts, for any text *)
Theorem C60_blocks_sorted : forall s level, exists l, parse_structure s level = Some l /\
  StronglySorted Z.lt (map (fun b : block => match b with (b0, _, _, _, _) => b0 end) l).
Proof. exact structure_sorted. Qed.
Print Assumptions C60_blocks_sorted.

(** a template with a nested block, as in src/searchsorted/searchsorted_gufunc.c.src:206-274 *)
Definition nl : str := [ascii_of_nat 10].
Definition ex_outer : heading := mkHead
  (S_ "/**begin repeat" ++ nl ++ S_ " * #typename  = int8, long double #" ++ nl ++ S_ " * #n = 7*2#" ++ nl ++ S_ " */" ++ nl)
  [(S_ "typename", [Item (One (S_ "int8")); Item (One (S_ "long double"))]); (S_ "n", [Item (Many (S_ "7") 2)])].
Definition ex_inner : heading := mkHead
  (S_ "/**begin repeat1" ++ nl ++ S_ " * #side = l, r #" ++ nl ++ S_ " */" ++ nl) [(S_ "side", [Item (One (S_ "l")); Item (One (S_ "r"))])].
Definition ex_template : template :=
  Block [Lit (S_ "// one" ++ nl)] ex_outer
    (Block [Lit (S_ "int f"); Var (S_ "n"); Lit nl] ex_inner (Last [Lit (S_ "g_"); Var (S_ "side"); Lit (S_ "_"); Var (S_ "typename"); Lit nl]) [] (Last [])) (S_ " // done")
    (Last [Lit (S_ "end" ++ nl)]).
Ltac fold_chars := repeat (first [apply f_nil | apply f_char; [discriminate|] | refine (f_star (S_ " ") _ _ _ _); [apply blanks_check; reflexivity|]
  | refine (f_break [] _ _ _ _ _); [apply blanks_check; reflexivity| intros c q E; try discriminate E; injection E as <- <-; apply notin_check; reflexivity|] ]).
Example C60_expand_ex : good 0 ex_template /\ exists r, expansion ex_template = Text r /\
  r = header ++ S_ "#line 1" ++ nl ++ S_ "// one" ++ nl ++
      concat (map (fun w => S_ "#line 6" ++ nl ++ S_ "int f7" ++ nl ++
        concat (map (fun v => S_ "#line 10" ++ nl ++ S_ "g_" ++ v ++ S_ "_" ++ w ++ nl ++ nl) [S_ "l"; S_ "r"]) ++ nl) [S_ "int8"; S_ "long double"]) ++
      S_ "end" ++ nl ++ nl.
Proof.
  assert (IT : forall v, value v -> spells_entry (Item (One v)) ([ch " "] ++ v ++ [])).
  { intros v H. constructor. apply s_one; [apply blanks_check; reflexivity|constructor|exact H]. }
  assert (IT2 : forall v, value v -> spells_entry (Item (One v)) ([ch " "] ++ v ++ [ch " "])).
  { intros v H. constructor. apply s_one; [apply blanks_check; reflexivity|apply blanks_check; reflexivity|exact H]. }
  split.
  - cbn [good ex_template ex_outer ex_inner h_decls h_text map fst].
    repeat match goal with |- _ /\ _ => split end.
    all: try (apply notin_check; reflexivity).
    all: try (repeat first [apply Forall_nil | apply Forall_cons; [first [apply notin_check; reflexivity | apply word_check; reflexivity]|]]).
    all: try (apply absent_check; vm_compute; reflexivity).
    + repeat constructor; cbn; intuition discriminate.
    + refine (s_heading 0 _ (nl ++ S_ " * #typename  = int8, long double #" ++ nl ++ S_ " * #n = 7*2#" ++ nl ++ S_ " ") [] (S_ "/**begin repeat #typename  = int8, long double # #n = 7*2#/") _ _ _ _).
      * apply absent_check. vm_compute. reflexivity.
      * intros [].
      * cbn. fold_chars.
      * apply (s_next (S_ "/**begin repeat ") _ (S_ "#typename  = int8, long double #") _ (S_ " #n = 7*2#/")); [apply notin_check; reflexivity| |].
        { apply (s_decl [] (S_ "typename") (S_ "  ") _ (S_ " int8, long double ")); [constructor|apply word_check; reflexivity|apply blanks_check; reflexivity|].
          split; [discriminate|]. exists [S_ " int8"; S_ " long double "]. split; [|reflexivity]. constructor; [apply (IT (S_ "int8")), value_check; reflexivity|].
          constructor; [apply (IT2 (S_ "long double")), value_check; reflexivity|constructor]. }
        apply (s_next (S_ " ") _ (S_ "#n = 7*2#") _ (S_ "/")); [apply notin_check; reflexivity| |apply s_gap, notin_check; reflexivity].
        apply (s_decl [] (S_ "n") (S_ " ") _ (S_ " 7*2")); [constructor|apply word_check; reflexivity|apply blanks_check; reflexivity|].
        split; [discriminate|]. exists [S_ " 7*2"]. split; [|reflexivity]. constructor; [|constructor]. constructor.
        apply (s_many (S_ " ") (S_ "7") (S_ "2") 2 []); [apply blanks_check; reflexivity|constructor|apply value_check; reflexivity|discriminate| |lia].
        exact (num1 (ch "2") 2 eq_refl).
    + repeat constructor; cbn; intuition discriminate.
    + refine (s_heading 1 _ (nl ++ S_ " * #side = l, r #" ++ nl ++ S_ " ") [] (S_ "/**begin repeat1 #side = l, r #/") _ _ _ _).
      * apply absent_check. vm_compute. reflexivity.
      * intros [].
      * cbn. fold_chars.
      * apply (s_next (S_ "/**begin repeat1 ") _ (S_ "#side = l, r #") _ (S_ "/")); [apply notin_check; reflexivity| |apply s_gap, notin_check; reflexivity].
        apply (s_decl [] (S_ "side") (S_ " ") _ (S_ " l, r ")); [constructor|apply word_check; reflexivity|apply blanks_check; reflexivity|].
        split; [discriminate|]. exists [S_ " l"; S_ " r "]. split; [|reflexivity]. constructor; [apply (IT (S_ "l")), value_check; reflexivity|].
        constructor; [apply (IT2 (S_ "r")), value_check; reflexivity|constructor].
  - eexists. split; [vm_compute; reflexivity|vm_compute; reflexivity].
Qed.

(** an inner block that declares a name of an outer block does not change it *)
Theorem C60_shadow_refuted : exists t, process_str t = Text (header ++ S_ "#line 1" ++ nl ++ S_ "#line 4" ++ nl ++ S_ "#line 7" ++ nl ++ S_ "outer" ++ nl ++ nl ++ nl ++ nl) /\
  exists a b c, t = a ++ S_ "#x = outer#" ++ b ++ S_ "/**begin repeat1" ++ nl ++ S_ " * #x = inner#" ++ nl ++ S_ " */" ++ nl ++ S_ "@x@" ++ c.
Proof.
  exists (S_ "/**begin repeat" ++ nl ++ S_ " * #x = outer#" ++ nl ++ S_ " */" ++ nl ++ S_ "/**begin repeat1" ++ nl ++ S_ " * #x = inner#" ++ nl ++ S_ " */" ++ nl ++ S_ "@x@" ++ nl ++ loopend 1 ++ nl ++ loopend 0 ++ nl).
  split; [vm_compute; reflexivity|]. exists (S_ "/**begin repeat" ++ nl ++ S_ " * "), (nl ++ S_ " */" ++ nl), (nl ++ loopend 1 ++ nl ++ loopend 0 ++ nl). vm_compute. reflexivity.
Qed.
Print Assumptions C60_shadow_refuted.

(** ** C61: value lists *)
Theorem C61_values : forall l t, spells_values l t -> parse_values t = values l.
Proof. exact parse_values_spells. Qed.
Print Assumptions C61_values.

(** the comment that starts a block gives the assignments, in order; the dictionary of an
    assignment holds the last declaration of a name *)
Theorem C61_heading : forall level ds t, spells_heading level ds t ->
  parse_loop_header t = match settings ds with inl e => inl e | inr l => inr (map (@rev _) l) end.
Proof. exact heading_parsed. Qed.
Print Assumptions C61_heading.

Example C61_values_ex : parse_values (S_ "npy_half, (a, b)*2, long double*2,,  f ") =
    map S_ ["npy_half"; "a"; "b"; "a"; "b"; "long double"; "long double"; ""; "f"]%string /\
  exists l, spells_values l (S_ " (a, b)*2, x*3") /\ values l = map S_ ["a"; "b"; "a"; "b"; "x"; "x"; "x"]%string.
Proof.
  split; [vm_compute; reflexivity|].
  exists [Group [One (S_ "a"); One (S_ "b")] 2; Item (Many (S_ "x") 3)]. split; [|reflexivity]. split; [discriminate|].
  exists [S_ " (a, b)*2"; S_ " x*3"]. split; [|reflexivity]. constructor.
  - apply (s_group [ch " "] _ [S_ "a"; S_ " b"] (S_ "2") 2 []); [apply blanks_check; reflexivity|constructor|discriminate| |exact (num1 (ch "2") 2 eq_refl)|lia].
    constructor; [apply (s_one [] (S_ "a") []); [constructor|constructor|apply value_check; reflexivity]|].
    constructor; [apply (s_one [ch " "] (S_ "b") []); [apply blanks_check; reflexivity|constructor|apply value_check; reflexivity]|constructor].
  - constructor; [|constructor]. constructor. apply (s_many [ch " "] (S_ "x") (S_ "3") 3 []); [apply blanks_check; reflexivity|constructor|apply value_check; reflexivity|discriminate|exact (num1 (ch "3") 3 eq_refl)|lia].
Qed.
(** zero copies of a value are one empty value *)
Theorem C61_zero_refuted : exists v d, value v /\ numeral d 0 /\ parse_values (v ++ S_ "*" ++ d) = [[]].
Proof.
  exists (S_ "x"), (S_ "0"). split; [apply value_check; reflexivity|]. split; [exact (num1 (ch "0") 0 eq_refl)|]. vm_compute. reflexivity.
Qed.
Print Assumptions C61_zero_refuted.

(** ** C62: what is reported *)
(** a name outside all blocks, with the number of the first line *)
Theorem C62_undefined : forall a w b, ~ In (ch "@") a -> word w -> absent (S_ "/**begin repeat") (a ++ S_ "@" ++ w ++ S_ "@" ++ b) ->
  process_str (a ++ S_ "@" ++ w ++ S_ "@" ++ b) = ValueError 1 (Undefined w).
Proof. exact process_undefined. Qed.
Print Assumptions C62_undefined.

(** a block whose lists differ in length, or without lists, with the line of its body *)
Theorem C62_first_block : forall pre h body trail rest e, good 0 (Block pre h body trail rest) ->
  Forall (fun t => match t with Lit _ => True | Var _ => False end) pre ->
  settings (h_decls h) = inl e ->
  process_str (src 0 (Block pre h body trail rest)) = ValueError (1 + lines (text_src pre) + lines (h_text h)) e.
Proof. exact process_bad_block. Qed.
Print Assumptions C62_first_block.

Definition ex_bad : str := S_ "/**begin repeat" ++ nl ++ S_ " * #a = 1, 2#" ++ nl ++ S_ " * #b = 1, 2, 3#" ++ nl ++ S_ " */" ++ nl ++ S_ "@a@" ++ nl ++ S_ "/**end repeat**/" ++ nl.
Example C62_mismatch_ex : process_str ex_bad = ValueError 5 Mismatch.
Proof. vm_compute. reflexivity. Qed.
Example C62_undefined_ex : process_str (S_ "x" ++ nl ++ S_ "@a@") = ValueError 1 (Undefined (S_ "a")).
Proof. vm_compute. reflexivity. Qed.

(** a block without an end marker is not rejected: the rest of the file, less its last
    character, is its body *)
Theorem C62_unclosed_refuted : exists a b, absent (loopend 0) (a ++ b ++ nl) /\
  (exists q, a = S_ "/**begin repeat" ++ q) /\ parse_loop_header a = inr [[(S_ "x", S_ "1")]; [(S_ "x", S_ "2")]] /\
  process_str (a ++ b ++ nl) = Text (header ++ S_ "#line 1" ++ nl ++ S_ "#line 4" ++ nl ++ b ++ nl ++ S_ "#line 4" ++ nl ++ b ++ nl ++ nl).
Proof.
  exists (S_ "/**begin repeat" ++ nl ++ S_ " * #x = 1, 2#" ++ nl ++ S_ " */" ++ nl), (S_ "f;").
  split; [apply absent_check; vm_compute; reflexivity|]. split; [eexists; cbn; reflexivity|]. split; vm_compute; reflexivity.
Qed.
Print Assumptions C62_unclosed_refuted.

(** an end marker on a last line without a newline: the template itself is appended *)
Theorem C62_no_final_newline_refuted : exists h body, spells_heading 0 [(S_ "x", [Item (One (S_ "1"))])] h /\ ~ In (ch "@") body /\
  process_str (h ++ body ++ loopend 0) =
    Text (header ++ S_ "#line 1" ++ nl ++ S_ "#line 4" ++ nl ++ body ++ nl ++ h ++ body ++ loopend 0 ++ nl).
Proof.
  exists (S_ "/**begin repeat" ++ nl ++ S_ " * #x = 1#" ++ nl ++ S_ " */" ++ nl), (S_ "f;" ++ nl).
  split; [|split; [apply notin_check; reflexivity|vm_compute; reflexivity]].
  refine (s_heading 0 _ (nl ++ S_ " * #x = 1#" ++ nl ++ S_ " ") [] (S_ "/**begin repeat #x = 1#/") _ _ _ _).
  - apply absent_check. vm_compute. reflexivity.
  - intros [].
  - cbn. fold_chars.
  - apply (s_next (S_ "/**begin repeat ") _ (S_ "#x = 1#") _ (S_ "/")); [apply notin_check; reflexivity| |apply s_gap, notin_check; reflexivity].
    apply (s_decl [] (S_ "x") (S_ " ") _ (S_ " 1")); [constructor|apply word_check; reflexivity|apply blanks_check; reflexivity|].
    split; [discriminate|]. exists [S_ " 1"]. split; [|reflexivity]. constructor; [|constructor]. constructor.
    apply (s_one [ch " "] (S_ "1") []); [apply blanks_check; reflexivity|constructor|apply value_check; reflexivity].
Qed.
Print Assumptions C62_no_final_newline_refuted.

(** exclusions (documented at tools/conv_template.py:176-178) are read and not applied *)
Theorem C62_exclude_refuted : exists h, process_str (h ++ S_ "@a@" ++ nl ++ loopend 0 ++ nl) =
    Text (header ++ S_ "#line 1" ++ nl ++ S_ "#line 5" ++ nl ++ S_ "1" ++ nl ++ nl ++ S_ "#line 5" ++ nl ++ S_ "2" ++ nl ++ nl ++ nl) /\
  exists q r, h = q ++ S_ ":exclude: a=1" ++ r.
Proof.
  exists (S_ "/**begin repeat" ++ nl ++ S_ " * #a = 1,2#" ++ nl ++ S_ " * :exclude: a=1" ++ nl ++ S_ " */" ++ nl). split; [vm_compute; reflexivity|].
  exists (S_ "/**begin repeat" ++ nl ++ S_ " * #a = 1,2#" ++ nl ++ S_ " * "), (nl ++ S_ " */" ++ nl). reflexivity.
Qed.
Print Assumptions C62_exclude_refuted.

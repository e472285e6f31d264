(** Property theorems C62: which templates are rejected, with which error and line. *)
From Coq Require Import ZArith Bool Ascii String List Lia Sorting.Sorted.
From Verif Require Import CSem M_Gen M_Gendot M_Template S_Gen S_GenNames S_Template S_TemplateE P_Template P_TemplateE C_Template.
Import ListNotations.
Open Scope Z_scope.
Open Scope list_scope.

(** a template is expanded exactly if every name is declared by a block around it and every
    heading, at every depth, declares names that all have the same number of values *)
Theorem C62_accepted_iff : forall t, good 0 t -> ((exists r, process_str (src 0 t) = Text r) <-> well_formed [] t).
Proof. exact accepted_iff. Qed.
Print Assumptions C62_accepted_iff.

(** the error reported, with its line, is the first one of the template in reading order *)
Theorem C62_rejected_iff : forall t line e, good 0 t -> (process_str (src 0 t) = ValueError line e <-> fault 0 1 1 [] t line e).
Proof. exact rejected_iff. Qed.
Print Assumptions C62_rejected_iff.

Example C62_accepted_ex : good 0 ex_template /\ well_formed [] ex_template.
Proof.
  split; [exact (proj1 C60_expand_ex)|]. cbn.
  repeat match goal with |- _ /\ _ => split end.
  all: try (repeat first [apply Forall_nil | apply Forall_cons; [cbn; tauto|]]).
  all: try discriminate.
  all: intros d d' H1 H2; cbn in H1, H2; intuition (subst; reflexivity).
Qed.

(** a name used inside its block, and again after it *)
Definition ex_head : heading := mkHead (S_ "/**begin repeat" ++ nl ++ S_ " * #x = 1#" ++ nl ++ S_ " */" ++ nl) [(S_ "x", [Item (One (S_ "1"))])].
Definition ex_after : template :=
  Block [Lit (S_ "// one" ++ nl)] ex_head (Last [Lit (S_ "f"); Var (S_ "x"); Lit nl]) [] (Last [Lit (S_ "g"); Var (S_ "x"); Lit nl]).
Example C62_rejected_ex : good 0 ex_after /\ fault 0 1 1 [] ex_after 1 (Undefined (S_ "x")).
Proof.
  split.
  - cbn [good ex_after ex_head h_decls h_text map fst].
    repeat match goal with |- _ /\ _ => split end.
    all: try (apply notin_check; reflexivity).
    all: try (repeat first [apply Forall_nil | apply Forall_cons; [first [apply notin_check; reflexivity | apply word_check; reflexivity]|]]).
    all: try (apply absent_check; vm_compute; reflexivity).
    + repeat constructor; cbn; intuition discriminate.
    + refine (s_heading 0 _ (nl ++ S_ " * #x = 1#" ++ nl ++ S_ " ") [] (S_ "/**begin repeat #x = 1#/") _ _ _ _).
      * apply absent_check. vm_compute. reflexivity.
      * intros [].
      * cbn. fold_chars.
      * apply (s_next (S_ "/**begin repeat ") _ (S_ "#x = 1#") _ (S_ "/")); [apply notin_check; reflexivity| |apply s_gap, notin_check; reflexivity].
        apply (s_decl [] (S_ "x") (S_ " ") _ (S_ " 1")); [constructor|apply word_check; reflexivity|apply blanks_check; reflexivity|].
        split; [discriminate|]. exists [S_ " 1"]. split; [|reflexivity]. constructor; [|constructor]. constructor.
        apply (s_one [ch " "] (S_ "1") []); [apply blanks_check; reflexivity|constructor|apply value_check; reflexivity].
  - apply f_rest.
    + constructor; [exact I|constructor].
    + split; [discriminate|]. intros d d' H1 H2. cbn in H1, H2. intuition (subst; reflexivity).
    + cbn. repeat first [apply Forall_nil | apply Forall_cons; [cbn; tauto|]].
    + refine (f_last 0 1 _ [] [Lit (S_ "g")] (S_ "x") [Lit nl] _ _); [constructor; [exact I|constructor]|intros []].
Qed.

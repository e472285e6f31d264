(** * S_TemplateE: which templates are in error, and where *)
From Coq Require Import ZArith Ascii String List.
From Verif Require Import M_Gen S_Gen M_Template S_Template.
Import ListNotations.
Open Scope Z_scope.

Definition tok_ok (scope : list str) (t : tok) : Prop := match t with Lit _ => True | Var n => In n scope end.
(** every name is declared by a block around it; every heading declares names, all with the same number of values *)
Fixpoint well_formed (scope : list str) (t : template) : Prop :=
  match t with
  | Last x => Forall (tok_ok scope) x
  | Block pre h body _ rest =>
      Forall (tok_ok scope) pre /\ h_decls h <> [] /\
      (forall d d', In d (h_decls h) -> In d' (h_decls h) -> length (values (snd d)) = length (values (snd d'))) /\
      well_formed (scope ++ map fst (h_decls h)) body /\ well_formed scope rest
  end.
Definition head_ok (ds : list (str * list entry)) : Prop :=
  ds <> [] /\ (forall d d', In d ds -> In d' ds -> length (values (snd d)) = length (values (snd d'))).
(** [fault level here pos scope t line e]: the text [t], which starts on line [pos] inside a body that starts on
    line [here], has [e] as its first error, in reading order, and [line] is the first line of the body around
    that error (for an error in a heading: of the body below it) *)
Inductive fault : nat -> Z -> Z -> list str -> template -> Z -> error -> Prop :=
| f_last level here pos scope a n b : Forall (tok_ok scope) a -> ~ In n scope ->
    fault level here pos scope (Last (a ++ Var n :: b)) here (Undefined n)
| f_pre level here pos scope a n b h body trail rest : Forall (tok_ok scope) a -> ~ In n scope ->
    fault level here pos scope (Block (a ++ Var n :: b) h body trail rest) here (Undefined n)
| f_empty level here pos scope pre h body trail rest : Forall (tok_ok scope) pre -> h_decls h = [] ->
    fault level here pos scope (Block pre h body trail rest) (pos + lines (text_src pre) + lines (h_text h)) NoVariables
| f_mismatch level here pos scope pre h body trail rest d d' : Forall (tok_ok scope) pre ->
    In d (h_decls h) -> In d' (h_decls h) -> length (values (snd d)) <> length (values (snd d')) ->
    fault level here pos scope (Block pre h body trail rest) (pos + lines (text_src pre) + lines (h_text h)) Mismatch
| f_body level here pos scope pre h body trail rest line e : Forall (tok_ok scope) pre -> head_ok (h_decls h) ->
    fault (S level) (pos + lines (text_src pre) + lines (h_text h)) (pos + lines (text_src pre) + lines (h_text h))
      (scope ++ map fst (h_decls h)) body line e ->
    fault level here pos scope (Block pre h body trail rest) line e
| f_rest level here pos scope pre h body trail rest line e : Forall (tok_ok scope) pre -> head_ok (h_decls h) ->
    well_formed (scope ++ map fst (h_decls h)) body ->
    fault level here (pos + lines (text_src pre) + lines (h_text h) + lines (src (S level) body) + 1) scope rest line e ->
    fault level here pos scope (Block pre h body trail rest) line e.

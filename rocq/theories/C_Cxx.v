(** Property theorems C66 and C67: the generated extension modules of the elementwise ufuncs,
    and the docstrings *)
From Coq Require Import ZArith Bool Lia Ascii String List.
From Verif Require Import CSem M_Gen M_Types M_Cxx S_Cxx P_Cxx P_CxxDoc.
Import ListNotations.
Open Scope list_scope.

(** ** C66: every registered loop reads and writes the registered types *)
Theorem C66_module :
  forall funcs defs us,
  gen_module funcs = Some (defs, us) -> proper funcs ->
   length us = length funcs /\
   forall n f u, nth_error funcs n = Some f -> nth_error us n = Some u -> good_ufunc f defs us u.
Proof. exact @module_good. Qed.
Print Assumptions C66_module.
Theorem C66_accepts :
  forall funcs,
  (forall f, In f funcs -> types f <> [] /\ Forall sig_ok (types f)) ->
   exists defs us, gen_module funcs = Some (defs, us).
Proof. exact @module_exists. Qed.
Print Assumptions C66_accepts.
Theorem C66_names_apart :
  forall funcs defs us C L,
  gen_module funcs = Some (defs, us) -> In C defs -> In L (all_loops us) -> c_name C <> l_name L.
Proof. exact @names_apart. Qed.
Print Assumptions C66_names_apart.
Theorem C66_repository :
  forall funcs,
  In funcs repo_modules -> exists defs us, gen_module funcs = Some (defs, us) /\ length us = length funcs /\
   forall n f u, nth_error funcs n = Some f -> nth_error us n = Some u -> good_ufunc f defs us u.
Proof. exact @repo_good. Qed.
Print Assumptions C66_repository.

Definition ex_funcs : list func :=
  cfg [("abs_squared", "abs_squared", ["f->f"; "G->g"]); ("NS::step", "step", ["ddd->d"])]%string.
Example C66_module_ex :
  proper ex_funcs /\ (forall f, In f ex_funcs -> types f <> [] /\ Forall sig_ok (types f)) /\
  match gen_module ex_funcs with
  | Some (defs, [u; v]) =>
      map c_name defs = map S_ ["abs_squared_f_f"; "abs_squared_G_g"; "step_ddd_d"]%string /\
      map c_args defs = map (map S_) [["float"]; ["std::complex<long double>"]; ["double"; "double"; "double"]]%string /\
      map c_callee defs = map S_ ["abs_squared"; "abs_squared"; "NS::step"]%string /\
      u_funcs u = map S_ ["abs_squared_f_f_loop"; "abs_squared_G_g_loop"]%string /\
      concat (u_rows u) = map S_ ["NPY_FLOAT"; "NPY_FLOAT"; "NPY_CLONGDOUBLE"; "NPY_LONGDOUBLE"]%string /\
      map l_write (u_loops v) = [(3, 3, S_ "double")]%nat
  | _ => False
  end.
Proof.
  split; [apply proper_b_spec; vm_compute; reflexivity|]. split.
  - assert (K : forall l, forallb (fun c => existsb (Ascii.eqb c) (map ch ["f"; "d"; "g"; "F"; "D"; "G"]%string)) l = true -> Forall known l).
    { induction l as [|c l IH]; cbn [forallb]; intros H; constructor; apply andb_prop in H as [H1 H2]; [|apply IH; exact H2].
      apply existsb_exists in H1 as (x & Hx & E). apply Ascii.eqb_eq in E. subst. exact Hx. }
    intros f [<-|[<-|[]]]; (split; [discriminate|]); repeat (constructor; [|try (constructor; fail)]); try constructor.
    + exists (S_ "f"), (ch "f"). split; [reflexivity|]. split; [discriminate|]. split; [apply K; reflexivity|cbn; tauto].
    + exists (S_ "G"), (ch "g"). split; [reflexivity|]. split; [discriminate|]. split; [apply K; reflexivity|cbn; tauto].
    + exists (S_ "ddd"), (ch "d"). split; [reflexivity|]. split; [discriminate|]. split; [apply K; reflexivity|cbn; tauto].
  - vm_compute. repeat split; reflexivity.
Qed.

(** The generator does not check what C66_module asks for: the same signature twice, *)
Theorem C66_duplicate_signature_refuted :
  exists funcs defs us, gen_module funcs = Some (defs, us) /\ NoDup (map ufuncname funcs) /\
   ~ NoDup (map c_name defs) /\ ~ NoDup (map l_name (all_loops us)).
Proof. exact @dup_accepted. Qed.
Print Assumptions C66_duplicate_signature_refuted.
(** the same ufunc name twice, *)
Theorem C66_duplicate_name_refuted :
  exists funcs defs us, gen_module funcs = Some (defs, us) /\
   (forall f, In f funcs -> NoDup (types f)) /\ ~ NoDup (map c_name defs) /\ ~ NoDup (map l_name (all_loops us)).
Proof. exact @names_accepted. Qed.
Print Assumptions C66_duplicate_name_refuted.
(** signatures with different numbers of inputs: the second loop reads an operand that NumPy
    does not pass *)
Theorem C66_arity_refuted :
  exists f defs u L, gen_module [f] = Some (defs, [u]) /\ NoDup (types f) /\
   nth_error (u_loops u) 1 = Some L /\ (u_nin u < length (l_reads L))%nat /\ ~ good_ufunc f defs [u] u.
Proof. exact @mixed_accepted. Qed.
Print Assumptions C66_arity_refuted.
(** two headers of one module can get the same generated file names, or the same include guard *)
Theorem C66_header_files_refuted :
  exists h h' a b, h <> h' /\ header_to_concrete_filenames h = Some (a, b) /\ header_to_concrete_filenames h' = Some (a, b).
Proof. exact @header_files. Qed.
Print Assumptions C66_header_files_refuted.
Theorem C66_header_guards_refuted :
  exists h h' a a', header_to_concrete_filenames h = Some a /\ header_to_concrete_filenames h' = Some a' /\
   a <> a' /\ fst a <> fst a' /\ header_guard h = header_guard h'.
Proof. exact @header_guards. Qed.
Print Assumptions C66_header_guards_refuted.

(** ** C67: docstrings *)
Theorem C67_ufunc_docstring_partial :
  forall name doc,
  ident name -> unescaped doc ->
   read_define (cdef_docstring name doc) = Some (upper name ++ S_ "_DOCSTRING", doc).
Proof. exact @cdef_docstring_verbatim. Qed.
Print Assumptions C67_ufunc_docstring_partial.
Theorem C67_gufunc_docstring_partial :
  forall name doc,
  ident name -> unescaped doc -> only_nl doc -> doc <> [] ->
   exists text, create_c_docstring_def name doc = Some text /\
     read_define text = Some (upper name ++ S_ "_DOCSTRING", with_nl doc).
Proof. exact @create_c_docstring_def_reads. Qed.
Print Assumptions C67_gufunc_docstring_partial.
Definition ex_doc : str := S_ "cross2(u, v, /)" ++ [nl; nl] ++ S_ "  x = u x v; 100% 'exact'" ++ [nl].
Example C67_docstring_ex :
  ident (S_ "cross2") /\ unescaped ex_doc /\ only_nl ex_doc /\ ex_doc <> [] /\
  read_define (cdef_docstring (S_ "cross2") ex_doc) = Some (S_ "CROSS2_DOCSTRING", ex_doc) /\
  match create_c_docstring_def (S_ "cross2") ex_doc with
  | Some text => read_define text = Some (S_ "CROSS2_DOCSTRING", ex_doc)
  | None => False
  end.
Proof.
  split; [repeat (constructor; [cbv; lia|]); constructor|].
  split; [repeat (constructor; [split; discriminate|]); constructor|].
  split; [repeat (constructor; [first [discriminate|reflexivity]|]); constructor|].
  split; [discriminate|]. split; vm_compute; reflexivity.
Qed.
(** a quotation mark ends the literal; a backslash starts an escape sequence *)
Theorem C67_quote_refuted :
  exists name doc, ident name /\ read_define (cdef_docstring name doc) = None.
Proof. exact @quote_breaks. Qed.
Print Assumptions C67_quote_refuted.
Theorem C67_backslash_refuted :
  exists name doc d', ident name /\ read_define (cdef_docstring name doc) = Some (upper name ++ S_ "_DOCSTRING", d') /\ d' <> doc.
Proof. exact @escape_breaks. Qed.
Print Assumptions C67_backslash_refuted.
(** the gufunc macro adds a final newline; an empty docstring stops the generator *)
Theorem C67_newline_refuted :
  exists name doc text d', ident name /\ unescaped doc /\ create_c_docstring_def name doc = Some text /\
   read_define text = Some (upper name ++ S_ "_DOCSTRING", d') /\ d' <> doc.
Proof. exact @newline_added. Qed.
Print Assumptions C67_newline_refuted.
Theorem C67_empty_refuted :
  forall name, create_c_docstring_def name [] = None.
Proof. exact @empty_rejected. Qed.
Print Assumptions C67_empty_refuted.
(** two ufuncs whose names differ in case share one macro; a gufunc called `module` shares the
    module's *)
Theorem C67_macro_case_refuted :
  exists funcs defs us u v, gen_module funcs = Some (defs, us) /\ proper funcs /\
   nth_error us 0 = Some u /\ nth_error us 1 = Some v /\ u_name u <> u_name v /\ u_macro u = u_macro v.
Proof. exact @macro_case. Qed.
Print Assumptions C67_macro_case_refuted.
Theorem C67_macro_module_refuted :
  exists text text' d d', create_c_docstring_def (S_ "module") (S_ "module(x)") = Some text /\
   create_c_docstring_def (S_ "MODULE") (S_ "functions") = Some text' /\
   read_define text = Some d /\ read_define text' = Some d' /\ fst d = fst d' /\ snd d <> snd d'.
Proof. exact @module_clash. Qed.
Print Assumptions C67_macro_module_refuted.

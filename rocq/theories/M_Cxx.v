(** * M_Cxx: model of the generator of elementwise ufuncs (tools/cxxgen/generate_ufuncs.py,
    generate_concrete_cfuncs.py, generate_ufunc_extmod.py) and of the C docstring macros

    The C++ text is modelled by the declarations it consists of; the docstring macros are
    modelled as text. *)
From Coq Require Import ZArith Bool Ascii String List.
From Verif Require Import CSem M_Stat M_Gen.
Import ListNotations.
Open Scope Z_scope.

(** tools/cxxgen/ufunc_config_types.py:71-76  [Func] *)
Record func := mkFunc { cxxname : str; ufuncname : str; types : list str; docstring : str }.

(** tools/cxxgen/generate_utils.py:6-13  [typechar_to_ctype]; None = KeyError *)
Definition typechar_to_ctype (c : ascii) : option str :=
  option_map (fun p => S_ (snd p)) (find (fun p => Ascii.eqb (fst p) c)
  [("f"%char, "float"%string); ("d"%char, "double"%string); ("g"%char, "long double"%string);
   ("F"%char, "std::complex<float>"%string); ("D"%char, "std::complex<double>"%string);
   ("G"%char, "std::complex<long double>"%string)]).

(** tools/cxxgen/generate_utils.py:51-57  [typesig_to_ext] *)
Definition typesig_to_ext (t : str) : str := py_join (S_ "_") (split_on (S_ "->") t).

(** [in_types, out_type = typesig.split('->')] and [assert len(out_type) == 1]; None = the
    ValueError or AssertionError *)
Definition split_sig (t : str) : option (str * ascii) :=
  match split_on (S_ "->") t with
  | [i; [o]] => Some (i, o)
  | _ => None
  end.

Definition upto_nat (n : nat) : list nat := seq 0 n.

(** ** the concrete functions *)
(** a C function [ret name(args) { return callee(x_i, x_j, ...); }] *)
Record cfun := mkC { c_name : str; c_ret : str; c_args : list str; c_callee : str; c_pass : list nat }.

(** tools/cxxgen/generate_concrete_cfuncs.py:56-78: the definition for one signature; the
    header file has the same name, types and parameters (the prototype). *)
Definition concrete_cfunc (f : func) (t : str) : option cfun :=
  '(i, o) <- split_sig t ;;
  in_ctypes <- mapM typechar_to_ctype i ;;
  out_ctype <- typechar_to_ctype o ;;
  ret (mkC (ufuncname f ++ S_ "_" ++ typesig_to_ext t) out_ctype in_ctypes (cxxname f) (upto_nat (length i))).

(** ** the loops *)
(** One iteration reads, for each (k, s, type) of [l_reads], a value of the C type at the
    pointer that started at args[k] and advances by steps[s], passes the values numbered
    [l_pass] to [l_callee], and writes the result likewise. *)
Record uloop := mkL { l_name : str; l_reads : list (nat * nat * str); l_write : nat * nat * str;
                      l_callee : str; l_pass : list nat }.

(** tools/cxxgen/generate_ufunc_extmod.py:205-241.  The output pointer is args[k+1] with the
    value of k left by the preceding loop.  A signature without inputs, for which k would be
    unbound or left over from an earlier loop, is not modelled (None). *)
Definition ufunc_loop_of (f : func) (t : str) : option uloop :=
  '(i, o) <- split_sig t ;;
  in_ctypes <- mapM typechar_to_ctype i ;;
  out_ctype <- typechar_to_ctype o ;;
  let nin := length i in
  match rev (upto_nat nin) with
  | [] => None
  | k :: _ =>
      ret (mkL (ufuncname f ++ S_ "_" ++ typesig_to_ext t ++ S_ "_loop")
               (map (fun p => (fst p, fst p, snd p)) (combine (upto_nat nin) in_ctypes))
               ((k + 1)%nat, (k + 1)%nat, out_ctype)
               (ufuncname f ++ S_ "_" ++ typesig_to_ext t) (upto_nat nin))
  end.

(** ** one ufunc of the extension module *)
Record umod := mkU { u_name : str; u_loops : list uloop; u_rows : list (list str);
                     u_funcs : list str; u_ndata : nat; u_ntypes : nat; u_nin : nat; u_macro : str }.

(** tools/cxxgen/generate_ufunc_extmod.py:246-255: one row of the type array *)
Definition type_row (t : str) : option (list str) :=
  '(i, o) <- split_sig t ;;
  a <- mapM typechar_to_npy_type i ;;
  b <- typechar_to_npy_type o ;;
  ret (a ++ [b]).

(** s.upper(), ASCII *)
Definition upper (s : str) : str :=
  map (fun c => let n := Z.of_nat (nat_of_ascii c) in
                if (97 <=? n) && (n <=? 122) then ascii_of_nat (Z.to_nat (n - 32)) else c) s.

(** tools/cxxgen/generate_ufunc_extmod.py:190-281 for one Func, and 69-96
    [print_ufunc_create]: the arguments of PyUFunc_FromFuncAndData (nout = 1, line 55) *)
Definition gen_ufunc (f : func) : option umod :=
  loops <- mapM (ufunc_loop_of f) (types f) ;;
  rows <- mapM type_row (types f) ;;
  nin <- match types f with
         | t :: _ => match split_on (S_ "->") t with i :: _ => Some (length i) | [] => None end
         | [] => None
         end ;;
  ret (mkU (ufuncname f) loops rows
           (map (fun t => ufuncname f ++ S_ "_" ++ typesig_to_ext t ++ S_ "_loop") (types f))
           (length (types f)) (length (types f)) nin (upper (ufuncname f) ++ S_ "_DOCSTRING")).

(** ** the whole module: all concrete functions and all ufuncs.
    tools/cxxgen/generate_ufuncs.py:10-27 [generate] (file copying left out). *)
Definition gen_module (funcs : list func) : option (list cfun * list umod) :=
  defs <- mapM (fun f => mapM (concrete_cfunc f) (types f)) funcs ;;
  us <- mapM gen_ufunc funcs ;;
  ret (concat defs, us).

(** ** file names *)
(** posixpath.splitext: the extension starts at the last dot, unless only dots precede it;
    no slash in the name. *)
Fixpoint last_dot (s : str) (k : nat) (best : option nat) : option nat :=
  match s with
  | [] => best
  | c :: s' => last_dot s' (S k) (if Ascii.eqb c (ch ".") then Some k else best)
  end.
Definition splitext (s : str) : str * str :=
  match last_dot s 0 None with
  | Some k => if forallb (fun c => Ascii.eqb c (ch ".")) (firstn k s) then (s, []) else (firstn k s, skipn k s)
  | None => (s, [])
  end.
(** tools/cxxgen/generate_utils.py:60-79  [header_to_concrete_filenames]; None = RuntimeError *)
Definition header_to_concrete_filenames (h : str) : option (str * str) :=
  let '(root, ext) := splitext h in
  let ext := lstrip (ch ".") ext in
  if existsb (eqs ext) [S_ "h"; S_ "hh"; S_ "hpp"; S_ "h++"]
  then Some (root ++ S_ "_concrete.h", root ++ S_ "_concrete.cxx")
  else None.
(** tools/cxxgen/generate_concrete_cfuncs.py:14-15, 51: the include guard *)
Definition header_guard (h : str) : str :=
  S_ "GENERATED_" ++ upper (match split_on (S_ ".") h with x :: _ => x | [] => [] end) ++ S_ "_H_".

(** ** docstring macros *)
Definition nl : ascii := ascii_of_nat 10.
Definition quote : ascii := ascii_of_nat 34.
Definition bslash : ascii := ascii_of_nat 92.

(** s.replace(c, r) for a single character c *)
Definition replace_char (c : ascii) (r s : str) : str :=
  flat_map (fun x => if Ascii.eqb x c then r else [x]) s.

(** tools/cxxgen/generate_ufunc_extmod.py:8-11  [cdef_docstring] *)
Definition cdef_docstring (funcname doc : str) : str :=
  S_ "#define " ++ upper funcname ++ S_ "_DOCSTRING " ++ [bslash; nl; quote]
  ++ replace_char nl [bslash; ch "n"; quote; bslash; nl; quote] doc ++ [quote].

(** str.splitlines, ASCII: the line boundaries are \n, \v, \f, \r, \r\n and \x1c-\x1e;
    [cur] is the reversed current line, [cr] tells that the previous character was \r *)
Definition is_break (c : ascii) : bool :=
  let n := Z.of_nat (nat_of_ascii c) in ((10 <=? n) && (n <=? 13)) || ((28 <=? n) && (n <=? 30)).
Fixpoint splitlines_go (cr : bool) (cur : str) (s : str) : list str :=
  match s with
  | [] => match cur with [] => [] | _ => [rev cur] end
  | c :: s' =>
      if cr && Ascii.eqb c nl then splitlines_go false cur s'
      else if is_break c then rev cur :: splitlines_go (Ascii.eqb c (ascii_of_nat 13)) [] s'
      else splitlines_go false (c :: cur) s'
  end.
Definition splitlines (s : str) : list str := splitlines_go false [] s.

(** tools/cxxgen/gufuncgen.py:366-377  [create_c_docstring_def]; None = ValueError (max of an
    empty list) *)
Definition create_c_docstring_def (name doc : str) : option str :=
  let lines := splitlines doc in
  match lines with
  | [] => None
  | _ =>
      let llen := fold_right Nat.max 0%nat (map (@length ascii) lines) in
      Some (py_join [nl]
        ([S_ "#define " ++ upper name ++ S_ "_DOCSTRING " ++ [bslash]]
         ++ map (fun line => [quote] ++ line ++ [bslash; ch "n"; quote]
                             ++ repeat (ch " ") (llen - length line + 2) ++ [bslash]) lines
         ++ [[quote; quote]]))
  end.

(** ** the configuration files src/*/define_cxxgen_extmods.py: (C++ name, ufunc name, types);
    docstrings left out *)
Definition cfg (l : list (string * string * list string)) : list func :=
  map (fun p => mkFunc (S_ (fst (fst p))) (S_ (snd (fst p))) (map S_ (snd p)) []) l.
Definition repo_modules : list (list func) :=
  map cfg [
   (* src/abs_squared/define_cxxgen_extmods.py *)
   [("abs_squared", "abs_squared", ["f->f"; "d->d"; "g->g"; "F->f"; "D->d"; "G->g"])];
   (* src/deadzone/define_cxxgen_extmods.py *)
   [("deadzone", "deadzone", ["fff->f"; "ddd->d"; "ggg->g"])];
   (* src/expint1/define_cxxgen_extmods.py *)
   [("expint1", "expint1", ["f->f"; "d->d"; "g->g"]);
    ("logexpint1", "logexpint1", ["f->f"; "d->d"; "g->g"])];
   (* src/hypot3/define_cxxgen_extmods.py *)
   [("hypot3", "hypot3", ["fff->f"; "ddd->d"; "ggg->g"])];
   (* src/logistic/define_cxxgen_extmods.py *)
   [("logistic", "logistic", ["f->f"; "d->d"; "g->g"]);
    ("logistic_deriv", "logistic_deriv", ["f->f"; "d->d"; "g->g"]);
    ("log_logistic", "log_logistic", ["f->f"; "d->d"; "g->g"]);
    ("swish", "swish", ["ff->f"; "dd->d"; "gg->g"])];
   (* src/nan_to_num/define_cxxgen_extmods.py *)
   [("nan_to_num", "nan_to_num", ["ff->f"; "dd->d"; "gg->g"])];
   (* src/next/define_cxxgen_extmods.py *)
   [("NextFunctions::next_greater", "next_greater", ["f->f"; "d->d"; "g->g"]);
    ("NextFunctions::next_less", "next_less", ["f->f"; "d->d"; "g->g"])];
   (* src/normal/define_cxxgen_extmods.py *)
   [("normal_cdf", "cdf", ["f->f"; "d->d"; "g->g"]);
    ("normal_logcdf", "logcdf", ["f->f"; "d->d"; "g->g"]);
    ("normal_sf", "sf", ["f->f"; "d->d"; "g->g"]);
    ("normal_logsf", "logsf", ["f->f"; "d->d"; "g->g"]);
    ("erfcx", "erfcx", ["f->f"; "d->d"; "g->g"])];
   (* src/pow1pm1/define_cxxgen_extmods.py *)
   [("pow1pm1", "pow1pm1", ["ff->f"; "dd->d"; "gg->g"])];
   (* src/ramp/define_cxxgen_extmods.py *)
   [("hyperbolic_ramp", "hyperbolic_ramp", ["ff->f"; "dd->d"; "gg->g"]);
    ("exponential_ramp", "exponential_ramp", ["ff->f"; "dd->d"; "gg->g"])];
   (* src/semivar/define_cxxgen_extmods.py *)
   [("semivar_exponential", "exponential", ["ffff->f"; "dddd->d"; "gggg->g"]);
    ("semivar_linear", "linear", ["ffff->f"; "dddd->d"; "gggg->g"]);
    ("semivar_spherical", "spherical", ["ffff->f"; "dddd->d"; "gggg->g"]);
    ("semivar_parabolic", "parabolic", ["ffff->f"; "dddd->d"; "gggg->g"])];
   (* src/step/define_cxxgen_extmods.py *)
   [("StepFunctions::step", "step", ["fffff->f"; "ddddd->d"; "ggggg->g"]);
    ("StepFunctions::linearstep", "linearstep", ["fffff->f"; "ddddd->d"; "ggggg->g"]);
    ("StepFunctions::smoothstep3", "smoothstep3", ["fffff->f"; "ddddd->d"; "ggggg->g"]);
    ("StepFunctions::invsmoothstep3", "invsmoothstep3", ["fffff->f"; "ddddd->d"; "ggggg->g"]);
    ("StepFunctions::smoothstep5", "smoothstep5", ["fffff->f"; "ddddd->d"; "ggggg->g"])];
   (* src/trapezoid_pulse/define_cxxgen_extmods.py *)
   [("trapezoid_pulse", "trapezoid_pulse", ["ffffff->f"; "dddddd->d"; "gggggg->g"])];
   (* src/yeo_johnson/define_cxxgen_extmods.py *)
   [("yeo_johnson", "yeo_johnson", ["ff->f"; "dd->d"; "gg->g"]);
    ("inv_yeo_johnson", "inv_yeo_johnson", ["ff->f"; "dd->d"; "gg->g"])]]%string.

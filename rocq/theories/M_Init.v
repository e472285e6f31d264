(** * M_Init: lazy attribute loading of the package (ufunclab/__init__.py)

    The package namespace is an association list (the latest binding first).
    Importing a submodule binds the submodule's name in the package namespace, as
    Python's import system does; it is this side effect that makes attribute
    access depend on the history of accesses.

    Simplifications: an object is identified by the module that defines it and
    its name; submodule imports always succeed for the modules that the build
    installs (meson.build, ufunclab/meson.build). *)
From Coq Require Import String List Bool Ascii.
Import ListNotations.
Open Scope string_scope.

Inductive pyexc := AttributeError | ModuleNotFoundError.
(** an object defined in a module, a module, or a name bound by __init__.py itself *)
Inductive value := Obj (module name : string) | Mod (name : string) | Own (name : string).
Inductive outcome (A : Type) := Value (a : A) | Error (e : pyexc).
Arguments Value {A}. Arguments Error {A}.

(** The modules of the package: name, names they define, submodules they import.
    ufunclab/meson.build (lists of extension modules and Python sources). *)
Definition package : list (string * list string * list string) :=
    [(* ufunclab/_wrapped.py:11-16, 47, 212, 280, 315, 350 *)
     ("_wrapped", ["bincount"; "convert_to_base"; "nextn_greater"; "nextn_less"; "one_hot"], ["_bincount"; "_convert_to_base"; "_nextn"; "_one_hot"]);
     (* ufunclab/_gendot_wrap.py:3, 89 *)
     ("_gendot_wrap", ["gendot"], ["_gendot"]);
     (* meson.build:23-31, _build_utils/make_version_file.py:34 *)
     ("_version", ["__version__"], []);
     (* src/bincount/define_cxx_gufunc_extmod.py:44, 62 *)
     ("_bincount", ["bincount"; "bincountw"], []);
     (* src/convert_to_base/define_cxx_gufunc_extmod.py:24 *)
     ("_convert_to_base", ["convert_to_base"], []);
     (* src/nextn/define_cxx_gufunc_extmod.py:35, 52 *)
     ("_nextn", ["nextn_greater"; "nextn_less"], []);
     (* src/one_hot/define_cxx_gufunc_extmod.py:22 *)
     ("_one_hot", ["one_hot"], []);
     (* src/gendot/gendotmodule.c:371-375 *)
     ("_gendot", ["_gendot"], []);
     (* src/first/define_cxx_gufunc_extmod.py:112, 142; first_gufunc.h:285-298 *)
     ("_first", ["first"; "argfirst"; "_LT"; "_LE"; "_EQ"; "_NE"; "_GT"; "_GE"], []);
     (* src/percentileofscore/define_cxx_gufunc_extmod.py:26; percentileofscore_gufunc.h:95-108 *)
     ("_percentileofscore", ["percentileofscore"; "_RANK"; "_WEAK"; "_STRICT"; "_MEAN"], []);
     (* src/normal/define_cxxgen_extmods.py:41-60 *)
     ("normal", ["cdf"; "logcdf"; "sf"; "logsf"; "erfcx"], []);
     (* src/semivar/define_cxxgen_extmods.py:126-138 *)
     ("semivar", ["exponential"; "linear"; "spherical"; "parabolic"], []);
     (* src/hypot3/define_cxxgen_extmods.py:16 *)
     ("_hypot3", ["hypot3"], []);
     (* src/logfactorial/logfactorial_ufunc.c:152 *)
     ("_logfact", ["logfactorial"], []);
     (* src/loggamma1p/loggamma1p_ufunc.c:132 *)
     ("_loggamma1p", ["loggamma1p"], []);
     (* src/issnan/issnan_ufunc.c.src:175 *)
     ("_issnan", ["issnan"], []);
     (* src/abs_squared/define_cxxgen_extmods.py:14 *)
     ("_abs_squared", ["abs_squared"], []);
     (* src/abssq/abssq_ufunc.cpp:179 *)
     ("_abssq", ["abssq"], []);
     (* src/log1p/log1p_ufunc.c:538, 561 *)
     ("_log1p", ["log1p_theorem4"; "log1p_doubledouble"], []);
     (* src/debye1/debye1_ufunc.c:132 *)
     ("_debye1", ["debye1"], []);
     (* src/expint1/define_cxxgen_extmods.py:66, 70 *)
     ("_expint1", ["expint1"; "logexpint1"], []);
     (* src/pow1pm1/define_cxxgen_extmods.py:48 *)
     ("_pow1pm1", ["pow1pm1"], []);
     (* src/logistic/define_cxxgen_extmods.py:126-138 *)
     ("_logistic", ["logistic"; "logistic_deriv"; "log_logistic"; "swish"], []);
     (* src/nan_to_num/define_cxxgen_extmods.py:54 *)
     ("_nan_to_num", ["nan_to_num"], []);
     (* src/ramp/define_cxxgen_extmods.py:103, 107 *)
     ("_ramp", ["hyperbolic_ramp"; "exponential_ramp"], []);
     (* src/yeo_johnson/define_cxxgen_extmods.py:64, 68 *)
     ("_yeo_johnson", ["yeo_johnson"; "inv_yeo_johnson"], []);
     (* src/cross/define_cxx_gufunc_extmod.py:81, 99 *)
     ("_cross", ["cross3"; "cross2"], []);
     (* src/ordered/define_cxx_gufunc_extmod.py:65 *)
     ("_ordered", ["ordered"], []);
     (* src/searchsorted/searchsorted_gufunc.c.src:558, repeated for side = l, r *)
     ("_searchsorted", ["searchsortedl"; "searchsortedr"], []);
     (* src/peaktopeak/peaktopeak_gufunc.c.src:483 *)
     ("_peaktopeak", ["peaktopeak"], []);
     (* src/minmax/define_cxx_gufunc_extmod.py:132-178 *)
     ("_minmax", ["argmin"; "argmax"; "minmax"; "argminmax"; "min_argmin"; "max_argmax"], []);
     (* src/multivariate_logbeta/define_cxx_gufunc_extmod.py:17 *)
     ("_multivariate_logbeta", ["multivariate_logbeta"], []);
     (* src/means/means_gufunc.c.src:755-795 *)
     ("_means", ["gmean"; "gmeanw"; "hmean"; "hmeanw"; "pmean"; "pmeanw"], []);
     (* src/meanvar/define_cxx_gufunc_extmod.py:79 *)
     ("_meanvar", ["meanvar"], []);
     (* src/kbnsum/define_cxx_gufunc_extmod.py:45 *)
     ("_kbnsum", ["kbnsum"], []);
     (* src/corr/define_cxx_gufunc_extmod.py:65 *)
     ("_corr", ["pearson_corr"], []);
     (* src/wjaccard/define_cxx_gufunc_extmod.py:49 *)
     ("_wjaccard", ["wjaccard"], []);
     (* src/mad/define_cxx_gufunc_extmod.py:31, 46, 61 *)
     ("_mad", ["mad"; "rmad"; "gini"], []);
     (* src/vnorm/define_cxx_gufunc_extmod.py:54, 72, 86 *)
     ("_vnorm", ["vnorm"; "rms"; "vdot"], []);
     (* src/tri_area/define_cxx_gufunc_extmod.py:90, 103 *)
     ("_tri_area", ["tri_area"; "tri_area_indexed"], []);
     (* src/softmax/define_cxx_gufunc_extmod.py:40 *)
     ("_softmax", ["softmax"], []);
     (* src/unwrap/define_cxx_gufunc_extmod.py:43 *)
     ("_unwrap", ["unwrap"], []);
     (* src/backlash/define_cxx_gufunc_extmod.py:82, 96 *)
     ("_backlash", ["backlash"; "backlash_sum"], []);
     (* src/fillnan1d/define_cxx_gufunc_extmod.py:38 *)
     ("_fillnan1d", ["fillnan1d"], []);
     (* src/linear_interp1d/linear_interp1d_gufunc.c.src:241 *)
     ("_linear_interp1d", ["linear_interp1d"], []);
     (* src/deadzone/define_cxxgen_extmods.py:40 *)
     ("_deadzone", ["deadzone"], []);
     (* src/trapezoid_pulse/define_cxxgen_extmods.py:49 *)
     ("_trapezoid_pulse", ["trapezoid_pulse"], []);
     (* src/hysteresis_relay/define_cxx_gufunc_extmod.py:61 *)
     ("_hysteresis_relay", ["hysteresis_relay"], []);
     (* src/all_same/define_cxx_gufunc_extmod.py:21 *)
     ("_all_same", ["all_same"], []);
     (* src/sosfilter/define_cxx_gufunc_extmod.py:84-110 *)
     ("_sosfilter", ["sosfilter"; "sosfilter_ic"; "sosfilter_ic_contig"], []);
     (* src/step/define_cxxgen_extmods.py:51-67 *)
     ("_step", ["step"; "linearstep"; "smoothstep3"; "invsmoothstep3"; "smoothstep5"], []);
     (* src/next/define_cxxgen_extmods.py:21, 25 *)
     ("_next", ["next_greater"; "next_less"], []);
     (* src/ufunc-inspector/ufunc_inspector.c:322-326 *)
     ("_ufunc_inspector", ["ufunc_inspector"], [])].

(** ufunclab/__init__.py:25-106  [_name_to_module] *)
Definition name_to_module : list (string * string) :=
    [("bincount", "._wrapped");
     ("convert_to_base", "._wrapped");
     ("nextn_greater", "._wrapped");
     ("nextn_less", "._wrapped");
     ("one_hot", "._wrapped");
     ("hypot3", "._hypot3");
     ("logfactorial", "._logfact");
     ("loggamma1p", "._loggamma1p");
     ("issnan", "._issnan");
     ("abs_squared", "._abs_squared");
     ("abssq", "._abssq");
     ("log1p_theorem4", "._log1p");
     ("log1p_doubledouble", "._log1p");
     ("debye1", "._debye1");
     ("expint1", "._expint1");
     ("logexpint1", "._expint1");
     ("pow1pm1", "._pow1pm1");
     ("logistic", "._logistic");
     ("logistic_deriv", "._logistic");
     ("log_logistic", "._logistic");
     ("swish", "._logistic");
     ("nan_to_num", "._nan_to_num");
     ("hyperbolic_ramp", "._ramp");
     ("exponential_ramp", "._ramp");
     ("yeo_johnson", "._yeo_johnson");
     ("inv_yeo_johnson", "._yeo_johnson");
     ("cross3", "._cross");
     ("cross2", "._cross");
     ("ordered", "._ordered");
     ("searchsortedl", "._searchsorted");
     ("searchsortedr", "._searchsorted");
     ("peaktopeak", "._peaktopeak");
     ("argmin", "._minmax");
     ("argmax", "._minmax");
     ("minmax", "._minmax");
     ("argminmax", "._minmax");
     ("min_argmin", "._minmax");
     ("max_argmax", "._minmax");
     ("multivariate_logbeta", "._multivariate_logbeta");
     ("gmean", "._means");
     ("gmeanw", "._means");
     ("hmean", "._means");
     ("hmeanw", "._means");
     ("pmean", "._means");
     ("pmeanw", "._means");
     ("meanvar", "._meanvar");
     ("kbnsum", "._kbnsum");
     ("pearson_corr", "._corr");
     ("wjaccard", "._wjaccard");
     ("mad", "._mad");
     ("rmad", "._mad");
     ("gini", "._mad");
     ("vnorm", "._vnorm");
     ("rms", "._vnorm");
     ("vdot", "._vnorm");
     ("tri_area", "._tri_area");
     ("tri_area_indexed", "._tri_area");
     ("softmax", "._softmax");
     ("unwrap", "._unwrap");
     ("backlash", "._backlash");
     ("backlash_sum", "._backlash");
     ("fillnan1d", "._fillnan1d");
     ("linear_interp1d", "._linear_interp1d");
     ("deadzone", "._deadzone");
     ("trapezoid_pulse", "._trapezoid_pulse");
     ("hysteresis_relay", "._hysteresis_relay");
     ("all_same", "._all_same");
     ("sosfilter", "._sosfilter");
     ("sosfilter_ic", "._sosfilter");
     ("sosfilter_ic_contig", "._sosfilter");
     ("step", "._step");
     ("linearstep", "._step");
     ("smoothstep3", "._step");
     ("invsmoothstep3", "._step");
     ("smoothstep5", "._step");
     ("next_greater", "._next");
     ("next_less", "._next");
     ("gendot", "._gendot_wrap");
     ("ufunc_inspector", "._ufunc_inspector");
     ("__version__", "._version")].

Definition mem (x : string) (l : list string) : bool := existsb (String.eqb x) l.
Fixpoint assoc {A} (x : string) (l : list (string * A)) : option A :=
  match l with
  | [] => None
  | (y, v) :: l' => if String.eqb x y then Some v else assoc x l'
  end.

(** ** The import system *)

Definition namespace := list (string * value).
Fixpoint find_module (m : string) (p : list (string * list string * list string)) : option (list string * list string) :=
  match p with
  | [] => None
  | (n, defs, imps) :: p' => if String.eqb m n then Some (defs, imps) else find_module m p'
  end.

(** [importlib.import_module('.m', 'ufunclab')]: binds [m], and the submodules that [m] imports *)
Definition import_module (m : string) (ns : namespace) : outcome (list string) * namespace :=
  match find_module m package with
  | None => (Error ModuleNotFoundError, ns)
  | Some (defs, imps) => (Value defs, (m, Mod m) :: map (fun i => (i, Mod i)) imps ++ ns)
  end.

(** the dict values are relative names ['._first'] *)
Definition relative (s : string) : string :=
  match s with String _ s' => s' | EmptyString => EmptyString end.

(** ufunclab/__init__.py:109-120  [__getattr__].  [getattr(module, name)] on an
    extension module is a lookup in the names it defines. *)
Definition module_getattr (name : string) (ns : namespace) : outcome value * namespace :=
  if String.eqb name "semivar" then
    match import_module name ns with
    | (Value _, ns') => (Value (Mod name), ns')
    | (Error e, ns') => (Error e, ns')
    end
  else
    match assoc name name_to_module with
    | None => (Error AttributeError, ns)
    | Some module_name =>
        match import_module (relative module_name) ns with
        | (Error e, ns') => (Error e, ns')
        | (Value defs, ns') =>
            (if mem name defs then Value (Obj (relative module_name) name) else Error AttributeError, ns')
        end
    end.

(** attribute access [ufunclab.name]: the namespace first, then [__getattr__] *)
Definition access (name : string) (ns : namespace) : outcome value * namespace :=
  match assoc name ns with
  | Some v => (Value v, ns)
  | None => module_getattr name ns
  end.

(** ** The body of __init__.py *)

Inductive stmt := Import (m : string) | ImportFrom (m : string) (names : list string)
                | Bind (n : string) | Del (names : list string).
(** ufunclab/__init__.py:4-147, in order ([del normal.erfcx] of line 10 does not
    touch the package namespace). *)
Definition init_body : list stmt :=
  [ Bind "_imp";
    Import "normal";
    ImportFrom "normal" ["erfcx"];
    ImportFrom "_first" ["first"; "argfirst"; "_LT"; "_LE"; "_EQ"; "_NE"; "_GT"; "_GE"];
    ImportFrom "_percentileofscore" ["percentileofscore"; "_RANK"; "_WEAK"; "_STRICT"; "_MEAN"];
    Bind "_np";
    Bind "_name_to_module";
    Bind "__getattr__";
    Bind "op";
    Del ["_np"; "_LT"; "_LE"; "_EQ"; "_NE"; "_GT"; "_GE"; "_RANK"; "_WEAK"; "_STRICT"; "_MEAN"];
    Bind "__all__";
    Bind "__dir__" ].

(** bindings that every Python package has before its body runs *)
Definition module_dunders : list string :=
  ["__name__"; "__doc__"; "__package__"; "__loader__"; "__spec__"; "__path__"; "__file__";
   "__cached__"; "__builtins__"].

Definition exec (s : stmt) (ns : namespace) : namespace :=
  match s with
  | Import m => snd (import_module m ns)
  | ImportFrom m names =>
      let '(r, ns') := import_module m ns in
      match r with
      | Value defs => (map (fun n => (n, Obj m n)) names ++ ns')%list
      | Error _ => ns'
      end
  | Bind n => (n, Own n) :: ns
  | Del names => filter (fun p => negb (mem (fst p) names)) ns
  end.

Definition initial : namespace :=
  fold_left (fun ns s => exec s ns) init_body (map (fun n => (n, Own n)) module_dunders).

(** ufunclab/__init__.py:142-143  [__all__]; [sorted] is insertion sort *)
Definition str_leb (a b : string) : bool :=
  match String.compare a b with Gt => false | _ => true end.
Fixpoint insert (x : string) (l : list string) : list string :=
  match l with
  | [] => [x]
  | y :: l' => if str_leb x y then x :: l else y :: insert x l'
  end.
Definition sorted (l : list string) : list string := fold_right insert [] l.
Definition all_ : list string :=
  sorted (map fst name_to_module ++ ["first"; "argfirst"; "op"; "percentileofscore"])%list.

(** a history: the names accessed one after the other since the package was imported *)
Definition after (history : list string) : namespace :=
  fold_left (fun ns n => snd (access n ns)) history initial.

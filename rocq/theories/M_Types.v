(** * M_Types: the registered loop types of every ufunc and NumPy's choice among them.

    Data types are NumPy's type characters on an LP64 platform (the 64-bit Linux build:
    [l] = int64, [q] = long long is a second 64-bit type, [p] = npy_intp is [l]; long double
    [g] is the x87 format).  A ufunc is the list of its registered loops in registration
    order.  NumPy itself is not part of the repository; [can_cast] and [resolve] state the
    documented rules of numpy.can_cast(casting='safe') and of the choice of an inner loop
    (an exact match of the input types if there is one, else the first loop all of whose
    input types can be reached by safe casts; loops with Python objects are considered only
    if an argument is an object array or the ufunc has no other loop). *)
From Coq Require Import ZArith Bool Ascii String List.
From Verif Require Import M_Gen.
Import ListNotations.
Open Scope Z_scope.

Inductive dt :=
| Tbool | Ti8 | Tu8 | Ti16 | Tu16 | Ti32 | Tu32 | Ti64 | Tu64 | Tlonglong | Tulonglong
| Thalf | Tfloat | Tdouble | Tlongdouble | Tcfloat | Tcdouble | Tclongdouble | Tobject.

Definition dts : list dt :=
  [Tbool; Ti8; Tu8; Ti16; Tu16; Ti32; Tu32; Ti64; Tu64; Tlonglong; Tulonglong;
   Thalf; Tfloat; Tdouble; Tlongdouble; Tcfloat; Tcdouble; Tclongdouble; Tobject].

Definition dt_eqb (a b : dt) : bool :=
  match a, b with
  | Tbool, Tbool | Ti8, Ti8 | Tu8, Tu8 | Ti16, Ti16 | Tu16, Tu16 | Ti32, Ti32 | Tu32, Tu32
  | Ti64, Ti64 | Tu64, Tu64 | Tlonglong, Tlonglong | Tulonglong, Tulonglong
  | Thalf, Thalf | Tfloat, Tfloat | Tdouble, Tdouble | Tlongdouble, Tlongdouble
  | Tcfloat, Tcfloat | Tcdouble, Tcdouble | Tclongdouble, Tclongdouble
  | Tobject, Tobject => true
  | _, _ => false
  end.

(** type characters; tools/cxxgen/generate_utils.py:16-40 maps the same characters to NumPy type numbers *)
Definition dt_of_char (c : ascii) : option dt :=
  if Ascii.eqb c (ch "?") then Some Tbool else
  if Ascii.eqb c (ch "b") then Some Ti8 else if Ascii.eqb c (ch "B") then Some Tu8 else
  if Ascii.eqb c (ch "h") then Some Ti16 else if Ascii.eqb c (ch "H") then Some Tu16 else
  if Ascii.eqb c (ch "i") then Some Ti32 else if Ascii.eqb c (ch "I") then Some Tu32 else
  if Ascii.eqb c (ch "l") then Some Ti64 else if Ascii.eqb c (ch "L") then Some Tu64 else
  if Ascii.eqb c (ch "q") then Some Tlonglong else if Ascii.eqb c (ch "Q") then Some Tulonglong else
  if Ascii.eqb c (ch "p") then Some Ti64 else
  if Ascii.eqb c (ch "e") then Some Thalf else if Ascii.eqb c (ch "f") then Some Tfloat else
  if Ascii.eqb c (ch "d") then Some Tdouble else if Ascii.eqb c (ch "g") then Some Tlongdouble else
  if Ascii.eqb c (ch "F") then Some Tcfloat else if Ascii.eqb c (ch "D") then Some Tcdouble else
  if Ascii.eqb c (ch "G") then Some Tclongdouble else if Ascii.eqb c (ch "O") then Some Tobject else None.

Fixpoint sequence {A} (l : list (option A)) : option (list A) :=
  match l with
  | [] => Some []
  | Some a :: l => match sequence l with Some r => Some (a :: r) | None => None end
  | None :: _ => None
  end.

(** a loop: the types of its inputs and of its outputs *)
Definition row : Type := list dt * list dt.
Definition row_of_sig (s : str) : option row :=
  match split_on (S_ "->") s with
  | [a; b] => match sequence (map dt_of_char a), sequence (map dt_of_char b) with
              | Some i, Some o => Some (i, o)
              | _, _ => None
              end
  | _ => None
  end.
Definition table_of_sigs (l : list str) : option (list row) := sequence (map row_of_sig l).

(** numpy.can_cast(a, b, 'safe'): integer kinds by size and signedness; the floating type
    that an integer of a given size is promoted to; floating and complex types by size. *)
Definition int_kind (t : dt) : option (bool * Z) :=
  match t with
  | Ti8 => Some (true, 8) | Tu8 => Some (false, 8)
  | Ti16 => Some (true, 16) | Tu16 => Some (false, 16)
  | Ti32 => Some (true, 32) | Tu32 => Some (false, 32)
  | Ti64 => Some (true, 64) | Tu64 => Some (false, 64)
  | Tlonglong => Some (true, 64) | Tulonglong => Some (false, 64)
  | _ => None
  end.
Definition float_rank (t : dt) : option Z :=
  match t with
  | Thalf => Some 0 | Tfloat => Some 1 | Tdouble => Some 2 | Tlongdouble => Some 3
  | _ => None
  end.
Definition complex_rank (t : dt) : option Z :=
  match t with
  | Tcfloat => Some 1 | Tcdouble => Some 2 | Tclongdouble => Some 3
  | _ => None
  end.
Definition int_float_rank (w : Z) : Z := if w =? 8 then 0 else if w =? 16 then 1 else 2.
Definition can_cast (a b : dt) : bool :=
  if dt_eqb b Tobject then true else
  match a with
  | Tobject => false
  | Tbool => true
  | _ =>
    match int_kind a, int_kind b with
    | Some (sa, wa), Some (sb, wb) =>
        if Bool.eqb sa sb then wa <=? wb else negb sa && (wa <? wb)
    | Some (_, wa), None =>
        match float_rank b, complex_rank b with
        | Some r, _ | None, Some r => int_float_rank wa <=? r
        | None, None => false
        end
    | None, _ =>
        match float_rank a, complex_rank a, float_rank b, complex_rank b with
        | Some ra, _, Some rb, _ => ra <=? rb
        | Some ra, _, None, Some rb => ra <=? rb
        | None, Some ra, _, Some rb => ra <=? rb
        | _, _, _, _ => false
        end
    end
  end.

Fixpoint list_eqb {A} (e : A -> A -> bool) (a b : list A) : bool :=
  match a, b with
  | [], [] => true
  | x :: a, y :: b => e x y && list_eqb e a b
  | _, _ => false
  end.
Fixpoint forall2b {A B} (e : A -> B -> bool) (a : list A) (b : list B) : bool :=
  match a, b with
  | [], [] => true
  | x :: a, y :: b => e x y && forall2b e a b
  | _, _ => false
  end.
Definition has_object (l : list dt) : bool := existsb (dt_eqb Tobject) l.
(** the linear search over the registered loops *)
Definition usable (t : list row) (args : list dt) (r : row) : bool :=
  (negb (has_object (fst r ++ snd r)) || has_object args || Nat.eqb (length t) 1)
  && forall2b can_cast args (fst r).
Definition linear (t : list row) (args : list dt) : option row := find (usable t args) t.
Definition exact (t : list row) (args : list dt) : option row :=
  find (fun r => list_eqb dt_eqb (fst r) args) t.
Definition resolve (t : list row) (args : list dt) : option row :=
  match exact t args with Some r => Some r | None => linear t args end.

(** ** The loops registered by the define_*.py files

    Each entry is a UFunc(...) or Func(...) of the file cited, with the type signatures of
    its sources in order.  Lists that the file builds with a comprehension over NumPy types
    are written as the corresponding map over type characters. *)
Definition int_chars : str := S_ "bBhHiIlL".
Definition gen_sigs : list (str * list str) :=
  [
   (* src/abs_squared/define_cxxgen_extmods.py:13 *)
   (S_ "abs_squared", (map S_ ["f->f"; "d->d"; "g->g"; "F->f"; "D->d"; "G->g"]%string));
   (* src/all_same/define_cxx_gufunc_extmod.py:20 *)
   (S_ "all_same", (map S_ ["b->?"; "B->?"; "h->?"; "H->?"; "i->?"; "I->?"; "l->?"; "L->?"; "f->?"; "d->?"; "g->?"]%string) ++ (map S_ ["O->?"]%string));
   (* src/backlash/define_cxx_gufunc_extmod.py:81 *)
   (S_ "backlash", (map S_ ["fff->f"; "ddd->d"; "ggg->g"]%string));
   (* src/backlash/define_cxx_gufunc_extmod.py:95 *)
   (S_ "backlash_sum", (map S_ ["ffff->ff"; "dddd->dd"; "gggg->gg"]%string));
   (* src/bincount/define_cxx_gufunc_extmod.py:43 *)
   (S_ "bincount", map (fun c => c :: S_ "->p") int_chars);
   (* src/bincount/define_cxx_gufunc_extmod.py:61 *)
   (S_ "bincountw", flat_map (fun c => map (fun d => c :: d :: S_ "->" ++ [d]) (int_chars ++ S_ "fd")) int_chars ++ flat_map (fun c => map (fun d => c :: d :: S_ "->" ++ [d]) (S_ "FD")) int_chars);
   (* src/convert_to_base/define_cxx_gufunc_extmod.py:23 *)
   (S_ "convert_to_base", map (fun c => c :: c :: S_ "->" ++ [c]) int_chars);
   (* src/corr/define_cxx_gufunc_extmod.py:64 *)
   (S_ "pearson_corr", (map S_ ["bb->d"; "BB->d"; "hh->d"; "HH->d"; "ii->d"; "II->d"; "ll->d"; "LL->d"]%string) ++ (map S_ ["ff->f"; "dd->d"; "gg->g"]%string));
   (* src/cross/define_cxx_gufunc_extmod.py:80 *)
   (S_ "cross3", (map S_ ["ii->i"; "ll->l"; "ff->f"; "dd->d"; "gg->g"]%string) ++ (map S_ ["OO->O"]%string));
   (* src/cross/define_cxx_gufunc_extmod.py:98 *)
   (S_ "cross2", (map S_ ["ii->i"; "ll->l"; "ff->f"; "dd->d"; "gg->g"]%string) ++ (map S_ ["OO->O"]%string));
   (* src/deadzone/define_cxxgen_extmods.py:39 *)
   (S_ "deadzone", (map S_ ["fff->f"; "ddd->d"; "ggg->g"]%string));
   (* src/expint1/define_cxxgen_extmods.py:65 *)
   (S_ "expint1", (map S_ ["f->f"; "d->d"; "g->g"]%string));
   (* src/expint1/define_cxxgen_extmods.py:69 *)
   (S_ "logexpint1", (map S_ ["f->f"; "d->d"; "g->g"]%string));
   (* src/fillnan1d/define_cxx_gufunc_extmod.py:37 *)
   (S_ "fillnan1d", (map S_ ["f->f"; "d->d"; "g->g"]%string));
   (* src/first/define_cxx_gufunc_extmod.py:111 *)
   (S_ "first", (map S_ ["bbbb->b"; "BbBB->B"; "hbhh->h"; "HbHH->H"; "ibii->i"; "IbII->I"; "lbll->l"; "LbLL->L"; "fbff->f"; "dbdd->d"; "gbgg->g"]%string) ++ (map S_ ["ObOO->O"]%string));
   (* src/first/define_cxx_gufunc_extmod.py:141 *)
   (S_ "argfirst", (map S_ ["bbb->p"; "BbB->p"; "hbh->p"; "HbH->p"; "ibi->p"; "IbI->p"; "lbl->p"; "LbL->p"; "fbf->p"; "dbd->p"; "gbg->p"]%string) ++ (map S_ ["ObO->p"]%string));
   (* src/hypot3/define_cxxgen_extmods.py:15 *)
   (S_ "hypot3", (map S_ ["fff->f"; "ddd->d"; "ggg->g"]%string));
   (* src/hysteresis_relay/define_cxx_gufunc_extmod.py:60 *)
   (S_ "hysteresis_relay", (map S_ ["ffffff->f"; "dddddd->d"; "gggggg->g"]%string));
   (* src/kbnsum/define_cxx_gufunc_extmod.py:44 *)
   (S_ "kbnsum", (map S_ ["f->f"; "d->d"; "g->g"]%string));
   (* src/logistic/define_cxxgen_extmods.py:125 *)
   (S_ "logistic", (map S_ ["f->f"; "d->d"; "g->g"]%string));
   (* src/logistic/define_cxxgen_extmods.py:129 *)
   (S_ "logistic_deriv", (map S_ ["f->f"; "d->d"; "g->g"]%string));
   (* src/logistic/define_cxxgen_extmods.py:133 *)
   (S_ "log_logistic", (map S_ ["f->f"; "d->d"; "g->g"]%string));
   (* src/logistic/define_cxxgen_extmods.py:137 *)
   (S_ "swish", (map S_ ["ff->f"; "dd->d"; "gg->g"]%string));
   (* src/mad/define_cxx_gufunc_extmod.py:30 *)
   (S_ "mad", (map S_ ["f?->f"; "d?->d"; "g?->g"]%string));
   (* src/mad/define_cxx_gufunc_extmod.py:45 *)
   (S_ "rmad", (map S_ ["f?->f"; "d?->d"; "g?->g"]%string));
   (* src/mad/define_cxx_gufunc_extmod.py:60 *)
   (S_ "gini", (map S_ ["f?->f"; "d?->d"; "g?->g"]%string));
   (* src/meanvar/define_cxx_gufunc_extmod.py:78 *)
   (S_ "meanvar", map (fun c => c :: S_ "p->d") int_chars ++ map (fun c => c :: S_ "p->" ++ [c]) (S_ "fdg"));
   (* src/minmax/define_cxx_gufunc_extmod.py:131 *)
   (S_ "argmin", (map S_ ["b->p"; "B->p"; "h->p"; "H->p"; "i->p"; "I->p"; "l->p"; "L->p"; "q->p"; "Q->p"; "f->p"; "d->p"; "g->p"]%string) ++ (map S_ ["O->p"]%string));
   (* src/minmax/define_cxx_gufunc_extmod.py:140 *)
   (S_ "argmax", (map S_ ["b->p"; "B->p"; "h->p"; "H->p"; "i->p"; "I->p"; "l->p"; "L->p"; "q->p"; "Q->p"; "f->p"; "d->p"; "g->p"]%string) ++ (map S_ ["O->p"]%string));
   (* src/minmax/define_cxx_gufunc_extmod.py:150 *)
   (S_ "minmax", (map S_ ["b->b"; "B->B"; "h->h"; "H->H"; "i->i"; "I->I"; "l->l"; "L->L"; "q->q"; "Q->Q"; "f->f"; "d->d"; "g->g"]%string) ++ (map S_ ["O->O"]%string));
   (* src/minmax/define_cxx_gufunc_extmod.py:159 *)
   (S_ "argminmax", (map S_ ["b->p"; "B->p"; "h->p"; "H->p"; "i->p"; "I->p"; "l->p"; "L->p"; "q->p"; "Q->p"; "f->p"; "d->p"; "g->p"]%string) ++ (map S_ ["O->p"]%string));
   (* src/minmax/define_cxx_gufunc_extmod.py:168 *)
   (S_ "min_argmin", (map S_ ["b->bp"; "B->Bp"; "h->hp"; "H->Hp"; "i->ip"; "I->Ip"; "l->lp"; "L->Lp"; "q->qp"; "Q->Qp"; "f->fp"; "d->dp"; "g->gp"]%string) ++ (map S_ ["O->Op"]%string));
   (* src/minmax/define_cxx_gufunc_extmod.py:177 *)
   (S_ "max_argmax", (map S_ ["b->bp"; "B->Bp"; "h->hp"; "H->Hp"; "i->ip"; "I->Ip"; "l->lp"; "L->Lp"; "q->qp"; "Q->Qp"; "f->fp"; "d->dp"; "g->gp"]%string) ++ (map S_ ["O->Op"]%string));
   (* src/multivariate_logbeta/define_cxx_gufunc_extmod.py:16 *)
   (S_ "multivariate_logbeta", (map S_ ["f->f"; "d->d"; "g->g"]%string));
   (* src/nan_to_num/define_cxxgen_extmods.py:53 *)
   (S_ "nan_to_num", (map S_ ["ff->f"; "dd->d"; "gg->g"]%string));
   (* src/next/define_cxxgen_extmods.py:20 *)
   (S_ "next_greater", (map S_ ["f->f"; "d->d"; "g->g"]%string));
   (* src/next/define_cxxgen_extmods.py:24 *)
   (S_ "next_less", (map S_ ["f->f"; "d->d"; "g->g"]%string));
   (* src/nextn/define_cxx_gufunc_extmod.py:34 *)
   (S_ "nextn_greater", (map S_ ["f->f"; "d->d"; "g->g"]%string));
   (* src/nextn/define_cxx_gufunc_extmod.py:51 *)
   (S_ "nextn_less", (map S_ ["f->f"; "d->d"; "g->g"]%string));
   (* src/normal/define_cxxgen_extmods.py:40 *)
   (S_ "cdf", (map S_ ["f->f"; "d->d"; "g->g"]%string));
   (* src/normal/define_cxxgen_extmods.py:44 *)
   (S_ "logcdf", (map S_ ["f->f"; "d->d"; "g->g"]%string));
   (* src/normal/define_cxxgen_extmods.py:48 *)
   (S_ "sf", (map S_ ["f->f"; "d->d"; "g->g"]%string));
   (* src/normal/define_cxxgen_extmods.py:52 *)
   (S_ "logsf", (map S_ ["f->f"; "d->d"; "g->g"]%string));
   (* src/normal/define_cxxgen_extmods.py:59 *)
   (S_ "erfcx", (map S_ ["f->f"; "d->d"; "g->g"]%string));
   (* src/one_hot/define_cxx_gufunc_extmod.py:21 *)
   (S_ "one_hot", (map S_ ["p->p"]%string));
   (* src/ordered/define_cxx_gufunc_extmod.py:64 *)
   (S_ "ordered", (map S_ ["bb->?"; "Bb->?"; "hb->?"; "Hb->?"; "ib->?"; "Ib->?"; "lb->?"; "Lb->?"; "fb->?"; "db->?"; "gb->?"]%string) ++ (map S_ ["Ob->?"]%string));
   (* src/percentileofscore/define_cxx_gufunc_extmod.py:25 *)
   (S_ "percentileofscore", map (fun c => c :: c :: S_ "p->d") (int_chars ++ S_ "fd"));
   (* src/pow1pm1/define_cxxgen_extmods.py:47 *)
   (S_ "pow1pm1", (map S_ ["ff->f"; "dd->d"; "gg->g"]%string));
   (* src/ramp/define_cxxgen_extmods.py:102 *)
   (S_ "hyperbolic_ramp", (map S_ ["ff->f"; "dd->d"; "gg->g"]%string));
   (* src/ramp/define_cxxgen_extmods.py:106 *)
   (S_ "exponential_ramp", (map S_ ["ff->f"; "dd->d"; "gg->g"]%string));
   (* src/semivar/define_cxxgen_extmods.py:125 *)
   (S_ "exponential", (map S_ ["ffff->f"; "dddd->d"; "gggg->g"]%string));
   (* src/semivar/define_cxxgen_extmods.py:129 *)
   (S_ "linear", (map S_ ["ffff->f"; "dddd->d"; "gggg->g"]%string));
   (* src/semivar/define_cxxgen_extmods.py:133 *)
   (S_ "spherical", (map S_ ["ffff->f"; "dddd->d"; "gggg->g"]%string));
   (* src/semivar/define_cxxgen_extmods.py:137 *)
   (S_ "parabolic", (map S_ ["ffff->f"; "dddd->d"; "gggg->g"]%string));
   (* src/softmax/define_cxx_gufunc_extmod.py:39 *)
   (S_ "softmax", (map S_ ["f->f"; "d->d"; "g->g"]%string));
   (* src/sosfilter/define_cxx_gufunc_extmod.py:83 *)
   (S_ "sosfilter", (map S_ ["ff->f"; "dd->d"; "gg->g"]%string));
   (* src/sosfilter/define_cxx_gufunc_extmod.py:96 *)
   (S_ "sosfilter_ic", (map S_ ["fff->ff"; "ddd->dd"; "ggg->gg"]%string));
   (* src/sosfilter/define_cxx_gufunc_extmod.py:109 *)
   (S_ "sosfilter_ic_contig", (map S_ ["fff->ff"; "ddd->dd"; "ggg->gg"]%string));
   (* src/step/define_cxxgen_extmods.py:50 *)
   (S_ "step", (map S_ ["fffff->f"; "ddddd->d"; "ggggg->g"]%string));
   (* src/step/define_cxxgen_extmods.py:54 *)
   (S_ "linearstep", (map S_ ["fffff->f"; "ddddd->d"; "ggggg->g"]%string));
   (* src/step/define_cxxgen_extmods.py:58 *)
   (S_ "smoothstep3", (map S_ ["fffff->f"; "ddddd->d"; "ggggg->g"]%string));
   (* src/step/define_cxxgen_extmods.py:62 *)
   (S_ "invsmoothstep3", (map S_ ["fffff->f"; "ddddd->d"; "ggggg->g"]%string));
   (* src/step/define_cxxgen_extmods.py:66 *)
   (S_ "smoothstep5", (map S_ ["fffff->f"; "ddddd->d"; "ggggg->g"]%string));
   (* src/trapezoid_pulse/define_cxxgen_extmods.py:48 *)
   (S_ "trapezoid_pulse", (map S_ ["ffffff->f"; "dddddd->d"; "gggggg->g"]%string));
   (* src/tri_area/define_cxx_gufunc_extmod.py:89 *)
   (S_ "tri_area", (map S_ ["f->f"; "d->d"; "g->g"]%string));
   (* src/tri_area/define_cxx_gufunc_extmod.py:102 *)
   (S_ "tri_area_indexed", (map S_ ["fp->f"; "dp->d"; "gp->g"]%string));
   (* src/unwrap/define_cxx_gufunc_extmod.py:42 *)
   (S_ "unwrap", (map S_ ["ff->f"; "dd->d"; "gg->g"]%string));
   (* src/vnorm/define_cxx_gufunc_extmod.py:53 *)
   (S_ "vnorm", (map S_ ["ff->f"; "dd->d"; "gg->g"; "Ff->f"; "Dd->d"; "Gg->g"]%string));
   (* src/vnorm/define_cxx_gufunc_extmod.py:71 *)
   (S_ "rms", (map S_ ["f->f"; "d->d"; "g->g"]%string) ++ (map S_ ["F->f"; "D->d"; "G->g"]%string));
   (* src/vnorm/define_cxx_gufunc_extmod.py:85 *)
   (S_ "vdot", (map S_ ["ff->f"; "dd->d"; "gg->g"]%string));
   (* src/wjaccard/define_cxx_gufunc_extmod.py:48 *)
   (S_ "wjaccard", (map S_ ["bb->d"; "BB->d"; "hh->d"; "HH->d"; "ii->d"; "II->d"; "ll->d"; "LL->d"; "ff->f"; "dd->d"]%string));
   (* src/yeo_johnson/define_cxxgen_extmods.py:63 *)
   (S_ "yeo_johnson", (map S_ ["ff->f"; "dd->d"; "gg->g"]%string));
   (* src/yeo_johnson/define_cxxgen_extmods.py:67 *)
   (S_ "inv_yeo_johnson", (map S_ ["ff->f"; "dd->d"; "gg->g"]%string))
  ].

(** ** The loops registered by the hand-written C sources

    [cm_loops]: for each element of the array of loop functions, the C types its body reads
    and writes; [cm_codes]: the array of type numbers, flattened as in the source;
    [cm_data]: the length of the array of user data pointers; [cm_ntypes]: the number of
    loops passed to NumPy. *)
Record cmod := CMod {
  cm_name : str; cm_nin : nat; cm_nout : nat; cm_ntypes : nat; cm_data : nat;
  cm_loops : list (list str * list str);
  cm_codes : list str }.

Definition dt_of_ctype (s : str) : option dt :=
  if eqs s (S_ "npy_bool") then Some Tbool else
  if eqs s (S_ "int8_t") then Some Ti8 else if eqs s (S_ "uint8_t") then Some Tu8 else
  if eqs s (S_ "int16_t") then Some Ti16 else if eqs s (S_ "uint16_t") then Some Tu16 else
  if eqs s (S_ "int32_t") then Some Ti32 else if eqs s (S_ "uint32_t") then Some Tu32 else
  if eqs s (S_ "int64_t") then Some Ti64 else if eqs s (S_ "uint64_t") then Some Tu64 else
  if eqs s (S_ "npy_intp") then Some Ti64 else if eqs s (S_ "npy_half") then Some Thalf else
  if eqs s (S_ "float") then Some Tfloat else if eqs s (S_ "double") then Some Tdouble else
  if eqs s (S_ "long double") then Some Tlongdouble else
  if eqs s (S_ "float complex") then Some Tcfloat else
  if eqs s (S_ "double complex") then Some Tcdouble else
  if eqs s (S_ "long double complex") then Some Tclongdouble else
  if eqs s (S_ "PyObject *") then Some Tobject else None.
Definition dt_of_code (s : str) : option dt :=
  if eqs s (S_ "NPY_BOOL") then Some Tbool else
  if eqs s (S_ "NPY_INT8") then Some Ti8 else if eqs s (S_ "NPY_UINT8") then Some Tu8 else
  if eqs s (S_ "NPY_INT16") then Some Ti16 else if eqs s (S_ "NPY_UINT16") then Some Tu16 else
  if eqs s (S_ "NPY_INT32") then Some Ti32 else if eqs s (S_ "NPY_UINT32") then Some Tu32 else
  if eqs s (S_ "NPY_INT64") then Some Ti64 else if eqs s (S_ "NPY_UINT64") then Some Tu64 else
  if eqs s (S_ "NPY_INTP") then Some Ti64 else if eqs s (S_ "NPY_HALF") then Some Thalf else
  if eqs s (S_ "NPY_FLOAT") then Some Tfloat else if eqs s (S_ "NPY_DOUBLE") then Some Tdouble else
  if eqs s (S_ "NPY_LONGDOUBLE") then Some Tlongdouble else
  if eqs s (S_ "NPY_CFLOAT") then Some Tcfloat else
  if eqs s (S_ "NPY_CDOUBLE") then Some Tcdouble else
  if eqs s (S_ "NPY_CLONGDOUBLE") then Some Tclongdouble else
  if eqs s (S_ "NPY_OBJECT") then Some Tobject else None.

Definition fdg3 : list str := map S_ ["float"; "double"; "long double"]%string.
Definition real_loops (nin : nat) : list (list str * list str) := map (fun c => (repeat c nin, [c])) fdg3.
Definition searchsorted_ctypes : list str :=
  map S_ ["int8_t"; "uint8_t"; "int16_t"; "uint16_t"; "int32_t"; "uint32_t"; "int64_t"; "uint64_t";
          "npy_half"; "float"; "double"; "long double"; "PyObject *"]%string.
Definition searchsorted_codes : list str :=
  map S_
  ["NPY_INT8";       "NPY_INT8";       "NPY_INTP";
   "NPY_UINT8";      "NPY_UINT8";      "NPY_INTP";
   "NPY_INT16";      "NPY_INT16";      "NPY_INTP";
   "NPY_UINT16";     "NPY_UINT16";     "NPY_INTP";
   "NPY_INT32";      "NPY_INT32";      "NPY_INTP";
   "NPY_UINT32";     "NPY_UINT32";     "NPY_INTP";
   "NPY_INT64";      "NPY_INT64";      "NPY_INTP";
   "NPY_UINT64";     "NPY_UINT64";     "NPY_INTP";
   "NPY_HALF";       "NPY_HALF";       "NPY_INTP";
   "NPY_FLOAT";      "NPY_FLOAT";      "NPY_INTP";
   "NPY_DOUBLE";     "NPY_DOUBLE";     "NPY_INTP";
   "NPY_LONGDOUBLE"; "NPY_LONGDOUBLE"; "NPY_INTP";
   "NPY_OBJECT";     "NPY_OBJECT";     "NPY_INTP"]%string.

Definition c_mods : list cmod :=
  [ (* src/means/means_gufunc.c.src:580-584, 613-620, 755-757 *)
    CMod (S_ "gmean") 1 1 3 3 (real_loops 1)
      (map S_ ["NPY_FLOAT"; "NPY_FLOAT"; "NPY_DOUBLE"; "NPY_DOUBLE"; "NPY_LONGDOUBLE"; "NPY_LONGDOUBLE"]%string);
    (* src/means/means_gufunc.c.src:580-584, 622-629, 771-773 *)
    CMod (S_ "hmean") 1 1 3 3 (real_loops 1)
      (map S_ ["NPY_FLOAT"; "NPY_FLOAT"; "NPY_DOUBLE"; "NPY_DOUBLE"; "NPY_LONGDOUBLE"; "NPY_LONGDOUBLE"]%string);
    (* src/means/means_gufunc.c.src:593-597, 632-639, 763-765 *)
    CMod (S_ "gmeanw") 2 1 3 3 (real_loops 2)
      (map S_ ["NPY_FLOAT"; "NPY_FLOAT"; "NPY_FLOAT"; "NPY_DOUBLE"; "NPY_DOUBLE"; "NPY_DOUBLE";
               "NPY_LONGDOUBLE"; "NPY_LONGDOUBLE"; "NPY_LONGDOUBLE"]%string);
    (* src/means/means_gufunc.c.src:586-590, 642-649, 779-781 *)
    CMod (S_ "hmeanw") 2 1 3 3 (real_loops 2)
      (map S_ ["NPY_FLOAT"; "NPY_FLOAT"; "NPY_FLOAT"; "NPY_DOUBLE"; "NPY_DOUBLE"; "NPY_DOUBLE";
               "NPY_LONGDOUBLE"; "NPY_LONGDOUBLE"; "NPY_LONGDOUBLE"]%string);
    (* src/means/means_gufunc.c.src:600-604, 651-658, 787-789 *)
    CMod (S_ "pmean") 2 1 3 3 (real_loops 2)
      (map S_ ["NPY_FLOAT"; "NPY_FLOAT"; "NPY_FLOAT"; "NPY_DOUBLE"; "NPY_DOUBLE"; "NPY_DOUBLE";
               "NPY_LONGDOUBLE"; "NPY_LONGDOUBLE"; "NPY_LONGDOUBLE"]%string);
    (* src/means/means_gufunc.c.src:607-611, 660-667, 795-797 *)
    CMod (S_ "pmeanw") 3 1 3 3 (real_loops 3)
      (map S_ ["NPY_FLOAT"; "NPY_FLOAT"; "NPY_FLOAT"; "NPY_FLOAT";
               "NPY_DOUBLE"; "NPY_DOUBLE"; "NPY_DOUBLE"; "NPY_DOUBLE";
               "NPY_LONGDOUBLE"; "NPY_LONGDOUBLE"; "NPY_LONGDOUBLE"; "NPY_LONGDOUBLE"]%string);
    (* src/debye1/debye1_ufunc.c:16-70, 119-124 *)
    CMod (S_ "debye1") 1 1 2 2 [([S_ "float"], [S_ "float"]); ([S_ "double"], [S_ "double"])]
      (map S_ ["NPY_FLOAT"; "NPY_FLOAT"; "NPY_DOUBLE"; "NPY_DOUBLE"]%string);
    (* src/loggamma1p/loggamma1p_ufunc.c:16-70, 119-124 *)
    CMod (S_ "loggamma1p") 1 1 2 2 [([S_ "float"], [S_ "float"]); ([S_ "double"], [S_ "double"])]
      (map S_ ["NPY_FLOAT"; "NPY_FLOAT"; "NPY_DOUBLE"; "NPY_DOUBLE"]%string);
    (* src/logfactorial/logfactorial_ufunc.c:16-93, 139-144 *)
    CMod (S_ "logfactorial") 1 1 2 2 [([S_ "int32_t"], [S_ "double"]); ([S_ "int64_t"], [S_ "double"])]
      (map S_ ["NPY_INT32"; "NPY_DOUBLE"; "NPY_INT64"; "NPY_DOUBLE"]%string);
    (* src/linear_interp1d/linear_interp1d_gufunc.c.src:166-177, 240-243 *)
    CMod (S_ "linear_interp1d") 3 1 2 2
      [(repeat (S_ "float") 3, [S_ "float"]); (repeat (S_ "double") 3, [S_ "double"])]
      (map S_ ["NPY_FLOAT"; "NPY_FLOAT"; "NPY_FLOAT"; "NPY_FLOAT";
               "NPY_DOUBLE"; "NPY_DOUBLE"; "NPY_DOUBLE"; "NPY_DOUBLE"]%string);
    (* src/searchsorted/searchsorted_gufunc.c.src:441-484, 544-551 *)
    CMod (S_ "searchsortedl") 2 1 13 13 (map (fun c => ([c; c], [S_ "npy_intp"])) searchsorted_ctypes) searchsorted_codes;
    CMod (S_ "searchsortedr") 2 1 13 13 (map (fun c => ([c; c], [S_ "npy_intp"])) searchsorted_ctypes) searchsorted_codes;
    (* src/issnan/issnan_ufunc.c.src:104-117, 164-170 *)
    CMod (S_ "issnan") 1 1 3 3 (map (fun c => ([c], [S_ "npy_bool"])) (map S_ ["npy_half"; "float"; "double"]%string))
      (map S_ ["NPY_HALF"; "NPY_BOOL"; "NPY_FLOAT"; "NPY_BOOL"; "NPY_DOUBLE"; "NPY_BOOL"]%string);
    (* src/abssq/abssq_ufunc.cpp:28-108, 168-174 *)
    CMod (S_ "abssq") 1 1 6 6
      [([S_ "float"], [S_ "float"]); ([S_ "double"], [S_ "double"]); ([S_ "long double"], [S_ "long double"]);
       ([S_ "float complex"], [S_ "float"]); ([S_ "double complex"], [S_ "double"]);
       ([S_ "long double complex"], [S_ "long double"])]
      (map S_ ["NPY_FLOAT"; "NPY_FLOAT"; "NPY_DOUBLE"; "NPY_DOUBLE"; "NPY_LONGDOUBLE"; "NPY_LONGDOUBLE";
               "NPY_CFLOAT"; "NPY_FLOAT"; "NPY_CDOUBLE"; "NPY_DOUBLE"; "NPY_CLONGDOUBLE"; "NPY_LONGDOUBLE"]%string);
    (* src/log1p/log1p_ufunc.c:336-443, 457-464, 526-531 *)
    CMod (S_ "log1p_theorem4") 1 1 2 6
      [([S_ "float complex"], [S_ "float complex"]); ([S_ "double complex"], [S_ "double complex"])]
      (map S_ ["NPY_CFLOAT"; "NPY_CFLOAT"; "NPY_CDOUBLE"; "NPY_CDOUBLE"]%string);
    (* src/log1p/log1p_ufunc.c:382-448, 457-464, 549-554 *)
    CMod (S_ "log1p_doubledouble") 1 1 2 6
      [([S_ "float complex"], [S_ "float complex"]); ([S_ "double complex"], [S_ "double complex"])]
      (map S_ ["NPY_CFLOAT"; "NPY_CFLOAT"; "NPY_CDOUBLE"; "NPY_CDOUBLE"]%string);
    (* src/peaktopeak/peaktopeak_gufunc.c.src:248-283, 469-476 *)
    CMod (S_ "peaktopeak") 1 1 12 12
      (map (fun c => ([S_ (fst c)], [S_ (snd c)]))
         [("int8_t", "uint8_t"); ("uint8_t", "uint8_t"); ("int16_t", "uint16_t"); ("uint16_t", "uint16_t");
          ("int32_t", "uint32_t"); ("uint32_t", "uint32_t"); ("int64_t", "uint64_t"); ("uint64_t", "uint64_t");
          ("float", "float"); ("double", "double"); ("long double", "long double"); ("PyObject *", "PyObject *")]%string)
      (map S_ ["NPY_INT8"; "NPY_UINT8"; "NPY_UINT8"; "NPY_UINT8"; "NPY_INT16"; "NPY_UINT16"; "NPY_UINT16"; "NPY_UINT16";
               "NPY_INT32"; "NPY_UINT32"; "NPY_UINT32"; "NPY_UINT32"; "NPY_INT64"; "NPY_UINT64"; "NPY_UINT64"; "NPY_UINT64";
               "NPY_FLOAT"; "NPY_FLOAT"; "NPY_DOUBLE"; "NPY_DOUBLE"; "NPY_LONGDOUBLE"; "NPY_LONGDOUBLE";
               "NPY_OBJECT"; "NPY_OBJECT"]%string) ].

(** NumPy reads the k-th loop's types at types[k*nargs ... k*nargs+nargs-1] *)
Definition code_row (m : cmod) (k : nat) : option row :=
  let nargs := (cm_nin m + cm_nout m)%nat in
  match sequence (map (fun j => match nth_error (cm_codes m) (k * nargs + j)%nat with
                                | Some s => dt_of_code s
                                | None => None
                                end) (seq 0 nargs)) with
  | Some l => Some (firstn (cm_nin m) l, skipn (cm_nin m) l)
  | None => None
  end.
Definition loop_row (m : cmod) (k : nat) : option row :=
  match nth_error (cm_loops m) k with
  | Some (i, o) => match sequence (map dt_of_ctype i), sequence (map dt_of_ctype o) with
                   | Some i, Some o => Some (i, o)
                   | _, _ => None
                   end
  | None => None
  end.
Definition table_of_cmod (m : cmod) : option (list row) :=
  sequence (map (code_row m) (seq 0 (cm_ntypes m))).

(** every ufunc of the package with its loops *)
Definition all_tables : list (str * option (list row)) :=
  map (fun p => (fst p, table_of_sigs (snd p))) gen_sigs
  ++ map (fun m => (cm_name m, table_of_cmod m)) c_mods.

(** * M_Gen: model of the gufunc code generator (tools/cxxgen/gufuncgen.py) and of the
    outer loops it emits.

    Python strings are lists of ascii characters.  The generator's text output is modelled
    by the program it denotes ([genloop], with the semantics [run_genloop]) instead of the
    characters of the C++ source. *)
From Coq Require Import ZArith Bool Ascii String List.
From Verif Require Import CSem M_Int M_Stat.
Import ListNotations.
Open Scope Z_scope.

Definition str := list ascii.
Definition S_ (s : string) : str := list_ascii_of_string s.
Definition ch (s : string) : ascii := match s with String c _ => c | EmptyString => Ascii.zero end.

(** ** the str methods the generator uses *)
Fixpoint eqs (a b : str) : bool :=
  match a, b with
  | [], [] => true
  | x :: a, y :: b => Ascii.eqb x y && eqs a b
  | _, _ => false
  end.
Fixpoint prefixb (p s : str) : bool :=
  match p, s with
  | [], _ => true
  | x :: p, y :: s => Ascii.eqb x y && prefixb p s
  | _, _ => false
  end.
(** s.replace(c, '') for a single character *)
Definition remove_char (c : ascii) (s : str) : str := filter (fun x => negb (Ascii.eqb x c)) s.
(** s.split(sep), sep not empty: scan left to right; [skip] characters of a separator
    are still to be dropped, [cur] is the reversed current piece. *)
Fixpoint split_go (sep : str) (skip : nat) (cur : str) (s : str) : list str :=
  match s with
  | [] => [rev cur]
  | c :: s' =>
      match skip with
      | S k => split_go sep k cur s'
      | O => if prefixb sep s then rev cur :: split_go sep (length sep - 1) [] s'
             else split_go sep O (c :: cur) s'
      end
  end.
Definition split_on (sep s : str) : list str := split_go sep O [] s.
(** s.replace(sep, '') for a multi-character sep *)
Definition remove_sub (sep s : str) : str := concat (split_on sep s).
Fixpoint lstrip (c : ascii) (s : str) : str :=
  match s with x :: s' => if Ascii.eqb x c then lstrip c s' else s | [] => [] end.
Definition rstrip (c : ascii) (s : str) : str := rev (lstrip c (rev s)).

Definition isdigit (c : ascii) : bool := (48 <=? Z.of_nat (nat_of_ascii c)) && (Z.of_nat (nat_of_ascii c) <=? 57).
Definition digit (c : ascii) : Z := Z.of_nat (nat_of_ascii c) - 48.
Definition isspace (c : ascii) : bool :=
  let n := Z.of_nat (nat_of_ascii c) in (n =? 32) || ((9 <=? n) && (n <=? 13)) || ((28 <=? n) && (n <=? 31)).
Fixpoint strip_space (s : str) : str :=
  match s with x :: s' => if isspace x then strip_space s' else s | [] => [] end.
(** digits of an int literal; single underscores are allowed between digits.
    [prev]: the previous character was a digit. *)
Fixpoint int_digits (prev : bool) (acc : Z) (s : str) : option Z :=
  match s with
  | [] => if prev then Some acc else None
  | c :: s' =>
      if isdigit c then int_digits true (acc * 10 + digit c) s'
      else if Ascii.eqb c (ch "_") && prev then int_digits false acc s'
      else None
  end.
(** int(s); None = ValueError.  ASCII text only. *)
Definition py_int (s : str) : option Z :=
  let s := strip_space s in
  let s := rev (strip_space (rev s)) in
  match s with
  | c :: s' =>
      if Ascii.eqb c (ch "-") then option_map Z.opp (int_digits false 0 s')
      else if Ascii.eqb c (ch "+") then int_digits false 0 s'
      else int_digits false 0 s
  | [] => None
  end.

(** ** parsing the shape signature *)
(** an entry of a shape: a str or an int *)
Inductive item := IStr (s : str) | INum (n : Z).
(** a shape: a single item, or a sequence of items (tools/cxxgen/gufuncgen.py:111-114) *)
Inductive shape := Single (i : item) | Seq (l : list item).

Definition item_eqb (a b : item) : bool :=
  match a, b with
  | IStr s, IStr t => eqs s t
  | INum m, INum n => m =? n
  | _, _ => false
  end.

Definition to_item (s : str) : item := match py_int s with Some n => INum n | None => IStr s end.

(** tools/cxxgen/gufuncgen.py:73-84  [toseq] *)
Definition toseq (s : str) : shape :=
  match map to_item (split_on (S_ ",") s) with
  | [i] => Single i
  | l => Seq l
  end.
(** tools/cxxgen/gufuncgen.py:87-89  [split_parts] *)
Definition split_parts (s : str) : list shape :=
  map (fun p => toseq (rstrip (ch ")") (lstrip (ch "(") p))) (split_on (S_ "),(") s).
(** tools/cxxgen/gufuncgen.py:92-94  [flatten] *)
Definition flatten (l : list shape) : list item :=
  concat (map (fun p => match p with Single i => [i] | Seq l => l end) l).
(** tools/cxxgen/gufuncgen.py:127-133: the loop collecting core dimensions; [int(name)]
    of an int is the int itself. *)
Definition re_int (i : item) : item := match i with IStr s => to_item s | INum n => INum n end.
Definition collect_dims (l : list item) : list item :=
  fold_left (fun dims i => let i := re_int i in
               if item_eqb i (IStr []) || existsb (item_eqb i) dims then dims else dims ++ [i]) l [].
(** tools/cxxgen/gufuncgen.py:97-134  [parse_gufunc_signature]; None = the ValueError of the
    tuple unpacking when there is not exactly one arrow. *)
Definition parse_gufunc_signature (sig : str) : option (list item * list shape * list shape) :=
  let sig := remove_char (ch " ") sig in
  match split_on (S_ "->") sig with
  | [lhs; rhs] =>
      let si := split_parts lhs in
      let so := split_parts rhs in
      Some (collect_dims (flatten si ++ flatten so), si, so)
  | _ => None
  end.

(** src/util/ufunc_tools.h:26-42  [get_nin_nout] *)
Definition get_nin_nout (sig : str) : Z * Z :=
  let '(nin, nout, _) :=
    fold_left (fun (st : Z * Z * bool) c =>
      let '(nin, nout, out) := st in
      if Ascii.eqb c (ch "-") then (nin, nout, true)
      else if Ascii.eqb c (ch "(") then (if out then (nin, nout + 1, out) else (nin + 1, nout, out))
      else st) sig (0, 0, false) in
  (nin, nout).

(** tools/cxxgen/gufuncgen.py:164-176  [get_varnames_from_docstring_and_sig].
    str.find returns -1 when the pattern is absent; slices clip. *)
Fixpoint find_sub (p s : str) (k : Z) : Z :=
  if prefixb p s then k
  else match s with [] => -1 | _ :: s' => find_sub p s' (k + 1) end.
Fixpoint first_line (s : str) : str :=
  match s with [] => [] | c :: s' => if Ascii.eqb c (ascii_of_nat 10) then [] else c :: first_line s' end.
Definition py_slice (s : str) (a b : Z) : str :=
  let n := Z.of_nat (length s) in
  let b := if b <? 0 then b + n else b in
  firstn (Z.to_nat (b - a)) (skipn (Z.to_nat a) s).
Fixpoint dec_digits (fuel : nat) (n : Z) : str :=
  match fuel with
  | O => []
  | S k => (if n <? 10 then [] else dec_digits k (n / 10)) ++ [ascii_of_nat (Z.to_nat (48 + n mod 10))]
  end.
(** f'out{k+1}'; str(k) of a nonnegative int *)
Definition outname (k : nat) : str := S_ "out" ++ dec_digits (S k) (Z.of_nat k).
Definition get_varnames (docstring sig : str) : option (list str) :=
  let l := first_line docstring in
  let params := py_slice l (find_sub (S_ "(") l 0 + 1) (find_sub (S_ ", /") l 0) in
  let varnames := split_on (S_ ",") (remove_char (ch " ") params) in
  match split_on (S_ "->") (remove_char (ch " ") sig) with
  | _ :: rhs :: _ =>
      let nout := length (split_on (S_ "),(") rhs) in
      Some (varnames ++ (if (1 <? Z.of_nat nout) then map (fun k => outname (S k)) (seq 0 nout) else [S_ "out"]))
  | _ => None
  end.

(** ** the generated loop *)
Inductive carg :=
| ADim (name : str)          (* the local variable of that name *)
| APtr (k : Z)               (* (type * ) p_var, the k-th pointer variable *)
| AStep (i : Z)              (* steps[i] *)
| ASteps (i : Z) (len : nat) (* &steps[i], a sequence of [len] strides *).

Record genloop := mkGen {
  g_nvars : nat;                  (* pointer variables p_k = args[k], p_k += steps[k] *)
  g_dims : list (str * Z);        (* npy_intp NAME = dimensions[i] *)
  g_asserts : list (Z * Z);       (* assert(dimensions[i] == n) *)
  g_call : list carg              (* arguments of the core function *)
}.

Fixpoint gen_dims (k : Z) (dims : list item) : list (str * Z) :=
  match dims with
  | [] => []
  | INum _ :: r => gen_dims (k + 1) r
  | IStr s :: r => (s, k + 1) :: gen_dims (k + 1) r
  end.
Fixpoint gen_asserts (k : Z) (dims : list item) : list (Z * Z) :=
  match dims with
  | [] => []
  | INum n :: r => (k + 1, n) :: gen_asserts (k + 1) r
  | IStr _ :: r => gen_asserts (k + 1) r
  end.
(** lines 334-353: pointer and strides of each operand, [istep] running through steps *)
Fixpoint gen_operands (k istep : Z) (shapes : list shape) : list carg :=
  match shapes with
  | [] => []
  | Single (IStr s) :: r =>
      if eqs s [] then APtr k :: gen_operands (k + 1) istep r
      else APtr k :: AStep istep :: gen_operands (k + 1) (istep + 1) r
  | Single (INum _) :: r => APtr k :: AStep istep :: gen_operands (k + 1) (istep + 1) r
  | Seq l :: r => APtr k :: ASteps istep (length l) :: gen_operands (k + 1) (istep + Z.of_nat (length l)) r
  end.
(** tools/cxxgen/gufuncgen.py:274-363  [generate_concrete_loop] *)
Definition generate_concrete_loop (dims : list item) (shapes : list shape) : genloop :=
  mkGen (length shapes) (gen_dims 0 dims) (gen_asserts 0 dims)
        (map (fun p => ADim (fst p)) (gen_dims 0 dims) ++ gen_operands 0 (Z.of_nat (length shapes)) shapes).

(** tools/cxxgen/gufuncgen.py:179-263  [generate_declaration]: the parameter list of the
    core function that the generated prototype comment documents. *)
Inductive cparam := PDim (name : str) | PPtr | PStride | PStrides (len : nat).
Definition decl_operand (s : shape) : list cparam :=
  match s with
  | Single (IStr s) => if eqs s [] then [PPtr] else [PPtr; PStride]
  | Single (INum n) => if n =? 1 then [PPtr] else [PPtr; PStride]
  | Seq l => [PPtr; PStrides (length l)]
  end.
Definition generate_declaration (dims : list item) (shapes : list shape) : list cparam :=
  map (fun p => PDim (fst p)) (gen_dims 0 dims) ++ concat (map decl_operand shapes).
Definition kind_of (a : carg) : cparam :=
  match a with ADim n => PDim n | APtr _ => PPtr | AStep _ => PStride | ASteps _ l => PStrides l end.

(** ** semantics of the generated function *)
Inductive cval := VInt (n : Z) | VPtr (p : Z) | VStrides (l : list Z).

Section Run.
  Context {St : Type} (core : list cval -> St -> M St).
  Context (args dimensions steps : list Z).
  (** reading args/dimensions/steps; None = out of bounds *)
  Definition rd (l : list Z) (i : Z) : M Z := if i <? 0 then ub else nth_error l (Z.to_nat i).
  Fixpoint rds (l : list Z) (i : Z) (n : nat) : M (list Z) :=
    match n with O => ret [] | S n => x <- rd l i ;; r <- rds l (i + 1) n ;; ret (x :: r) end.
  Fixpoint mapM {X Y} (f : X -> M Y) (l : list X) : M (list Y) :=
    match l with [] => ret [] | x :: r => y <- f x ;; r <- mapM f r ;; ret (y :: r) end.
  Fixpoint lookup (n : str) (env : list (str * Z)) : M Z :=
    match env with [] => ub | (m, v) :: r => if eqs m n then ret v else lookup n r end.
  (** one argument of the call; the loop counter j is the innermost variable of its name
      (tools/cxxgen/gufuncgen.py:312) *)
  Definition eval_arg (env : list (str * Z)) (ptrs : list Z) (j : Z) (a : carg) : M cval :=
    match a with
    | ADim n => v <- lookup n ((S_ "j", j) :: env) ;; ret (VInt v)
    | APtr k => p <- rd ptrs k ;; ret (VPtr p)
    | AStep i => s <- rd steps i ;; ret (VInt s)
    | ASteps i n => l <- rds steps i n ;; ret (VStrides l)
    end.
  Definition add_ptrs (ptrs steps : list Z) : list Z := map (fun p => fst p + snd p) (combine ptrs steps).
  (** the C++ function whose text is tools/cxxgen/gufuncgen.py:279-361.  A failed assert
      aborts; it is modelled as [ub]. *)
  Definition run_genloop (g : genloop) (s : St) : M St :=
    ptrs <- rds args 0 (g_nvars g) ;;
    nloops <- rd dimensions 0 ;;
    env <- mapM (fun p => v <- rd dimensions (snd p) ;; ret (fst p, v)) (g_dims g) ;;
    _ <- mapM (fun p => v <- rd dimensions (fst p) ;; if v =? snd p then ret tt else ub) (g_asserts g) ;;
    incs <- rds steps 0 (g_nvars g) ;;
    r <- int_for_each nloops
      (fun j (st : list Z * St) =>
         let '(ptrs, s) := st in
         vals <- mapM (eval_arg env ptrs j) (g_call g) ;;
         s <- core vals s ;;
         ret (add_ptrs ptrs incs, s)) (ptrs, s) ;;
    ret (snd r).
End Run.

(** tools/cxxgen/gufuncgen.py:503-523: the generated process_core_dims function;
    [idx = core_dims.index(name)].  None at the outer level: ValueError of the generator;
    the inner result is the C return value. *)
Fixpoint index_of (i : item) (l : list item) (k : Z) : option Z :=
  match l with [] => None | x :: r => if item_eqb x i then Some k else index_of i r (k + 1) end.
Fixpoint gen_nonzero (dims : list item) (names : list str) : option (list Z) :=
  match names with
  | [] => Some []
  | n :: r => match index_of (IStr n) dims 0, gen_nonzero dims r with
              | Some k, Some l => Some (k :: l)
              | _, _ => None
              end
  end.
Fixpoint process_core_dims (idxs : list Z) (sizes : list Z) : M Z :=
  match idxs with
  | [] => ret 0
  | k :: r => n <- rd sizes k ;; if n =? 0 then ret (-1) else process_core_dims r sizes
  end.

(** ** type signatures *)
(** column i of a rectangular array of characters *)
Definition column (i : nat) (rows : list str) : str := map (fun r => nth i r Ascii.zero) rows.
Fixpoint index_str (w : str) (l : list str) (k : nat) : option nat :=
  match l with [] => None | x :: r => if eqs x w then Some k else index_str w r (S k) end.
(** tools/cxxgen/gufuncgen.py:56-70: the body of [classify_typenames] for one column w *)
Definition classify_step (st : list str * list (ascii + nat)) (w : str) : list str * list (ascii + nat) :=
  let '(uts, result) := st in
  match w with
  | [] => (uts, result)  (* no signatures: there are no columns *)
  | c :: _ =>
      if eqs (remove_char c w) [] then (uts, result ++ [inl c])
      else match index_str w uts 0 with
           | Some k => (uts, result ++ [inr k])
           | None => (uts ++ [w], result ++ [inr (length uts)])
           end
  end.
(** tools/cxxgen/gufuncgen.py:8-70  [classify_typenames]; None: np.array raises ValueError
    for rows of different lengths. *)
Definition classify_typenames (types : list str) : option (list str * list (ascii + nat)) :=
  let rows := map (remove_sub (S_ "->")) types in
  match rows with
  | [] => Some ([], [])
  | r :: _ =>
      if forallb (fun q => (length q =? length r)%nat) rows
      then Some (fold_left classify_step (map (fun i => column i rows) (seq 0 (length r))) ([], []))
      else None
  end.
(** tools/cxxgen/gufuncgen.py:440-458: the template arguments of the loops that are emitted;
    zip( *template_types ) *)
Definition zip_star (l : list str) : list str :=
  match l with
  | [] => []
  | w :: _ => map (fun k => map (fun w => nth k w Ascii.zero) l) (seq 0 (fold_right Nat.min (length w) (map (@length ascii) l)))
  end.
Definition emitted_templates (uts : list str) : list str :=
  match uts with [] => [[]] | _ => zip_star uts end.
(** tools/cxxgen/gufuncgen.py:289-295: the type codes of the variables of one loop; None = IndexError *)
Fixpoint var_codes (tpl : str) (result : list (ascii + nat)) : option str :=
  match result with
  | [] => Some []
  | inl c :: r => option_map (cons c) (var_codes tpl r)
  | inr k :: r => match nth_error tpl k, var_codes tpl r with Some c, Some l => Some (c :: l) | _, _ => None end
  end.

(** tools/cxxgen/gufuncgen.py:426-429: when long double is double, type signatures that
    mention 'g' or 'G' are dropped. *)
Definition drop_long (same : bool) (types : list str) : list str :=
  if same then filter (fun t => negb (existsb (fun c => Ascii.eqb c (ch "g") || Ascii.eqb c (ch "G")) t)) types
  else types.
(** tools/cxxgen/gufuncgen.py:422-474: the table of loop functions of one ufunc.  A loop is
    identified by its core function (the source's index) and the type codes of its operands. *)
Fixpoint funcs_table (same : bool) (k : nat) (sources : list (list str)) : option (list (nat * str)) :=
  match sources with
  | [] => Some []
  | types :: r =>
      match classify_typenames (drop_long same types), funcs_table same (S k) r with
      | Some (uts, result), Some rest =>
          option_map (fun l => map (pair k) l ++ rest)
            (mapM (fun tpl => var_codes tpl result) (emitted_templates uts))
      | _, _ => None
      end
  end.
(** tools/cxxgen/gufuncgen.py:477-494: the array of type codes NumPy matches against, row by
    row, tagged with the source it was written for. *)
Fixpoint typecodes_table (same : bool) (k : nat) (sources : list (list str)) : list (nat * str) :=
  match sources with
  | [] => []
  | types :: r => map (fun t => (k, remove_sub (S_ "->") t)) (drop_long same types) ++ typecodes_table same (S k) r
  end.

(** ** names of the loop functions *)
(** tools/cxxgen/generate_utils.py:16-40  [typechar_to_npy_type]; None = KeyError *)
Definition typechar_to_npy_type (c : ascii) : option str :=
  option_map (fun p => S_ (snd p)) (find (fun p => Ascii.eqb (fst p) c)
  [("?"%char, "NPY_BOOL"%string); ("b"%char, "NPY_BYTE"%string); ("h"%char, "NPY_SHORT"%string);
   ("i"%char, "NPY_INT"%string); ("l"%char, "NPY_LONG"%string); ("q"%char, "NPY_LONGLONG"%string);
   ("p"%char, "NPY_INTP"%string); ("B"%char, "NPY_UBYTE"%string); ("H"%char, "NPY_USHORT"%string);
   ("I"%char, "NPY_UINT"%string); ("L"%char, "NPY_ULONG"%string); ("Q"%char, "NPY_ULONGLONG"%string);
   ("f"%char, "NPY_FLOAT"%string); ("d"%char, "NPY_DOUBLE"%string); ("g"%char, "NPY_LONGDOUBLE"%string);
   ("F"%char, "NPY_CFLOAT"%string); ("D"%char, "NPY_CDOUBLE"%string); ("G"%char, "NPY_CLONGDOUBLE"%string);
   ("M"%char, "NPY_DATETIME"%string); ("m"%char, "NPY_TIMEDELTA"%string); ("O"%char, "NPY_OBJECT"%string);
   ("P"%char, "NPY_UINTP"%string)]).
(** s.lower(), ASCII *)
Definition lower (s : str) : str :=
  map (fun c => let n := Z.of_nat (nat_of_ascii c) in
                if (65 <=? n) && (n <=? 90) then ascii_of_nat (Z.to_nat (n + 32)) else c) s.
(** tools/cxxgen/generate_utils.py:43-48  [typechar_to_npy_ctype] *)
Definition typechar_to_npy_ctype (c : ascii) : option str :=
  if Ascii.eqb c (ch "O") then Some (S_ "PyObject *") else option_map lower (typechar_to_npy_type c).
(** sep.join(l) *)
Definition py_join (sep : str) (l : list str) : str :=
  match l with [] => [] | x :: r => x ++ concat (map (fun y => sep ++ y) r) end.
(** tools/cxxgen/gufuncgen.py:266-271  [concrete_loop_function_name] *)
Definition concrete_loop_function_name (corename typecodes : str) : option str :=
  option_map (fun ctypes =>
    py_join (S_ "_") (S_ "loop" :: corename :: map (fun r => remove_sub (S_ "npy_") (remove_char (ch " ") r)) ctypes))
    (mapM typechar_to_npy_ctype typecodes).

(** ** elementwise ufuncs *)
(** tools/cxxgen/generate_ufunc_extmod.py:205-235: the generated loop of a ufunc with one
    output.  [ins]: base pointers and memories of the inputs; all operands of one type. *)
Section UfuncLoop.
  Context {T U : Type} (f : list T -> M U).
  Definition ufunc_loop (ins : list (mem T * Z)) (pout : Z) (n : Z) (isteps : list Z) (ostep : Z)
      (out : mem U) : M (mem U) :=
    r <- int_for_each n
      (fun j (st : list Z * Z * mem U) =>
         let '(ps, pout, out) := st in
         xs <- mapM (fun mp => load (fst (fst mp)) (snd mp)) (combine ins ps) ;;
         y <- f xs ;;
         out <- store out pout y ;;
         ret (add_ptrs ps isteps, pout + ostep, out)) (map snd ins, pout, out) ;;
    ret (snd r).
End UfuncLoop.

(** * S_Cxx: what the generated extension modules have to satisfy, and how a C compiler reads
    a docstring macro *)
From Coq Require Import ZArith Bool Ascii String List.
From Verif Require Import CSem M_Stat M_Gen M_Types M_Cxx.
Import ListNotations.

(** the value type that a C++ type name denotes *)
Definition cxx_type (s : str) : option dt :=
  if eqs s (S_ "float") then Some Tfloat else
  if eqs s (S_ "double") then Some Tdouble else
  if eqs s (S_ "long double") then Some Tlongdouble else
  if eqs s (S_ "std::complex<float>") then Some Tcfloat else
  if eqs s (S_ "std::complex<double>") then Some Tcdouble else
  if eqs s (S_ "std::complex<long double>") then Some Tclongdouble else None.

(** [x] is the only definition in [l] with the given name: what the linker needs *)
Definition sole {A} (name : A -> str) (l : list A) (n : str) (x : A) : Prop :=
  exists a b, l = a ++ x :: b /\ name x = n /\ (forall y, In y (a ++ b) -> name y <> n).

(** all loops of the module *)
Definition all_loops (us : list umod) : list uloop := concat (map u_loops us).

(** One registered loop.  NumPy calls entry [k] of the array of functions for operands of the
    types in row [k] of the type table. *)
Record good_row (f : func) (defs : list cfun) (us : list umod) (u : umod) (k : nat) : Prop := GR {
  gr_run : exists lname L C tys,
    (* the function pointer names exactly one loop of the module *)
    nth_error (u_funcs u) k = Some lname /\ sole l_name (all_loops us) lname L /\
    (* the types NumPy reads for entry k from the flat table *)
    length tys = S (u_nin u) /\
    (forall i, (i < S (u_nin u))%nat ->
       exists code, nth_error (concat (u_rows u)) (k * S (u_nin u) + i) = Some code /\
                    dt_of_code code = Some (nth i tys Tbool)) /\
    (* the loop reads operand i at its own pointer and stride, as that type *)
    length (l_reads L) = u_nin u /\
    (forall i, (i < u_nin u)%nat -> exists c, nth_error (l_reads L) i = Some (i, i, c) /\
                                            cxx_type c = Some (nth i tys Tbool)) /\
    (* and writes the operand after the inputs, as the last type *)
    (exists c, l_write L = (u_nin u, u_nin u, c) /\ cxx_type c = Some (nth (u_nin u) tys Tbool)) /\
    (* it calls exactly one function of the module, with the values in order *)
    sole c_name defs (l_callee L) C /\ l_pass L = seq 0 (u_nin u) /\
    (* whose parameters and result have the types read and written: no conversion *)
    c_args C = map snd (l_reads L) /\ c_ret C = snd (l_write L) /\
    (* and which calls the configured C++ function with its parameters in order *)
    c_callee C = cxxname f /\ c_pass C = seq 0 (u_nin u) }.

(** The module built for [f]: as many functions and rows as signatures, the array of user
    data not shorter, every row good, the name that of the configuration. *)
Definition good_ufunc (f : func) (defs : list cfun) (us : list umod) (u : umod) : Prop :=
  u_name u = ufuncname f /\ u_ntypes u = length (types f) /\
  length (u_funcs u) = u_ntypes u /\ u_ndata u = u_ntypes u /\
  length (concat (u_rows u)) = (u_ntypes u * S (u_nin u))%nat /\
  (forall k, (k < u_ntypes u)%nat -> good_row f defs us u k).

(** the number of inputs of a signature *)
Definition arity (t : str) : nat := (length t - 3)%nat.
(** a configuration in which no two functions share a name, and each has signatures that are
    different and of the same length *)
Definition proper (funcs : list func) : Prop :=
  NoDup (map ufuncname funcs) /\
  forall f, In f funcs -> NoDup (types f) /\ exists n, forall t, In t (types f) -> arity t = n.

Definition proper_b (funcs : list func) : bool :=
  let fix nodup (l : list str) := match l with [] => true | x :: l => negb (existsb (eqs x) l) && nodup l end in
  nodup (map ufuncname funcs) &&
  forallb (fun f => nodup (types f) &&
                    match types f with
                    | [] => true
                    | t :: l => forallb (fun t' => Nat.eqb (arity t') (arity t)) l
                    end) funcs.

(** the type characters the C type table knows *)
Definition known (c : ascii) : Prop := In c (map ch ["f"; "d"; "g"; "F"; "D"; "G"]%string).
(** a signature the generator accepts: inputs, arrow, one output *)
Definition sig_ok (t : str) : Prop :=
  exists i o, t = i ++ S_ "->" ++ [o] /\ i <> [] /\ Forall known i /\ known o.

(** ** reading a macro definition *)
(** translation phase 2: a backslash followed by a newline disappears *)
Fixpoint splice (s : str) : str :=
  match s with
  | b :: ((n :: s') as r) => if Ascii.eqb b bslash && Ascii.eqb n nl then splice s' else b :: splice r
  | _ => s
  end.
(** adjacent string literals are concatenated; outside of them only spaces.  Escape sequences:
    newline, backslash and quotation mark; None = not a sequence of literals (or another escape) *)
Fixpoint lits (inside : bool) (s : str) : option str :=
  match s with
  | [] => if inside then None else Some []
  | c :: s' =>
      if inside then
        if Ascii.eqb c quote then lits false s'
        else if Ascii.eqb c nl then None
        else if Ascii.eqb c bslash then
          match s' with
          | e :: s'' =>
              if Ascii.eqb e (ch "n") then option_map (cons nl) (lits true s'')
              else if Ascii.eqb e bslash then option_map (cons bslash) (lits true s'')
              else if Ascii.eqb e quote then option_map (cons quote) (lits true s'')
              else None
          | [] => None
          end
        else option_map (cons c) (lits true s')
      else
        if Ascii.eqb c quote then lits true s'
        else if Ascii.eqb c (ch " ") then lits false s'
        else None
  end.
(** up to the first space, and the rest *)
Fixpoint word (s : str) : str * str :=
  match s with
  | [] => ([], [])
  | c :: s' => if Ascii.eqb c (ch " ") then ([], s') else let '(w, r) := word s' in (c :: w, r)
  end.
(** the name and the string of a definition that gives NAME a sequence of literals *)
Definition read_define (s : str) : option (str * str) :=
  match word (splice s) with
  | (d, r) => if eqs d (S_ "#define")
              then let '(n, body) := word r in option_map (pair n) (lits false body)
              else None
  end.

(** a C identifier: letters, digits, underscores *)
Definition ident_char (c : ascii) : Prop :=
  let n := nat_of_ascii c in
  (48 <= n <= 57 \/ 65 <= n <= 90 \/ n = 95 \/ 97 <= n <= 122)%nat.
Definition ident (s : str) : Prop := Forall ident_char s.
(** characters that a string literal takes as they are *)
Definition unescaped (s : str) : Prop := Forall (fun c => c <> quote /\ c <> bslash) s.
(** no line break but \n *)
Definition only_nl (s : str) : Prop := Forall (fun c => is_break c = true -> c = nl) s.
(** with a final newline *)
Definition with_nl (s : str) : str :=
  match rev s with c :: _ => if Ascii.eqb c nl then s else s ++ [nl] | [] => s end.

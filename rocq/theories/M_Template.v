(** * M_Template: model of the template expander tools/conv_template.py that turns the
    .c.src files into C.

    Python strings are lists of ascii characters (the templates are ASCII).  A regular
    expression is modelled by the function that matches it at the start of a text; none of
    the expressions can match in two ways or match the empty text, so no backtracking is
    needed.  Error messages are reduced to the line number and the kind of error. *)
From Coq Require Import ZArith Bool Ascii String List.
From Verif Require Import M_Gen M_Gendot.
Import ListNotations.
Open Scope Z_scope.

(** ** Python's str methods with start and end positions *)
(** a position as str.find, str.count and slices read it: negative counts from the end,
    then clipped to the text *)
Definition py_pos (s : str) (i : Z) : nat :=
  let n := Z.of_nat (length s) in
  Z.to_nat (Z.max 0 (Z.min n (if i <? 0 then i + n else i))).
(** s[a:b] *)
Definition slice (s : str) (a b : Z) : str := firstn (py_pos s b - py_pos s a) (skipn (py_pos s a) s).
(** s[a:] *)
Definition slice_from (s : str) (a : Z) : str := skipn (py_pos s a) s.
(** s.find(p, i), p not empty *)
Definition py_find (p s : str) (i : Z) : Z := find_sub p (skipn (py_pos s i) s) (Z.of_nat (py_pos s i)).
Definition NL : ascii := ascii_of_nat 10.
(** s.count("\n", a, b) *)
Definition count_lines (s : str) (a b : Z) : Z := Z.of_nat (length (filter (Ascii.eqb NL) (slice s a b))).
(** s.strip() *)
Definition strip (s : str) : str := rev (strip_space (rev (strip_space s))).
(** str(n) for n >= 0 *)
Definition dec (n : Z) : str := dec_digits (S (Z.to_nat n)) n.

(** ','.join(l) *)
Fixpoint commas (l : list str) : str :=
  match l with
  | [] => []
  | [x] => x
  | x :: l' => x ++ S_ "," ++ commas l'
  end.

(** ** regular expressions *)
(** the longest prefix of characters in a class, and the rest *)
Fixpoint span (f : ascii -> bool) (s : str) : str * str :=
  match s with
  | c :: s' => if f c then let '(a, b) := span f s' in (c :: a, b) else ([], s)
  | [] => ([], [])
  end.
(** \w *)
Definition isword (c : ascii) : bool := is_alpha c || isdigit c.
Definition isnt (c : ascii) (x : ascii) : bool := negb (Ascii.eqb x c).
(** RE.findall(s): [m] gives the length and the groups of a match at the start; [skip]
    characters of the last match are still to be passed over *)
Fixpoint findall {A} (m : str -> option (nat * A)) (skip : nat) (s : str) : list A :=
  match s with
  | [] => []
  | _ :: s' =>
      match skip with
      | S k => findall m k s'
      | O => match m s with
             | Some (n, a) => a :: findall m (n - 1) s'
             | None => findall m O s'
             end
      end
  end.
(** RE.sub(f, s): [m] gives the length of a match at the start and its replacement *)
Fixpoint resub (m : str -> option (nat * str)) (skip : nat) (s : str) : str :=
  match s with
  | [] => []
  | c :: s' =>
      match skip with
      | S k => resub m k s'
      | O => match m s with
             | Some (n, r) => r ++ resub m (n - 1) s'
             | None => c :: resub m O s'
             end
      end
  end.

(** tools/conv_template.py:162  [stripast]: a newline, white space, an optional asterisk *)
Definition m_stripast (s : str) : option (nat * str) :=
  match s with
  | c :: s' =>
      if Ascii.eqb c NL then
        let '(ws, r) := span isspace s' in
        Some ((1 + length ws + match r with d :: _ => if Ascii.eqb d (ch "*") then 1 else 0 | [] => 0 end)%nat, [])
      else None
  | [] => None
  end.
(** tools/conv_template.py:163  [named_re]: a name and its text between two # *)
Definition m_named (s : str) : option (nat * (str * str)) :=
  match s with
  | c :: s1 =>
      if Ascii.eqb c (ch "#") then
        let '(w1, s2) := span isspace s1 in
        let '(name, s3) := span isword s2 in
        let '(w2, s4) := span isspace s3 in
        match s4 with
        | e :: s5 =>
            if Ascii.eqb e (ch "=") then
              let '(v, s6) := span (isnt (ch "#")) s5 in
              match s6 with
              | _ :: _ => Some ((1 + length w1 + length name + length w2 + 1 + length v + 1)%nat, (name, v))
              | [] => None
              end
            else None
        | [] => None
        end
      else None
  | [] => None
  end.
(** tools/conv_template.py:140-143  [paren_repl] *)
Definition paren_repl (torep numrep : str) : str :=
  commas (repeat torep (Z.to_nat (fold_left (fun a c => a * 10 + digit c) numrep 0))).
(** tools/conv_template.py:146  [parenrep] *)
Definition m_paren (s : str) : option (nat * str) :=
  match s with
  | c :: s1 =>
      if Ascii.eqb c (ch "(") then
        let '(b, s2) := span (isnt (ch ")")) s1 in
        match s2 with
        | _ :: d :: s3 =>
            if Ascii.eqb d (ch "*") then
              match span isdigit s3 with
              | ([], _) => None
              | (ds, _) => Some ((1 + length b + 2 + length ds)%nat, paren_repl b ds)
              end
            else None
        | _ => None
        end
      else None
  | [] => None
  end.
(** tools/conv_template.py:147  [plainrep] *)
Definition m_plain (s : str) : option (nat * str) :=
  match span (isnt (ch "*")) s with
  | ((_ :: _) as b, _ :: s2) =>
      match span isdigit s2 with
      | ([], _) => None
      | (ds, _) => Some ((length b + 1 + length ds)%nat, paren_repl b ds)
      end
  | _ => None
  end.
(** tools/conv_template.py:220  [replace_re]: a name between two @ *)
Definition m_var (s : str) : option (nat * str) :=
  match s with
  | c :: s1 =>
      if Ascii.eqb c (ch "@") then
        match span isword s1 with
        | ((_ :: _) as w, d :: _) => if Ascii.eqb d (ch "@") then Some ((length w + 2)%nat, w) else None
        | _ => None
        end
      else None
  | [] => None
  end.

(** tools/conv_template.py:150-159  [parse_values] *)
Definition parse_values (s : str) : list str :=
  let s := resub m_paren 0 s in
  let s := commas (map (fun x => resub m_plain 0 (strip x)) (split_on (S_ ",") s)) in
  split_on (S_ ",") s.

(** ** expansion *)
Inductive error :=
| Mismatch            (* "Mismatch in number of values" *)
| NoVariables         (* "No substitution variables found" *)
| Undefined (name : str).
(** a text, a ValueError with the line it names, or (of the model only) no fuel left *)
Inductive outcome := Text (s : str) | ValueError (line : Z) (e : error) | NoFuel.

(** a dictionary: the first entry with a key counts *)
Definition env := list (str * str).
Fixpoint lookup (e : env) (name : str) : option str :=
  match e with
  | (k, v) :: e' => if eqs k name then Some v else lookup e' name
  | [] => None
  end.

(** tools/conv_template.py:168-217  [parse_loop_header].  The exclusions collected in lines
    199-208 are not used there, and are left out.  [names] is built in order; of two lists
    for one name the dictionary keeps the last. *)
Definition parse_loop_header (head : str) : error + list env :=
  let head := resub m_stripast 0 head in
  let names := map (fun r : str * str => (fst r, parse_values (snd r))) (findall m_named 0 head) in
  match names with
  | [] => inl NoVariables
  | (_, v0) :: _ =>
      if forallb (fun r => Nat.eqb (length v0) (length (snd r))) names then
        inr (map (fun i => rev (map (fun r : str * list str => (fst r, nth i (snd r) [])) names)) (seq 0 (length v0)))
      else inl Mismatch
  end.

(** tools/conv_template.py:227-234: the replacement of names, by [replace_re.sub(replace, s)];
    [inl]: no definition of that name *)
Fixpoint substitute (e : env) (skip : nat) (s : str) : str + str :=
  match s with
  | [] => inr []
  | c :: s' =>
      match skip with
      | S k => substitute e k s'
      | O =>
          match m_var s with
          | Some (n, name) =>
              match lookup e name with
              | Some v => match substitute e (n - 1) s' with inr r => inr (v ++ r) | inl x => inl x end
              | None => inl name
              end
          | None => match substitute e O s' with inr r => inr (c :: r) | inl x => inl x end
          end
      end
  end.

(** (start of the marker, start of the body, end of the body, end of the block, newlines
    before the body) *)
Definition block : Type := Z * Z * Z * Z * Z.
(** tools/conv_template.py:114-119: the markers of a nesting level *)
Definition level_text (level : nat) : str := match level with O => [] | _ => dec (Z.of_nat level) end.
Definition loopbeg (level : nat) : str := S_ "/**begin repeat" ++ level_text level.
Definition loopend (level : nat) : str := S_ "/**end repeat" ++ level_text level ++ S_ "**/".
(** tools/conv_template.py:108-137  [parse_structure]: the while loop, with fuel.  The
    blocks are found from left to right, so sorting them changes nothing. *)
Fixpoint blocks (fuel : nat) (b e : str) (s : str) (ind line : Z) : option (list block) :=
  match fuel with
  | O => None
  | S k =>
      let start := py_find b s ind in
      if start =? -1 then Some []
      else
        let start2 := py_find (S_ "*/") s start in
        let start2 := py_find [NL] s start2 in
        let fini1 := py_find e s start2 in
        let fini2 := py_find [NL] s fini1 in
        let line := line + count_lines s ind (start2 + 1) in
        match blocks k b e s fini2 (line + count_lines s (start2 + 1) fini2) with
        | Some r => Some ((start, start2 + 1, fini1, fini2 + 1, line) :: r)
        | None => None
        end
  end.
Definition parse_structure (s : str) (level : nat) : option (list block) :=
  blocks (S (S (length s))) (loopbeg level) (loopend level) s 0 0.

Definition app_out (a b : outcome) : outcome :=
  match a with
  | Text x => match b with Text y => Text (x ++ y) | _ => b end
  | _ => a
  end.
Definition sub_out (e : env) (line : Z) (s : str) : outcome :=
  match substitute e 0 s with inr r => Text r | inl name => ValueError line (Undefined name) end.
(** tools/conv_template.py:254-257: the body once per dictionary *)
Fixpoint each_env (f : env -> outcome) (l : list env) : outcome :=
  match l with
  | [] => Text []
  | e :: l' => app_out (f e) (each_env f l')
  end.
(** tools/conv_template.py:240-259: the loop over the blocks; [newenv.update(env)]: the
    outer definition of a name counts *)
Fixpoint each_block (f : str -> env -> Z -> outcome) (s : str) (e : env) (line : Z) (l : list block) (oldend : Z) : outcome :=
  match l with
  | [] => sub_out e line (slice_from s oldend)
  | (b0, b1, b2, b3, b4) :: l' =>
      app_out (sub_out e line (slice s oldend b0))
        (app_out
           (match parse_loop_header (slice s b0 b1) with
            | inl err => ValueError (line + b4) err
            | inr envs => each_env (fun d => f (slice s b1 b2) (e ++ d) (line + b4)) envs
            end)
           (each_block f s e line l' b3))
  end.
(** tools/conv_template.py:223-264  [parse_string], with fuel for the recursion *)
Fixpoint parse_string (fuel : nat) (s : str) (e : env) (level : nat) (line : Z) : outcome :=
  match fuel with
  | O => NoFuel
  | S k =>
      match parse_structure s level with
      | None => NoFuel
      | Some bs =>
          app_out (Text (S_ "#line " ++ dec line ++ [NL]))
            (app_out
               (match bs with
                | [] => sub_out e line s
                | _ => each_block (fun t d n => parse_string k t d (S level) n) s e line bs 0
                end)
               (Text [NL]))
      end
  end.

(** tools/conv_template.py:93-103  [header] *)
Definition header : str :=
  [NL] ++ S_ "/*" ++ [NL] ++
  S_ " *****************************************************************************" ++ [NL] ++
  S_ " **       This file was autogenerated from a template  DO NOT EDIT!!!!      **" ++ [NL] ++
  S_ " **       Changes should be made to the original source (.src) file         **" ++ [NL] ++
  S_ " *****************************************************************************" ++ [NL] ++
  S_ " */" ++ [NL] ++ [NL].
(** tools/conv_template.py:267-270  [process_str]: what [main] (lines 323-337) writes *)
Definition process_str (s : str) : outcome :=
  app_out (Text header) (parse_string (S (length s)) s [] 0 1).

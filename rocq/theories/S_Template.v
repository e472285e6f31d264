(** Specification for the template expander: templates as trees, the texts that spell them,
    and what they stand for. *)
From Coq Require Import ZArith Ascii String List.
From Verif Require Import M_Gen S_Gen M_Template.
Import ListNotations.
Open Scope Z_scope.

Definition whitespace : str := map ascii_of_nat [9; 10; 11; 12; 13; 28; 29; 30; 31; 32]%nat.
Definition blanks (s : str) : Prop := Forall (fun c => In c whitespace) s.
Definition word (s : str) : Prop := s <> [] /\ Forall (fun c => In c (letters ++ decimals)) s.
Definition lines (s : str) : Z := Z.of_nat (count_occ ascii_dec s (ascii_of_nat 10)).
(** p does not occur in s *)
Definition absent (p s : str) : Prop := forall a b, s <> a ++ p ++ b.
(** no occurrence of p starts inside s when s is followed by p *)
Definition clear_of (p s : str) : Prop := absent p (s ++ removelast p).

(** ** value lists: a value, a value times n, a list of them times n *)
Inductive item := One (v : str) | Many (v : str) (n : Z).
Inductive entry := Item (i : item) | Group (l : list item) (n : Z).
Definition item_values (i : item) : list str :=
  match i with One v => [v] | Many v n => repeat v (Z.to_nat n) end.
Definition entry_items (e : entry) : list item :=
  match e with Item i => [i] | Group l n => concat (repeat l (Z.to_nat n)) end.
Definition values (l : list entry) : list str := concat (map item_values (concat (map entry_items l))).

(** a value: no punctuation of the notation, no white space at its ends *)
Definition value (v : str) : Prop :=
  Forall (fun c => ~ In c (S_ ",#*()")) v /\
  (forall c r, v = c :: r \/ v = r ++ [c] -> ~ In c whitespace).
Inductive spells_item : item -> str -> Prop :=
| s_one a v b : blanks a -> blanks b -> value v -> spells_item (One v) (a ++ v ++ b)
| s_many a v d n b : blanks a -> blanks b -> value v -> v <> [] -> numeral d n -> 1 <= n ->
    spells_item (Many v n) (a ++ v ++ S_ "*" ++ d ++ b).
Inductive spells_entry : entry -> str -> Prop :=
| s_item i t : spells_item i t -> spells_entry (Item i) t
| s_group a l ts d n b : blanks a -> blanks b -> l <> [] -> Forall2 spells_item l ts -> numeral d n -> 1 <= n ->
    spells_entry (Group l n) (a ++ S_ "(" ++ join (S_ ",") ts ++ S_ ")*" ++ d ++ b).
Definition spells_values (l : list entry) (t : str) : Prop :=
  l <> [] /\ exists ts, Forall2 spells_entry l ts /\ t = join (S_ ",") ts.

(** ** the comment that starts a block *)
(** [folded raw clean]: [clean] is [raw] with its lines joined: a newline, the white space
    after it and one asterisk are dropped *)
Inductive folded : str -> str -> Prop :=
| f_nil : folded [] []
| f_char c r s : c <> ascii_of_nat 10 -> folded r s -> folded (c :: r) (c :: s)
| f_star ws r s : blanks ws -> folded r s -> folded (ascii_of_nat 10 :: ws ++ S_ "*" ++ r) s
| f_break ws r s : blanks ws -> (forall c q, r = c :: q -> ~ In c (ch "*" :: whitespace)) -> folded r s ->
    folded (ascii_of_nat 10 :: ws ++ r) s.
(** [#name = values#] *)
Inductive spells_decl : str * list entry -> str -> Prop :=
| s_decl a name b l t : blanks a -> word name -> blanks b -> spells_values l t ->
    spells_decl (name, l) (S_ "#" ++ a ++ name ++ b ++ S_ "=" ++ t ++ S_ "#").
Inductive spells_decls : list (str * list entry) -> str -> Prop :=
| s_gap g : ~ In (ch "#") g -> spells_decls [] g
| s_next g d t ds r : ~ In (ch "#") g -> spells_decl d t -> spells_decls ds r -> spells_decls (d :: ds) (g ++ t ++ r).
Inductive spells_heading (level : nat) (ds : list (str * list entry)) : str -> Prop :=
| s_heading raw trail clean : absent (S_ "*/") (raw ++ S_ "*") -> ~ In (ascii_of_nat 10) trail ->
    folded (loopbeg level ++ raw ++ S_ "*/" ++ trail ++ [ascii_of_nat 10]) clean -> spells_decls ds clean ->
    spells_heading level ds (loopbeg level ++ raw ++ S_ "*/" ++ trail ++ [ascii_of_nat 10]).

(** ** templates *)
Inductive tok := Lit (s : str) | Var (name : str).
Record heading := mkHead { h_text : str; h_decls : list (str * list entry) }.
(** text, then a block (heading, body, the rest of the line of the end marker), and so on *)
Inductive template := Last (x : list tok) | Block (pre : list tok) (h : heading) (body : template) (trail : str) (rest : template).

Definition tok_src (t : tok) : str := match t with Lit s => s | Var n => S_ "@" ++ n ++ S_ "@" end.
Definition text_src (x : list tok) : str := concat (map tok_src x).
Fixpoint src (level : nat) (t : template) : str :=
  match t with
  | Last x => text_src x
  | Block pre h body trail rest =>
      text_src pre ++ h_text h ++ src (S level) body ++ loopend level ++ trail ++ [ascii_of_nat 10] ++ src level rest
  end.
Definition good_tok (t : tok) : Prop := match t with Lit s => ~ In (ch "@") s | Var n => word n end.
Fixpoint good (level : nat) (t : template) : Prop :=
  match t with
  | Last x => Forall good_tok x /\ absent (loopbeg level) (text_src x)
  | Block pre h body trail rest =>
      Forall good_tok pre /\ clear_of (loopbeg level) (text_src pre) /\
      NoDup (map fst (h_decls h)) /\ spells_heading level (h_decls h) (h_text h) /\
      clear_of (loopend level) (src (S level) body) /\ good (S level) body /\
      ~ In (ascii_of_nat 10) trail /\ good level rest
  end.

(** ** meaning *)
(** the assignments of a heading: the i-th gives every name its i-th value *)
Definition settings (ds : list (str * list entry)) : error + list (list (str * str)) :=
  match ds with
  | [] => inl NoVariables
  | (_, l0) :: _ =>
      if List.forallb (fun d => Nat.eqb (length (values (snd d))) (length (values l0))) ds
      then inr (map (fun i => map (fun d => (fst d, nth i (values (snd d)) [])) ds) (seq 0 (length (values l0))))
      else inl Mismatch
  end.
(** a name has the value of the outermost block that declares it *)
Fixpoint assoc (d : list (str * str)) (name : str) : option str :=
  match d with
  | [] => None
  | (k, v) :: d' => if list_eq_dec ascii_dec k name then Some v else assoc d' name
  end.
Definition extend (e : str -> option str) (d : list (str * str)) (name : str) : option str :=
  match e name with Some v => Some v | None => assoc d name end.

Definition andthen (a b : outcome) : outcome :=
  match a with Text x => match b with Text y => Text (x ++ y) | _ => b end | _ => a end.
Fixpoint text_out (e : str -> option str) (here : Z) (x : list tok) : outcome :=
  match x with
  | [] => Text []
  | Lit s :: x' => andthen (Text s) (text_out e here x')
  | Var n :: x' => match e n with
                   | Some v => andthen (Text v) (text_out e here x')
                   | None => ValueError here (Undefined n)
                   end
  end.
(** the expansion of a text that starts on line [pos] of the file, inside a body that
    starts on line [here]; a body is preceded by a directive with its line number *)
Fixpoint pieces (level : nat) (here pos : Z) (e : str -> option str) (t : template) : outcome :=
  match t with
  | Last x => text_out e here x
  | Block pre h body trail rest =>
      let L := pos + lines (text_src pre) + lines (h_text h) in
      andthen (text_out e here pre)
        (andthen
           (match settings (h_decls h) with
            | inl err => ValueError L err
            | inr ds => fold_right andthen (Text [])
                (map (fun d => andthen (Text (S_ "#line " ++ dec L ++ [ascii_of_nat 10]))
                                 (andthen (pieces (S level) L L (extend e d) body) (Text [ascii_of_nat 10]))) ds)
            end)
           (pieces level here (L + lines (src (S level) body) + 1) e rest))
  end.
Definition expansion (t : template) : outcome :=
  andthen (Text (header ++ S_ "#line 1" ++ [ascii_of_nat 10]))
    (andthen (pieces 0 1 1 (fun _ => None) t) (Text [ascii_of_nat 10])).

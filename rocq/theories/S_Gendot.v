(** * S_Gendot: what gendot(prod, sum) is expected to compute *)
From Coq Require Import ZArith Ascii String List.
From Verif Require Import CSem M_Gen M_Gendot.
Import ListNotations.
Open Scope Z_scope.

Section Spec.
  Context {B : Type}.
  (** the value [v] (its bytes) is stored at address [a] *)
  Definition stored (m : mem B) (a : Z) (v : list B) : Prop :=
    forall i, (i < length v)%nat -> m (a + Z.of_nat i) = nth_error v i.
  (** address [b] belongs to the object of [k] bytes at [a] *)
  Definition within (a : Z) (k : nat) (b : Z) : Prop := a <= b < a + Z.of_nat k.
  Definition allocated (m : mem B) (a : Z) (k : nat) : Prop := forall b, within a k b -> m b <> None.

  (** the call's operands: nloops rows of n items *)
  Record operand := { o_p : Z; o_row : Z; o_item : Z; o_size : nat; o_val : Z -> Z -> list B }.
  Definition item_at (o : operand) (j i : Z) : Z := o_p o + j * o_row o + i * o_item o.
  Definition holds (m : mem B) (o : operand) (nloops n : Z) : Prop :=
    forall j i, 0 <= j < nloops -> 0 <= i < n ->
      length (o_val o j i) = o_size o /\ stored m (item_at o j i) (o_val o j i).

  (** [nloops] output slots: allocated, apart from each other and from the items of [o] *)
  Definition slots (m : mem B) (pout s2 : Z) (size : nat) (nloops : Z) : Prop :=
    (forall j, 0 <= j < nloops -> allocated m (pout + j * s2) size) /\
    (forall j j' b, 0 <= j < nloops -> 0 <= j' < nloops -> j <> j' ->
       within (pout + j * s2) size b -> ~ within (pout + j' * s2) size b).
  Definition apart (o : operand) (pout s2 : Z) (size : nat) (nloops n : Z) : Prop :=
    forall j i j' b, 0 <= j < nloops -> 0 <= i < n -> 0 <= j' < nloops ->
      within (item_at o j i) (o_size o) b -> ~ within (pout + j' * s2) size b.

  (** the numbers 0 .. n-1 *)
  Definition upto (n : Z) : list Z := map Z.of_nat (seq 0 (Z.to_nat n)).
  (** the element-wise product of row [j] *)
  Definition products (f : list B -> list B -> list B) (x y : operand) (n j : Z) : list (list B) :=
    map (fun i => f (o_val x j i) (o_val y j i)) (upto n).
  (** reduction from the left *)
  Definition reduction (f : list B -> list B -> list B) (l : list (list B)) : list B :=
    match l with [] => [] | v :: l' => fold_left f l' v end.

  (** [m'] is [m] with slot j holding [res j], nothing else changed *)
  Definition delivered (m m' : mem B) (pout s2 : Z) (size : nat) (nloops : Z) (res : Z -> list B) : Prop :=
    (forall j, 0 <= j < nloops -> length (res j) = size /\ stored m' (pout + j * s2) (res j)) /\
    (forall b, (forall j, 0 <= j < nloops -> ~ within (pout + j * s2) size b) -> m' b = m b).
End Spec.

(** ** loop selection.  [prod_sig a b c] is NumPy's spelling of a loop type "ab->c". *)
Definition letter (c : ascii) : Prop := c <> ch " " /\ c <> ch "-" /\ c <> ch ">".
Definition loop_type (ins : list ascii) (o : ascii) : str := ins ++ S_ "->" ++ [o].
(** the composition "ab->c" then "c..c->d" *)
Definition composable (nin : nat) (prod_type sum_type : str) (a b c d : ascii) : Prop :=
  prod_type = loop_type [a; b] c /\ ~ In (ch "O") [a; b; c] /\ sum_type = loop_type (repeat c nin) d.

(** the type strings of a ufunc with [nin] inputs and one output *)
Definition types_ok (nin : nat) (types : list str) : Prop :=
  Forall (fun t => exists ins o, t = loop_type ins o /\ length ins = nin /\ Forall letter (o :: ins)) types.
(** lexicographic order of index pairs *)
Definition lex (p q : nat * nat) : Prop := (fst p < fst q \/ fst p = fst q /\ snd p < snd q)%nat.
(** an identifier: ASCII letters, digits and underscores, not starting with a digit *)
Definition between (lo hi : ascii) (c : ascii) : Prop := (nat_of_ascii lo <= nat_of_ascii c <= nat_of_ascii hi)%nat.
Definition word_start (c : ascii) : Prop := between "a" "z" c \/ between "A" "Z" c \/ c = "_"%char.
Definition identifier (s : str) : Prop :=
  exists c s', s = c :: s' /\ word_start c /\ Forall (fun c => word_start c \/ between "0" "9" c) s'.
(** an element-wise ufunc with two inputs; a gufunc "(name)->()" *)
Definition binary (f : ufunc) : Prop := u_signature f = None /\ u_nin f = 2 /\ u_nout f = 1.
Definition n_to_1 (f : ufunc) : Prop :=
  exists sig name, u_signature f = Some sig /\ u_nin f = 1 /\ u_nout f = 1 /\
    remove_char (ch " ") sig = S_ "(" ++ name ++ S_ ")->()" /\ identifier name.
(** the signatures NumPy reports for one input and one output: "(...)->(...)", where the dimension
    lists have no "-" *)
Definition one_in_one_out (f : ufunc) : Prop :=
  forall sig, u_signature f = Some sig -> u_nin f = 1 -> u_nout f = 1 ->
    exists i o, remove_char (ch " ") sig = S_ "(" ++ i ++ S_ ")->(" ++ o ++ S_ ")" /\ ~ In (ch "-") i /\ ~ In (ch "-") o.

(** NumPy's loop tables: the item sizes are those of the type characters *)
Definition prod_table {B} (types : list str) (loops : nat -> loop2 B) : Prop :=
  forall i a b c, nth_error types i = Some (loop_type [a; b] c) ->
    in1 (loops i) = dtype_itemsize a /\ in2 (loops i) = dtype_itemsize b /\ out2 (loops i) = dtype_itemsize c /\
    forall u v, length u = in1 (loops i) -> length v = in2 (loops i) -> length (fun2 (loops i) u v) = out2 (loops i).
Definition sum_table {B} (types : list str) (loops : nat -> sumloop B) : Prop :=
  forall j, match loops j with
  | Reduction L => forall a b c, nth_error types j = Some (loop_type [a; b] c) ->
      in1 L = dtype_itemsize a /\ in2 L = dtype_itemsize b /\ out2 L = dtype_itemsize c /\
      forall u v, length u = in1 L -> length v = in2 L -> length (fun2 L u v) = out2 L
  | Gufunc L => forall a c, nth_error types j = Some (loop_type [a] c) ->
      in_1 L = dtype_itemsize a /\ out1 L = dtype_itemsize c /\
      forall us, Forall (fun u => length u = in_1 L) us -> length (fun1 L us) = out1 L
  end.

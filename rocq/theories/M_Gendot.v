(** * M_Gendot: composition of two ufuncs (src/gendot/gendotmodule.c, ufunclab/_gendot_wrap.py)

    The item sizes matter here, so the memory is a map from addresses to bytes, shared by
    all operands and the temporary buffer.  A value of a NumPy type is the list of its bytes. *)
From Coq Require Import ZArith Bool Ascii String List.
From Verif Require Import CSem M_Stat M_Gen.
Import ListNotations.
Open Scope Z_scope.

(** ** bytes in memory *)
Section Bytes.
  Context {B : Type}.
  Fixpoint read_bytes (m : mem B) (a : Z) (k : nat) : M (list B) :=
    match k with
    | O => ret []
    | S k' => b <- load m a ;; r <- read_bytes m (a + 1) k' ;; ret (b :: r)
    end.
  Fixpoint write_bytes (m : mem B) (a : Z) (v : list B) : M (mem B) :=
    match v with
    | [] => ret m
    | b :: v' => m' <- store m a b ;; write_bytes m' (a + 1) v'
    end.
  (** memcpy(dst, src, k): undefined if the objects overlap *)
  Definition memcpy (m : mem B) (dst src : Z) (k : nat) : M (mem B) :=
    if (dst <? src + Z.of_nat k) && (src <? dst + Z.of_nat k) then ub
    else v <- read_bytes m src k ;; write_bytes m dst v.
  (** malloc: [tp] is the address that is returned, the contents are [junk] *)
  Definition malloc (m : mem B) (tp size : Z) (junk : Z -> B) : mem B :=
    fun a => if (tp <=? a) && (a <? tp + size) then Some (junk a) else m a.
  Definition free (m : mem B) (tp size : Z) : mem B :=
    fun a => if (tp <=? a) && (a <? tp + size) then None else m a.
End Bytes.

(** ** NumPy's inner loops (the contract of PyUFuncGenericFunction, not code of this repository)

    [loop2]: an element-wise inner loop with two inputs and one output; [loop1]: the inner
    loop of a gufunc with signature (n)->().  [in1], [in2], [out]: item sizes. *)
Record loop2 (B : Type) := mkL2 { in1 : nat; in2 : nat; out2 : nat; fun2 : list B -> list B -> list B }.
Record loop1 (B : Type) := mkL1 { in_1 : nat; out1 : nat; fun1 : list (list B) -> list B }.
Arguments mkL2 {B}. Arguments in1 {B}. Arguments in2 {B}. Arguments out2 {B}. Arguments fun2 {B}.
Arguments mkL1 {B}. Arguments in_1 {B}. Arguments out1 {B}. Arguments fun1 {B}.

Section Calls.
  Context {B : Type}.
  Definition call_loop2 (L : loop2 B) (a0 a1 a2 : Z) (n s0 s1 s2 : Z) (m : mem B) : M (mem B) :=
    for_each 0 n (fun i m =>
      x <- read_bytes m (a0 + i * s0) (in1 L) ;;
      y <- read_bytes m (a1 + i * s1) (in2 L) ;;
      write_bytes m (a2 + i * s2) (fun2 L x y)) m.
  Definition read_items (m : mem B) (a s : Z) (size : nat) (n : Z) : M (list (list B)) :=
    for_each 0 n (fun i l => x <- read_bytes m (a + i * s) size ;; ret (l ++ [x])) [].
  Definition call_loop1 (L : loop1 B) (a0 a1 : Z) (d0 d1 s0 s1 s2 : Z) (m : mem B) : M (mem B) :=
    for_each 0 d0 (fun i m =>
      xs <- read_items m (a0 + i * s0) s2 (in_1 L) d1 ;;
      write_bytes m (a1 + i * s1) (fun1 L xs)) m.

  (** src/gendot/gendotmodule.c:49-78  [reduce].  The pointer [data] after k increments is
      data + k*stride; [int k] may not pass INT_MAX. *)
  Definition reduce (L : loop2 B) (data n stride : Z) (itemsize : nat) (result : Z) (m : mem B) : M (mem B) :=
    if n <=? 0 then ret m
    else
      m <- memcpy m result data itemsize ;;
      if n =? 1 then ret m
      else if n <=? INT_MAX then
        for_each 1 n (fun k m => call_loop2 L result (data + k * stride) result 1 stride stride stride m) m
      else ub.

  (** gendotmodule.c:14-25  [gendot_data_t]; [sum_loop] is chosen by sumfunc_nin (2 or 1) *)
  Inductive sumloop := Reduction (L : loop2 B) | Gufunc (L : loop1 B).
  Record gendot_data := mkG
    { prod_loop : loop2 B; sum_loop : sumloop; itemsize : nat; identity_buffer : option (list B) }.

  Inductive outcome := Done (m : mem B) | ValueErr (m : mem B) | MemoryErr (m : mem B).

  (** gendotmodule.c:81-191  [gendot_loop].  [tp = None]: malloc returns NULL.  The pointers
      px, py, pout after j increments are px + j*s0, py + j*s1, pout + j*s2. *)
  Definition gendot_loop (d : gendot_data) (px py pout : Z) (nloops n : Z) (s0 s1 s2 s3 s4 : Z)
             (tp : option Z) (junk : Z -> B) (m : mem B) : M outcome :=
    let isz := Z.of_nat (itemsize d) in
    if n =? 0 then
      match identity_buffer d with
      | Some id =>
          m <- int_for_each nloops (fun j m => write_bytes m (pout + j * s2) (firstn (itemsize d) id)) m ;;
          ret (Done m)
      | None => ret (ValueErr m)
      end
    else
      match tp with
      | None => ret (MemoryErr m)
      | Some tmp =>
          let m := malloc m tmp (n * isz) junk in
          m <- match sum_loop d with
               | Reduction L =>
                   int_for_each nloops (fun j m =>
                     m <- call_loop2 (prod_loop d) (px + j * s0) (py + j * s1) tmp n s3 s4 isz m ;;
                     reduce L tmp n isz (itemsize d) (pout + j * s2) m) m
               | Gufunc L =>
                   int_for_each nloops (fun j m =>
                     m <- call_loop2 (prod_loop d) (px + j * s0) (py + j * s1) tmp n s3 s4 isz m ;;
                     call_loop1 L tmp (pout + j * s2) 1 n 0 0 isz m) m
               end ;;
          ret (Done (free m tmp (n * isz)))
      end.
End Calls.
Arguments sumloop : clear implicits. Arguments gendot_data : clear implicits. Arguments outcome : clear implicits.

(** ** ufunclab/_gendot_wrap.py *)

(** what the wrapper looks at of a ufunc object: [signature], [nin], [nout], [types] *)
Record ufunc := mkU { u_signature : option str; u_nin : Z; u_nout : Z; u_types : list str }.

(** Python's str.isidentifier for ASCII text *)
Definition is_alpha (c : ascii) : bool :=
  let n := Z.of_nat (nat_of_ascii c) in
  ((65 <=? n) && (n <=? 90)) || ((97 <=? n) && (n <=? 122)) || (n =? 95).
Definition isidentifier (s : str) : bool :=
  match s with
  | [] => false
  | c :: s' => is_alpha c && forallb (fun c => is_alpha c || isdigit c) s'
  end.
(** [s[1:-1]] *)
Definition strip_ends (s : str) : str := removelast (tl s).

(** ufunclab/_gendot_wrap.py:51-59  [_check_ufunc1]; true: no exception *)
Definition check_ufunc1 (f : ufunc) : bool :=
  match u_signature f with Some _ => false | None => (u_nin f =? 2) && (u_nout f =? 1) end
  && (Z.of_nat (length (u_types f)) <=? 256).
(** ufunclab/_gendot_wrap.py:62-73  [_check_n_to_1]; a NumPy signature has exactly one "->" *)
Definition check_n_to_1 (f : ufunc) : bool :=
  match u_signature f with
  | None => false
  | Some sig =>
      if negb (u_nin f =? 1) || negb (u_nout f =? 1) then false
      else match split_on (S_ "->") (remove_char (ch " ") sig) with
           | [sigin; sigout] => if negb (eqs sigout (S_ "()")) then false else isidentifier (strip_ends sigin)
           | _ => false
           end
  end.
(** ufunclab/_gendot_wrap.py:76-86  [_check_ufunc2] *)
Definition check_ufunc2 (f : ufunc) : bool :=
  ((match u_signature f with Some _ => false | None => (u_nin f =? 2) && (u_nout f =? 1) end) || check_n_to_1 f)
  && (Z.of_nat (length (u_types f)) <=? 256).

(** [enumerate] *)
Fixpoint enum_from {A} (i : nat) (l : list A) : list (nat * A) :=
  match l with [] => [] | x :: l' => (i, x) :: enum_from (S i) l' end.
Definition last_char (s : str) : ascii := last s Ascii.zero.
Definition input_part (s : str) : str := hd [] (split_on (S_ "->") s).

(** ufunclab/_gendot_wrap.py:162-173: the loop pairs, in order.  An entry is the index pair and the
    two type strings. *)
Definition select_loops (prod_types sum_types : list str) (nin : Z) : list (nat * nat * str * str) :=
  flat_map (fun '(i, prod_type) =>
    if existsb (Ascii.eqb (ch "O")) prod_type then []
    else
      let prod_outtype := last_char (remove_char (ch " ") prod_type) in
      flat_map (fun '(j, sum_type) =>
        let sum_intype := input_part (remove_char (ch " ") sum_type) in
        if eqs sum_intype (repeat prod_outtype (Z.to_nat nin)) then [(i, j, prod_type, sum_type)] else [])
        (enum_from 0 sum_types))
    (enum_from 0 prod_types).

(** np.dtype(c).itemsize on x86-64 Linux *)
Definition dtype_itemsize (c : ascii) : nat :=
  let find := fix find (l : list (string * nat)) : nat :=
    match l with [] => O | (s, n) :: l' => if Ascii.eqb c (ch s) then n else find l' end in
  find [("?", 1); ("b", 1); ("B", 1); ("h", 2); ("H", 2); ("i", 4); ("I", 4); ("l", 8); ("L", 8); ("q", 8); ("Q", 8);
        ("e", 2); ("f", 4); ("d", 8); ("g", 16); ("F", 8); ("D", 16); ("G", 32); ("m", 8); ("M", 8); ("O", 8); ("p", 8)]%string%nat.

(** gendotmodule.c:38-41, _gendot_wrap.py:182: the indices are stored as uint8 *)
Definition as_uint8 (i : nat) : nat := Nat.modulo i 256.

(** One entry of the table that is registered: the three type characters
    (_gendot_wrap.py:174-175: prod_type[:2] + sum_type[-1]), the two loop indices as read back by
    gendotmodule.c:311-312, and the item size (_gendot_wrap.py:176-177). *)
Record entry := mkE { e_chars : str; e_prod : nat; e_sum : nat; e_size : nat }.
Definition make_entry (s : nat * nat * str * str) : entry :=
  let '(i, j, prod_type, sum_type) := s in
  mkE (firstn 2 prod_type ++ [last_char sum_type]) (as_uint8 i) (as_uint8 j) (dtype_itemsize (last_char sum_type)).

(** ufunclab/_gendot_wrap.py:89-198 [gendot] up to the call of [_gendot]; [None]: ValueError.
    Names and docstrings are left out. *)
Definition gendot (prodfunc sumfunc : ufunc) : option (list entry) :=
  if check_ufunc1 prodfunc then
    if check_ufunc2 sumfunc then
      Some (map make_entry (select_loops (u_types prodfunc) (u_types sumfunc) (u_nin sumfunc)))
    else None
  else None.

(** gendotmodule.c:308-325: the data of one entry.  [prod_loops], [sum_loops]: the function tables of
    the two ufuncs; [identity c]: the bytes of the sum's identity converted to type c, if it has one
    (_gendot_wrap.py:186-194, a row of 32 bytes). *)
Definition entry_data {B} (prod_loops : nat -> loop2 B) (sum_loops : nat -> sumloop B)
           (identity : option (ascii -> list B)) (zero : B) (e : entry) : gendot_data B :=
  mkG (prod_loops (e_prod e)) (sum_loops (e_sum e)) (e_size e)
      (match identity with
       | Some f =>
           let row := f (last_char (e_chars e)) in
           Some (firstn (e_size e) (row ++ repeat zero (32 - length row)))
       | None => None
       end).

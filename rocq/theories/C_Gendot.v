(** Property theorems C48: gendot composes an element-wise product with a reduction. *)
From Coq Require Import ZArith Bool Ascii String List Lia Sorting.Sorted.
From Verif Require Import CSem M_Stat M_Gen M_Types S_Types M_Gendot S_Gendot P_Gendot.
Import ListNotations.
Open Scope Z_scope.
Open Scope list_scope.

(** the sizes of the items that are written: a type that the package's loops can name occupies the bits of its format *)
Theorem C48_itemsize :
  forall c t, dt_of_char c = Some t -> 8 * Z.of_nat (dtype_itemsize c) = item_bits t.
Proof. exact @itemsize_bits. Qed.
Print Assumptions C48_itemsize.

Example C48_itemsize_ex :
  dt_of_char (ch "f") = Some Tfloat /\ item_bits Tfloat = 32 /\ dt_of_char (ch "D") = Some Tcdouble /\ item_bits Tcdouble = 128
  /\ dt_of_char (ch "H") = Some Tu16 /\ item_bits Tu16 = 16.
Proof. repeat split; reflexivity. Qed.

(** which ufuncs are accepted, and the table of loops built from them *)
Theorem C48_accepts :
  forall p s,
  one_in_one_out s ->
   gendot p s <> None <->
   binary p /\ (binary s \/ n_to_1 s) /\ (length (u_types p) <= 256)%nat /\ (length (u_types s) <= 256)%nat.
Proof. exact @gendot_accepts. Qed.
Print Assumptions C48_accepts.

Theorem C48_entries :
  forall p s es nin,
  types_ok 2 (u_types p) -> u_nin s = Z.of_nat nin -> types_ok nin (u_types s) ->
   gendot p s = Some es ->
   (forall e, In e es <-> exists i j pt st a b c d, nth_error (u_types p) i = Some pt /\ nth_error (u_types s) j = Some st /\
      composable nin pt st a b c d /\ e = mkE [a; b; d] i j (dtype_itemsize d)) /\
   StronglySorted lex (map (fun e => (e_prod e, e_sum e)) es).
Proof. exact @gendot_entries. Qed.
Print Assumptions C48_entries.

(** the result, when the sum's loop returns the type it takes *)
Theorem C48_call_partial :
  forall {B} p s es e (prod_loops : nat -> loop2 B) (sum_loops : nat -> sumloop B) identity zero i j a b c m (x y : operand) pout s2 nloops n tmp junk nin,
  types_ok 2 (u_types p) -> u_nin s = Z.of_nat nin -> types_ok nin (u_types s) ->
  prod_table (u_types p) prod_loops -> sum_table (u_types s) sum_loops ->
  (match sum_loops j with Reduction _ => nin = 2%nat | Gufunc _ => nin = 1%nat end) ->
  gendot p s = Some es -> In e es -> e = mkE [a; b; c] i j (dtype_itemsize c) ->
  nth_error (u_types p) i = Some (loop_type [a; b] c) -> nth_error (u_types s) j = Some (loop_type (repeat c nin) c) ->
  0 <= nloops <= INT_MAX -> 1 <= n <= INT_MAX ->
  o_size x = dtype_itemsize a -> o_size y = dtype_itemsize b ->
  holds m x nloops n -> holds m y nloops n -> slots m pout s2 (dtype_itemsize c) nloops ->
  apart x pout s2 (dtype_itemsize c) nloops n -> apart y pout s2 (dtype_itemsize c) nloops n ->
  (forall b, tmp <= b < tmp + n * Z.of_nat (dtype_itemsize c) -> m b = None) ->
  exists m', gendot_loop (entry_data prod_loops sum_loops identity zero e) (o_p x) (o_p y) pout nloops n
               (o_row x) (o_row y) s2 (o_item x) (o_item y) (Some tmp) junk m = Some (Done m') /\
    delivered m m' pout s2 (dtype_itemsize c) nloops
      (fun r => match sum_loops j with
                | Reduction L => reduction (fun2 L) (products (fun2 (prod_loops i)) x y n r)
                | Gufunc L => fun1 L (products (fun2 (prod_loops i)) x y n r)
                end).
Proof. exact @gendot_call_ok. Qed.
Print Assumptions C48_call_partial.

Theorem C48_reduce :
  forall {B : Type} (d : gendot_data B) (Ls : loop2 B) m (x y : operand) pout s2 nloops n tmp junk,
  sum_loop d = Reduction Ls ->
  0 <= nloops <= INT_MAX -> 1 <= n <= INT_MAX ->
  (* the item sizes of the two loops agree *)
  out2 (prod_loop d) = itemsize d -> in1 Ls = itemsize d -> in2 Ls = itemsize d -> out2 Ls = itemsize d ->
  (forall u v, length u = in1 (prod_loop d) -> length v = in2 (prod_loop d) ->
     length (fun2 (prod_loop d) u v) = out2 (prod_loop d)) ->
  (forall u v, length u = in1 Ls -> length v = in2 Ls -> length (fun2 Ls u v) = out2 Ls) ->
  (* the operands *)
  o_size x = in1 (prod_loop d) -> o_size y = in2 (prod_loop d) ->
  holds m x nloops n -> holds m y nloops n -> slots m pout s2 (itemsize d) nloops ->
  apart x pout s2 (itemsize d) nloops n -> apart y pout s2 (itemsize d) nloops n ->
  (* malloc returns unused memory *)
  (forall b, tmp <= b < tmp + n * Z.of_nat (itemsize d) -> m b = None) ->
  exists m', gendot_loop d (o_p x) (o_p y) pout nloops n (o_row x) (o_row y) s2 (o_item x) (o_item y) (Some tmp) junk m
             = Some (Done m') /\
    delivered m m' pout s2 (itemsize d) nloops
      (fun j => reduction (fun2 Ls) (products (fun2 (prod_loop d)) x y n j)).
Proof. exact @gendot_reduce_ok. Qed.
Print Assumptions C48_reduce.

Theorem C48_gufunc :
  forall {B : Type} (d : gendot_data B) (Ls : loop1 B) m (x y : operand) pout s2 nloops n tmp junk,
  sum_loop d = Gufunc Ls ->
  0 <= nloops <= INT_MAX -> 1 <= n ->
  out2 (prod_loop d) = itemsize d -> in_1 Ls = itemsize d -> out1 Ls = itemsize d ->
  (forall u v, length u = in1 (prod_loop d) -> length v = in2 (prod_loop d) ->
     length (fun2 (prod_loop d) u v) = out2 (prod_loop d)) ->
  (forall us, Forall (fun u => length u = in_1 Ls) us -> length (fun1 Ls us) = out1 Ls) ->
  o_size x = in1 (prod_loop d) -> o_size y = in2 (prod_loop d) ->
  holds m x nloops n -> holds m y nloops n -> slots m pout s2 (itemsize d) nloops ->
  apart x pout s2 (itemsize d) nloops n -> apart y pout s2 (itemsize d) nloops n ->
  (forall b, tmp <= b < tmp + n * Z.of_nat (itemsize d) -> m b = None) ->
  exists m', gendot_loop d (o_p x) (o_p y) pout nloops n (o_row x) (o_row y) s2 (o_item x) (o_item y) (Some tmp) junk m
             = Some (Done m') /\
    delivered m m' pout s2 (itemsize d) nloops (fun j => fun1 Ls (products (fun2 (prod_loop d)) x y n j)).
Proof. exact @gendot_gufunc_ok. Qed.
Print Assumptions C48_gufunc.

(** n = 0 *)
Theorem C48_empty :
  forall {B : Type} (d : gendot_data B) m px py pout s0 s1 s2 s3 s4 nloops tp junk,
  0 <= nloops <= INT_MAX -> slots m pout s2 (itemsize d) nloops ->
  match identity_buffer d with
  | Some id => (itemsize d <= length id)%nat ->
      exists m', gendot_loop d px py pout nloops 0 s0 s1 s2 s3 s4 tp junk m = Some (Done m') /\
        delivered m m' pout s2 (itemsize d) nloops (fun _ => firstn (itemsize d) id)
  | None => gendot_loop d px py pout nloops 0 s0 s1 s2 s3 s4 tp junk m = Some (ValueErr m)
  end.
Proof. exact @gendot_empty. Qed.
Print Assumptions C48_empty.

(** what is missing in [C48_call_partial]: the table also contains loop pairs whose sum changes the
    type *)
Theorem C48_smaller_result :
  forall {B} p s es e (prod_loops : nat -> loop2 B) (sum_loops : nat -> sumloop B) identity zero i j a b c d nin m px py pout s0 s1 s2 s3 s4 nloops n tmp junk,
  types_ok 2 (u_types p) -> u_nin s = Z.of_nat nin -> types_ok nin (u_types s) ->
  prod_table (u_types p) prod_loops -> (forall u v, length (fun2 (prod_loops i) u v) = out2 (prod_loops i)) ->
  gendot p s = Some es -> e = mkE [a; b; d] i j (dtype_itemsize d) ->
  nth_error (u_types p) i = Some (loop_type [a; b] c) -> nth_error (u_types s) j = Some (loop_type (repeat c nin) d) ->
  ~ In (ch "O") [a; b; c] ->
  (dtype_itemsize d < dtype_itemsize c)%nat ->
  1 <= nloops <= INT_MAX -> 1 <= n ->
  m (tmp + n * Z.of_nat (dtype_itemsize d)) = None ->
  In e es /\
  gendot_loop (entry_data prod_loops sum_loops identity zero e) px py pout nloops n s0 s1 s2 s3 s4 (Some tmp) junk m = None.
Proof. exact @gendot_entry_overflow. Qed.
Print Assumptions C48_smaller_result.

Theorem C48_retyped_result :
  forall {B} p s es e (prod_loops : nat -> loop2 B) (sum_loops : nat -> sumloop B) identity zero L i j a b c d m (x y : operand) pout s2 nloops tmp junk,
  types_ok 2 (u_types p) -> u_nin s = 2 -> types_ok 2 (u_types s) ->
  prod_table (u_types p) prod_loops -> sum_table (u_types s) sum_loops -> sum_loops j = Reduction L ->
  gendot p s = Some es -> e = mkE [a; b; d] i j (dtype_itemsize d) ->
  nth_error (u_types p) i = Some (loop_type [a; b] c) -> nth_error (u_types s) j = Some (loop_type [c; c] d) ->
  ~ In (ch "O") [a; b; c] -> dtype_itemsize d = dtype_itemsize c ->
  0 <= nloops <= INT_MAX ->
  o_size x = dtype_itemsize a -> o_size y = dtype_itemsize b ->
  holds m x nloops 1 -> holds m y nloops 1 -> slots m pout s2 (dtype_itemsize d) nloops ->
  apart x pout s2 (dtype_itemsize d) nloops 1 -> apart y pout s2 (dtype_itemsize d) nloops 1 ->
  (forall b, tmp <= b < tmp + Z.of_nat (dtype_itemsize d) -> m b = None) ->
  In e es /\
  exists m', gendot_loop (entry_data prod_loops sum_loops identity zero e) (o_p x) (o_p y) pout nloops 1
               (o_row x) (o_row y) s2 (o_item x) (o_item y) (Some tmp) junk m = Some (Done m') /\
    delivered m m' pout s2 (dtype_itemsize d) nloops (fun r => fun2 (prod_loops i) (o_val x r 0) (o_val y r 0)).
Proof. exact @gendot_entry_retyped. Qed.
Print Assumptions C48_retyped_result.

(** ** Concrete cases.  Bytes are integers here; "multiply" and "add" on little-endian 16-bit
    integers, and "not_equal" from 16-bit integers to bool. *)
Definition le16 (v : list Z) : Z := match v with [a; b] => a + 256 * b | _ => 0 end.
Definition bytes16 (x : Z) : list Z := [x mod 256; x / 256 mod 256].
Definition mul16 : loop2 Z := mkL2 2 2 2 (fun u v => bytes16 (le16 u * le16 v)).
Definition add16 : loop2 Z := mkL2 2 2 2 (fun u v => bytes16 (le16 u + le16 v)).
Definition ne16 : loop2 Z := mkL2 2 2 1 (fun u v => [if le16 u =? le16 v then 0 else 1]).
Definition max16 : loop1 Z := mkL1 2 2 (fun us => bytes16 (fold_right Z.max 0 (map le16 us))).
Definition multiply : ufunc := mkU None 2 1 [S_ "HH->H"; S_ "dd->d"; S_ "OO->O"].
Definition add : ufunc := mkU None 2 1 [S_ "??->?"; S_ "HH->H"; S_ "dd->d"; S_ "OO->O"].
Definition not_equal : ufunc := mkU None 2 1 [S_ "HH->?"; S_ "OO->?"].
Definition maximum1 : ufunc := mkU (Some (S_ "( n ) -> ()")) 1 1 [S_ "H->H"].

Example C48_entries_example :
  (gendot multiply add = Some [mkE (S_ "HHH") 0 1 2; mkE (S_ "ddd") 1 2 8] /\
   gendot multiply maximum1 = Some [mkE (S_ "HHH") 0 0 2] /\
   gendot maximum1 add = None /\ types_ok 2 (u_types multiply) /\ types_ok 2 (u_types add) /\ types_ok 1 (u_types maximum1) /\
   one_in_one_out maximum1).
Proof.
  assert (L : forall c, In c (list_ascii_of_string "HdO?") -> letter c).
  { intros c Hc. cbn in Hc. repeat destruct Hc as [<-|Hc]; try (repeat split; discriminate). contradiction. }
  split; [reflexivity|]. split; [reflexivity|]. split; [reflexivity|].
  split; [|split; [|split]].
  - repeat constructor; [exists (S_ "HH"), (ch "H")|exists (S_ "dd"), (ch "d")|exists (S_ "OO"), (ch "O")];
      (split; [reflexivity|]; split; [reflexivity|]; repeat constructor; discriminate).
  - repeat constructor; [exists (S_ "??"), (ch "?")|exists (S_ "HH"), (ch "H")|exists (S_ "dd"), (ch "d")|exists (S_ "OO"), (ch "O")];
      (split; [reflexivity|]; split; [reflexivity|]; repeat constructor; discriminate).
  - repeat constructor. exists (S_ "H"), (ch "H"). (split; [reflexivity|]; split; [reflexivity|]; repeat constructor; discriminate).
  - intros sig [= <-] _ _. exists (S_ "n"), []. split; [reflexivity|]. split; [|easy]. intros [E|[]]. discriminate.
Qed.

(** two rows; the first operand is read backwards (item stride -2), the second is broadcast over the
    rows (row stride 0) *)
Definition xmem : list Z := [3; 0;  2; 0;  1; 0;   30; 0;  20; 0;  10; 1].
Definition ymem : list Z := [5; 0;  6; 0;  7; 0].
Definition mem0 : mem Z := fun a =>
  if (0 <=? a) && (a <? 12) then nth_error xmem (Z.to_nat a)
  else if (100 <=? a) && (a <? 106) then nth_error ymem (Z.to_nat (a - 100))
  else if (200 <=? a) && (a <? 208) then Some 77 else None.
Definition opx : operand := {| o_p := 4; o_row := 6; o_item := -2; o_size := 2;
  o_val := fun j i => firstn 2 (skipn (Z.to_nat (4 + 6 * j - 2 * i)) xmem) |}.
Definition opy : operand := {| o_p := 100; o_row := 0; o_item := 2; o_size := 2;
  o_val := fun j i => firstn 2 (skipn (Z.to_nat (2 * i)) ymem) |}.

Example C48_reduce_example :
  (holds mem0 opx 2 3 /\ holds mem0 opy 2 3 /\ slots mem0 200 4 2 2 /\ apart opx 200 4 2 2 3 /\ apart opy 200 4 2 2 3 /\
   (forall b, 1000 <= b < 1000 + 3 * 2 -> mem0 b = None) /\
   reduction (fun2 add16) (products (fun2 mul16) opx opy 3 0) = bytes16 (1*5 + 2*6 + 3*7) /\
   reduction (fun2 add16) (products (fun2 mul16) opx opy 3 1) = bytes16 (266*5 + 20*6 + 30*7) /\
   exists m', gendot_loop (mkG mul16 (Reduction add16) 2 None) 4 100 200 2 3 6 0 4 (-2) 2 (Some 1000) (fun _ => 99) mem0
     = Some (Done m') /\ map m' [200; 201; 202; 203; 204; 205; 206] = map Some [38; 0; 77; 77; 124; 6; 77]).
Proof.
  split; [|split; [|split; [|split; [|split; [|split; [|split; [|split]]]]]]].
  - intros j i Hj Hi. assert (j = 0 \/ j = 1) as [-> | ->] by lia; assert (i = 0 \/ i = 1 \/ i = 2) as [-> | [-> | ->]] by lia;
      (split; [reflexivity|]); intros k Hk; change (k < 2)%nat in Hk; do 2 (destruct k as [|k]; [reflexivity|]); lia.
  - intros j i Hj Hi. assert (i = 0 \/ i = 1 \/ i = 2) as [-> | [-> | ->]] by lia;
      (split; [reflexivity|]); intros k Hk; unfold item_at; cbn [opy o_p o_row o_item o_val]; rewrite Z.mul_0_r, Z.add_0_r;
      change (k < 2)%nat in Hk; do 2 (destruct k as [|k]; [reflexivity|]); lia.
  - split.
    + intros j Hj b Hb. unfold within in Hb. unfold mem0.
      destruct (Z.leb_spec 0 b), (Z.ltb_spec b 12), (Z.leb_spec 100 b), (Z.ltb_spec b 106), (Z.leb_spec 200 b), (Z.ltb_spec b 208);
        cbn [andb]; try lia; discriminate.
    + intros j j' b Hj Hj' Hn Hb Hb'. unfold within in *. lia.
  - intros j i j' b Hj Hi Hj' Hb Hb'. unfold within, item_at in *. cbn [opx opy o_p o_row o_item o_size] in *. lia.
  - intros j i j' b Hj Hi Hj' Hb Hb'. unfold within, item_at in *. cbn [opx opy o_p o_row o_item o_size] in *. lia.
  - intros b Hb. unfold mem0.
    destruct (Z.leb_spec 0 b), (Z.ltb_spec b 12), (Z.leb_spec 100 b), (Z.ltb_spec b 106), (Z.leb_spec 200 b), (Z.ltb_spec b 208);
        cbn [andb]; try lia; reflexivity.
  - vm_compute. reflexivity.
  - vm_compute. reflexivity.
  - eexists. split; [cbv - [Z.add Z.mul Z.leb Z.ltb Z.eqb andb nth_error Z.to_nat Z.sub Z.of_nat Z.modulo Z.div firstn skipn orb]; reflexivity|vm_compute; reflexivity].
Qed.

(** gendot(multiply, not_equal): the loop pair ("HH->H", "HH->?") is in the table, and every call
    with n >= 1 writes past the end of the temporary buffer *)
Theorem C48_no_overflow_refuted :
  exists (p s : ufunc) es e (prod_loops : nat -> loop2 Z) (sum_loops : nat -> sumloop Z),
    gendot p s = Some es /\ In e es /\ prod_table (u_types p) prod_loops /\ sum_table (u_types s) sum_loops /\
    forall px py pout s0 s1 s2 s3 s4 nloops n tmp junk m,
      1 <= nloops <= INT_MAX -> 1 <= n -> m (tmp + n) = None ->
      gendot_loop (entry_data prod_loops sum_loops None 0 e) px py pout nloops n s0 s1 s2 s3 s4 (Some tmp) junk m = None.
Proof.
  exists (mkU None 2 1 [S_ "HH->H"]), (mkU None 2 1 [S_ "HH->?"]), [mkE (S_ "HH?") 0 0 1], (mkE (S_ "HH?") 0 0 1),
    (fun _ => mul16), (fun _ => Reduction ne16).
  split; [reflexivity|]. split; [now left|]. split; [|split].
  - intros i a b c H. destruct i; [|destruct i; discriminate]. injection H as <- <- <-. repeat split.
  - intros j a b c H. destruct j; [|destruct j; discriminate]. injection H as <- <- <-. repeat split.
  - intros px py pout s0 s1 s2 s3 s4 nloops n tmp junk m HN Hn Hm.
    apply gendot_overflow; cbn [entry_data prod_loop itemsize e_size e_prod mul16 out2]; auto.
    now replace (n * Z.of_nat 1) with n by lia.
Qed.

Print Assumptions C48_no_overflow_refuted.

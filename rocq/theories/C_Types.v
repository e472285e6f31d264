(** Property theorems C63, C64: the inner loop chosen for given argument types. *)
From Coq Require Import ZArith Reals Bool Ascii String List Lia.
From Verif Require Import M_Gen M_Types S_Types P_Types.
Import ListNotations.
Open Scope Z_scope.

(** every list of type signatures of the package is well formed, and arguments that have
    exactly the input types of a registered loop are given to that loop *)
Theorem C63_own_loop : forall n o, In (n, o) all_tables ->
  exists t, o = Some t /\ forall r, In r t -> resolve t (fst r) = Some r.
Proof. exact own_loop. Qed.
Print Assumptions C63_own_loop.

(** the order of registration alone already ensures it: no loop is hidden by an earlier one,
    except long long by the equally wide long *)
Theorem C63_order : forall n t r, In (n, Some t) all_tables -> In r t ->
  exists r', linear t (fst r) = Some r' /\ Forall2 same_values (fst r') (fst r) /\ Forall2 same_values (snd r') (snd r).
Proof. exact linear_own. Qed.
Print Assumptions C63_order.

(** whatever the arguments, the chosen loop receives the caller's values: an argument
    changes only if it is a 64-bit integer above 2^53 in magnitude *)
Theorem C63_values : forall t args r, resolve t args = Some r ->
  In r t /\ length (fst r) = length args
  /\ forall k a b x y, nth_error args k = Some a -> nth_error (fst r) k = Some b ->
       value a x y -> (~ int64 a \/ (Rabs x <= IZR (2 ^ 53))%R) -> value b x y.
Proof. exact resolve_values. Qed.
Print Assumptions C63_values.

(** a floating-point function accepts arguments of any real types, mixed or not, and
    computes in the smallest of float, double and long double that all of them cast to *)
Theorem C63_least : forall n t args, In n real_functions -> In (n, Some t) all_tables -> Forall real_dt args ->
  (forall r, hd_error t = Some r -> length args = length (fst r)) ->
  exists c outs, In c reals /\ resolve t args = Some (repeat c (length args), outs)
    /\ Forall (fun a => can_cast a c = true) args
    /\ forall c', In c' reals -> Forall (fun a => can_cast a c' = true) args -> size_rank c <= size_rank c'.
Proof. exact named_least. Qed.
Print Assumptions C63_least.

Theorem C63_real_functions : forall n, In n real_functions -> exists t, In (n, Some t) all_tables.
Proof. exact named_exists. Qed.
Print Assumptions C63_real_functions.

Example C63_own_loop_ex : exists t, In (S_ "bincountw", Some t) all_tables /\ length t = 96%nat /\ In ([Tu16; Tdouble], [Tdouble]) t
  /\ resolve t [Tu16; Tdouble] = Some ([Tu16; Tdouble], [Tdouble]).
Proof.
  destruct (lookup (S_ "bincountw")) as [t |] eqn:E; [| vm_compute in E; discriminate E].
  exists t. split; [now apply lookup_In |].
  vm_compute in E. injection E as <-. split; [reflexivity |]. split; [| reflexivity].
  cbn [In]. tauto.
Qed.
Example C63_values_ex : exists t, In (S_ "pearson_corr", Some t) all_tables
  /\ resolve t [Tu8; Ti16] = Some ([Ti16; Ti16], [Tdouble]) /\ resolve t [Ti32; Tfloat] = Some ([Tdouble; Tdouble], [Tdouble]).
Proof.
  destruct (lookup (S_ "pearson_corr")) as [t |] eqn:E; [| vm_compute in E; discriminate E].
  exists t. split; [now apply lookup_In |]. vm_compute in E. injection E as <-. split; reflexivity.
Qed.
Example C63_least_ex : exists t, In (S_ "hypot3", Some t) all_tables /\ In (S_ "hypot3") real_functions
  /\ resolve t [Tu8; Thalf; Tfloat] = Some (repeat Tfloat 3, [Tfloat])
  /\ resolve t [Tu8; Tu32; Tfloat] = Some (repeat Tdouble 3, [Tdouble])
  /\ resolve t [Tlongdouble; Tu32; Tfloat] = Some (repeat Tlongdouble 3, [Tlongdouble]).
Proof.
  destruct (lookup (S_ "hypot3")) as [t |] eqn:E; [| vm_compute in E; discriminate E].
  exists t. split; [now apply lookup_In |]. split; [cbn [real_functions map In]; tauto |].
  vm_compute in E. injection E as <-. repeat split; reflexivity.
Qed.

(** a 64-bit integer argument can change: searchsorted of int64 data and a uint64 key
    compares doubles *)
Theorem C63_int64_refuted : exists t r x, In (S_ "searchsortedl", Some t) all_tables
    /\ resolve t [Ti64; Tu64] = Some r /\ fst r = [Tdouble; Tdouble]
    /\ value Ti64 x 0 /\ ~ value Tdouble x 0.
Proof. exact cast_loss. Qed.
Print Assumptions C63_int64_refuted.

(** the cross product of uint64 vectors is computed in double, too *)
Theorem C63_cross_refuted : exists t r x, In (S_ "cross3", Some t) all_tables
    /\ resolve t [Tu64; Tu64] = Some r /\ fst r = [Tdouble; Tdouble]
    /\ value Tu64 x 0 /\ ~ value Tdouble x 0.
Proof.
  destruct (lookup (S_ "cross3")) as [t |] eqn:E; [| vm_compute in E; discriminate E].
  exists t, ([Tdouble; Tdouble], [Tdouble]), (IZR (2 ^ 53 + 1)). split; [now apply lookup_In |].
  vm_compute in E. injection E as <-. split; [reflexivity |]. split; [reflexivity |]. split.
  - split; [| reflexivity]. exists (2 ^ 53 + 1). split; [reflexivity | lia].
  - intros [F _]. exact (not_double F).
Qed.
Print Assumptions C63_cross_refuted.

(** real arguments that some functions reject *)
Definition rejected : list (str * list dt) :=
  map (fun p => (S_ (fst p), snd p))
  [("wjaccard", [Tlongdouble; Tlongdouble]); ("percentileofscore", [Tlongdouble; Tlongdouble; Ti64]);
   ("debye1", [Tlongdouble]); ("loggamma1p", [Tlongdouble]); ("issnan", [Tlongdouble]);
   ("linear_interp1d", [Tlongdouble; Tlongdouble; Tlongdouble]);
   ("logfactorial", [Tu64]); ("one_hot", [Tu64]); ("convert_to_base", [Tu64; Ti64]);
   ("tri_area_indexed", [Tdouble; Tu64])]%string.
Theorem C63_total_refuted : forall n args, In (n, args) rejected ->
  Forall real_dt args /\ exists t, In (n, Some t) all_tables /\ (forall r, In r t -> length (fst r) = length args)
    /\ resolve t args = None.
Proof.
  assert (C : forallb (fun p => match lookup (fst p) with
      | Some t => forallb (fun r => Nat.eqb (length (fst r)) (length (snd p))) t
                  && match resolve t (snd p) with None => true | Some _ => false end
      | None => false end) rejected = true) by (vm_compute; reflexivity).
  intros n args I. rewrite forallb_forall in C. specialize (C _ I). cbn beta iota delta [fst snd] in C. split.
  - cbn [rejected map In fst snd] in I.
    repeat (destruct I as [I | I]; [injection I as _ <-; repeat constructor |]). destruct I.
  - destruct (lookup n) as [t |] eqn:E; [| discriminate C]. apply lookup_In in E. exists t. split; [exact E |].
    apply andb_prop in C as [C1 C2]. split.
    + intros r R. rewrite forallb_forall in C1. now apply Nat.eqb_eq, C1.
    + destruct (resolve t args); [discriminate C2 | reflexivity].
Qed.
Print Assumptions C63_total_refuted.

(** every loop function of the hand-written modules is registered for the types it reads
    and writes, and the arrays given to NumPy are long enough *)
Theorem C64_hand_written : forall m, In m c_mods -> consistent m.
Proof. exact mods_consistent. Qed.
Print Assumptions C64_hand_written.

Example C64_ex : exists m, In m c_mods /\ cm_name m = S_ "peaktopeak" /\ cm_ntypes m = 12%nat
  /\ code_row m 6 = Some ([Ti64], [Tu64]).
Proof.
  exists (nth 16 c_mods (CMod [] 0 0 0 0 [] [])). split; [apply nth_In; vm_compute; lia |].
  repeat split; vm_compute; reflexivity.
Qed.

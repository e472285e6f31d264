(** Property theorems C53 (lazy attribute loading), C55 (line folding) and C58 (parameter
    checks of the wrapper generator). *)
From Coq Require Import Sorted ZArith String List Ascii Bool Lia.
From Verif Require Import M_Gen M_Init M_Uwrap S_Py P_Py.
Import ListNotations.
Open Scope list_scope.

(** ** C53.  [after h] is the package namespace after the attribute accesses in [h]. *)
Theorem C53_public_names :
  forall h n,
  In n all_ ->
   exists m, (defines m n \/ (m = "ufunclab"%string /\ n = "op"%string)) /\
     forall h', fst (access n (after h)) = Value (if String.eqb m "ufunclab" then Own n else Obj m n) /\
                fst (access n (after (h ++ h'))) = fst (access n (after h)).
Proof. exact @public_names. Qed.
Print Assumptions C53_public_names.

Theorem C53_unknown_names :
  forall h n,
  ~ bound_at_import n -> ~ In n (map fst name_to_module) -> n <> "semivar"%string -> ~ submodule n ->
   access n (after h) = (Error AttributeError, after h).
Proof. exact @unknown_names. Qed.
Print Assumptions C53_unknown_names.

Theorem C53_only_attribute_errors :
  forall h n e,
  fst (access n (after h)) = Error e ->
   e = AttributeError /\ ~ In n all_ /\ n <> "semivar"%string.
Proof. exact @only_attribute_errors. Qed.
Print Assumptions C53_only_attribute_errors.

Theorem C53_semivar :
  forall h,
  fst (access "semivar" (after h)) = Value (Mod "semivar").
Proof. exact @semivar_loads. Qed.
Print Assumptions C53_semivar.

Theorem C53_all_contents :
  forall n,
  In n all_ <->
   (exists m, In (n, m) name_to_module) \/ n = "first"%string \/ n = "argfirst"%string \/ n = "op"%string \/ n = "percentileofscore"%string.
Proof. exact @all_contents. Qed.
Print Assumptions C53_all_contents.

Theorem C53_all_sorted :
  StronglySorted before all_.
Proof. exact @all_increasing. Qed.
Print Assumptions C53_all_sorted.

(** names bound when the package is imported *)
Theorem C53_eager_names :
  forall h,
  fst (access "erfcx" (after h)) = Value (Obj "normal" "erfcx") /\
  fst (access "normal" (after h)) = Value (Mod "normal") /\
  fst (access "first" (after h)) = Value (Obj "_first" "first") /\
  fst (access "argfirst" (after h)) = Value (Obj "_first" "argfirst") /\
  fst (access "percentileofscore" (after h)) = Value (Obj "_percentileofscore" "percentileofscore") /\
  fst (access "op" (after h)) = Value (Own "op").
Proof. exact @eager_names. Qed.
Print Assumptions C53_eager_names.
Theorem C53_deleted_names :
  forall h n,
  In n ["_np"; "_LT"; "_LE"; "_EQ"; "_NE"; "_GT"; "_GE"; "_RANK"; "_WEAK"; "_STRICT"; "_MEAN"]%string ->
   fst (access n (after h)) = Error AttributeError.
Proof. exact @deleted_names. Qed.
Print Assumptions C53_deleted_names.

(** erfcx is documented and accessible, but [__all__] and [dir(ufunclab)] do not list it *)
Theorem C53_erfcx_listed_refuted : exists n, (forall h, fst (access n (after h)) = Value (Obj "normal" n)) /\ ~ In n all_.
Proof. exists "erfcx"%string. split; [intros h; apply eager_names|]. rewrite all_contents. intros [(m & H)|H]; [vm_compute in H|]; intuition discriminate. Qed.
Print Assumptions C53_erfcx_listed_refuted.

(** a name that is neither public nor documented can start to resolve once a public name was used:
    importing a submodule binds it in the package *)
Theorem C53_submodule_visibility :
  exists n, ~ In n all_ /\ fst (access n (after [])) = Error AttributeError /\
    fst (access n (after ["gmean"%string])) = Value (Mod n).
Proof. exact @submodule_visibility_depends_on_history. Qed.
Print Assumptions C53_submodule_visibility.

Example C53_example :
  (In "gmean"%string all_ /\ defines "_means" "gmean" /\
   fst (access "gmean" (after ["vdot"; "gmean"; "no_such"]%string)) = Value (Obj "_means" "gmean") /\
   fst (access "first" (after [])) = Value (Obj "_first" "first") /\
   ~ In "no_such"%string (map fst name_to_module) /\ fst (access "no_such" (after ["vdot"]%string)) = Error AttributeError).
Proof.
  split; [|split; [|split; [|split; [|split]]]]; try (vm_compute; reflexivity).
  - apply all_contents. left. exists "._means"%string. vm_compute. tauto.
  - eexists _, _. split; [vm_compute; tauto|vm_compute; tauto].
  - vm_compute. intuition discriminate.
Qed.

(** ** C55 *)
Open Scope Z_scope.
Theorem C55_to_lines :
  forall fuel line offset lines,
  0 <= offset ->
   to_lines fuel line offset = Some lines ->
   unfold_lines offset lines = line /\ Forall (fun l => slen l < 80) lines /\ Forall (indented offset) (tl lines).
Proof. exact @to_lines_faithful. Qed.
Print Assumptions C55_to_lines.

Theorem C55_terminates_partial :
  forall line offset,
  0 <= offset ->
   Forall (fun p => offset + slen p + 2 < 80) (split_on (S_ ", ") line) ->
   exists fuel lines, forall fuel', (fuel <= fuel')%nat -> to_lines fuel' line offset = Some lines.
Proof. exact @to_lines_terminates. Qed.
Print Assumptions C55_terminates_partial.

Theorem C55_diverges :
  forall line offset p,
  0 <= offset -> In p (split_on (S_ ", ") line) -> 80 <= slen p + 2 ->
   forall fuel, to_lines fuel line offset = None.
Proof. exact @to_lines_diverges. Qed.
Print Assumptions C55_diverges.

Theorem C55_terminates_refuted :
  exists line offset, 0 <= offset /\ forall fuel, to_lines fuel line offset = None.
Proof. exact @to_lines_refuted. Qed.
Print Assumptions C55_terminates_refuted.

Example C55_example :
  let line := S_ "def f(alpha, beta, gamma, delta, epsilon, zeta, eta, theta, iota, kappa, lambda_, mu, nu, xi)" in
  Forall (fun p => 6 + slen p + 2 < 80) (split_on (S_ ", ") line) /\
  exists l1 l2, to_lines 20 line 6 = Some [l1; l2] /\ l2 = S_ "      lambda_, mu, nu, xi)" /\
    l1 = S_ "def f(alpha, beta, gamma, delta, epsilon, zeta, eta, theta, iota, kappa,".
Proof.
  cbv zeta. split.
  - apply Forall_forall. intros p Hp. vm_compute in Hp. repeat destruct Hp as [<-|Hp]; try (vm_compute; reflexivity). contradiction.
  - eexists _, _. split; [vm_compute; reflexivity|]. split; reflexivity.
Qed.

(** ** C58 *)
Theorem C58_check_params :
  forall nout params args kwargs,
  (nout <= 32)%nat ->
   check_params nout params = Some (args, kwargs) <->
   params = (map plain args ++ map with_default kwargs)%list /\
   Forall (fun p => ~ reserved nout (pname p)) params.
Proof. exact @check_params_reserved. Qed.
Print Assumptions C58_check_params.

Example C58_example :
  check_params 2 [Plain "x"; Plain "y"; WithDefault "side" "'left'"]%string =
    Some (["x"; "y"], [("side", "'left'")])%string /\
  check_params 1 [Plain "x"; WithDefault "side" "1"; Plain "y"]%string = None /\
  check_params 2 [Plain "x"; WithDefault "out2" "None"]%string = None /\
  check_params 1 [Plain "x"; WithDefault "out2" "None"]%string = Some (["x"], [("out2", "None")])%string.
Proof. vm_compute. repeat split. Qed.

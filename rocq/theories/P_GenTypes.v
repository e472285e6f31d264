(** * P_GenTypes: proofs about the type classification and the function tables *)
From Coq Require Import ZArith Bool Ascii String List Lia.
From Verif Require Import CSem M_Int M_Stat M_Gen S_Gen P_Gen.
Import ListNotations.
Open Scope Z_scope.

Lemma remove_arrow t : no_dash t -> remove_sub (S_ "->") (ts_text t) = ts_codes t.
Proof.
  destruct t as [i o]. unfold no_dash, ts_text, ts_codes, remove_sub. cbn [fst snd]. intro H.
  change (i ++ S_ "->" ++ o) with (join (S_ "->") [i; o]). change (S_ "->") with (ch "-" :: S_ ">").
  rewrite split_join; [cbn; rewrite app_nil_r; reflexivity|discriminate|].
  rewrite in_app_iff in H. apply Forall_cons; [|apply Forall_cons; [|apply Forall_nil]]; intro C; apply H; auto.
Qed.

(** what an entry of the classification says about its column *)
Definition entry_ok (uts : list str) (w : str) (e : ascii + nat) : Prop :=
  match e with
  | inl c => forall x, In x w -> x = c
  | inr k => nth_error uts k = Some w
  end.
Lemma entry_grow uts more w e : entry_ok uts w e -> entry_ok (uts ++ more) w e.
Proof.
  destruct e as [c|k]; cbn; [tauto|]. intro H. rewrite nth_error_app1; [exact H|].
  apply nth_error_Some. congruence.
Qed.
Lemma index_str_spec w l : forall k, match index_str w l k with
  | Some i => exists j, i = (k + j)%nat /\ nth_error l j = Some w | None => ~ In w l end.
Proof.
  induction l as [|x l IH]; intro k; cbn [index_str]; [tauto|]. destruct (eqs x w) eqn:E.
  - apply eqs_spec in E. subst. exists O. split; [lia|reflexivity].
  - specialize (IH (S k)). destruct (index_str w l (S k)) as [i|].
    + destruct IH as (j & -> & H). exists (S j). split; [lia|exact H].
    + intros [C|C]; [subst; rewrite eqs_refl in E; discriminate|auto].
Qed.
Lemma remove_all c w : eqs (remove_char c w) [] = true -> forall x, In x w -> x = c.
Proof.
  intros H x Hx. apply eqs_spec in H. destruct (ascii_dec x c) as [E|E]; [exact E|]. exfalso.
  assert (C : In x (remove_char c w)) by (unfold remove_char; apply filter_In; rewrite (eqb_neq' x c E); auto).
  rewrite H in C. exact C.
Qed.
Lemma Forall2_impl' {A B} (P Q : A -> B -> Prop) l l' : (forall a b, P a b -> Q a b) -> Forall2 P l l' -> Forall2 Q l l'.
Proof. intros H HF. induction HF; constructor; auto. Qed.
Lemma classify_inv m cols : (0 < m)%nat -> Forall (fun w => length w = m) cols ->
  forall uts result done, Forall2 (entry_ok uts) done result -> Forall (fun w => length w = m) uts ->
  exists uts' result', fold_left classify_step cols (uts, result) = (uts', result') /\
    Forall2 (entry_ok uts') (done ++ cols) result' /\ Forall (fun w => length w = m) uts'.
Proof.
  intros Hm HF. induction HF as [|w cols Hw HF IH]; intros uts result done H2 Hu; cbn [fold_left].
  - exists uts, result. rewrite app_nil_r. auto.
  - assert (E : exists uts1 e, classify_step (uts, result) w = (uts1, result ++ [e]) /\ entry_ok uts1 w e /\
       (exists more, uts1 = uts ++ more) /\ Forall (fun w => length w = m) uts1).
    { destruct w as [|c w0]; [cbn in Hw; lia|]. set (w := c :: w0) in *.
      cbn [classify_step]. change (match w with [] => (uts, result) | c :: _ => _ end) with
        (if eqs (remove_char c w) [] then (uts, result ++ [inl c])
         else match index_str w uts 0 with Some k => (uts, result ++ [inr k]) | None => (uts ++ [w], result ++ [inr (length uts)]) end).
      destruct (eqs (remove_char c w) []) eqn:E.
      - exists uts, (inl c). repeat split; [exact (remove_all c w E)|exists []; rewrite app_nil_r; reflexivity|exact Hu].
      - pose proof (index_str_spec w uts 0) as Hi. destruct (index_str w uts 0) as [k|].
        + destruct Hi as (j & -> & Hj). exists uts, (inr j). repeat split; [exact Hj|exists []; rewrite app_nil_r; reflexivity|exact Hu].
        + exists (uts ++ [w]), (inr (length uts)). repeat split.
          * cbn. rewrite nth_error_app2, Nat.sub_diag by lia. reflexivity.
          * exists [w]. reflexivity.
          * apply Forall_app. split; [exact Hu|]. apply Forall_cons; [exact Hw|apply Forall_nil]. }
    destruct E as (uts1 & e & E & He & (more & ->) & Hu1). rewrite E.
    destruct (IH (uts ++ more) (result ++ [e]) (done ++ [w])) as (u' & r' & E' & H' & Hu').
    + apply Forall2_app.
      * eapply Forall2_impl'; [|exact H2]. intros a b. apply entry_grow.
      * constructor; [exact He|constructor].
    + exact Hu1.
    + exists u', r'. split; [exact E'|]. rewrite <- app_assoc in H'. auto.
Qed.

Lemma var_codes_ok uts cols result r m : (r < m)%nat -> Forall (fun w => length w = m) cols -> Forall2 (entry_ok uts) cols result ->
  var_codes (map (fun w => nth r w Ascii.zero) uts) result = Some (map (fun w => nth r w Ascii.zero) cols).
Proof.
  intros Hr HL H2. induction H2 as [|w e cols result He H2 IH]; cbn [var_codes map]; [reflexivity|].
  inversion HL as [|? ? Hw HL']; subst. specialize (IH HL'). destruct e as [c|k]; cbn [entry_ok] in He.
  - rewrite IH. cbn [option_map]. f_equal. f_equal. symmetry. apply He, nth_In. exact Hr.
  - rewrite (map_nth_error _ k uts He), IH. reflexivity.
Qed.

Lemma nth_seq_id (l : str) : map (fun i => nth i l Ascii.zero) (seq 0 (length l)) = l.
Proof.
  induction l as [|x l IH]; cbn [length seq map]; [reflexivity|]. f_equal.
  rewrite <- seq_shift, map_map. exact IH.
Qed.
Lemma row_of_columns rows L r : Forall (fun q => length q = L) rows -> (r < length rows)%nat ->
  map (fun w => nth r w Ascii.zero) (map (fun i => column i rows) (seq 0 L)) = nth r rows [].
Proof.
  intros HF Hr. rewrite map_map. unfold column.
  assert (HL : length (nth r rows []) = L) by (rewrite Forall_forall in HF; apply HF, nth_In, Hr).
  rewrite <- (nth_seq_id (nth r rows [])), HL. apply map_ext. intro i.
  rewrite <- (map_nth (fun q => nth i q Ascii.zero)). apply nth_indep. rewrite map_length. exact Hr.
Qed.
Lemma fold_min m (w : str) l : length w = m -> Forall (fun w : str => length w = m) l ->
  fold_right Nat.min (length w) (map (@length ascii) l) = m.
Proof. intros H HF. induction HF as [|x l Hx HF IH]; cbn [map fold_right]; [exact H|]. rewrite IH, Hx. lia. Qed.
Lemma mapM_Some {X Y} (f : X -> option Y) (g : X -> Y) l : (forall x, In x l -> f x = Some (g x)) -> mapM f l = Some (map g l).
Proof.
  induction l as [|x l IH]; cbn [mapM map]; intro H; [reflexivity|]. rewrite (H x (or_introl eq_refl)). cbn [bind].
  rewrite IH by (intros y Hy; apply H; right; exact Hy). reflexivity.
Qed.
Lemma map_nth_seq {X} (d : X) l : map (fun r => nth r l d) (seq 0 (length l)) = l.
Proof.
  induction l as [|x l IH]; cbn [length seq map]; [reflexivity|]. f_equal. rewrite <- seq_shift, map_map. exact IH.
Qed.

(** classification, instantiated at its own templates, reproduces the signatures *)
Theorem classify_roundtrip l : source_ok l ->
  exists uts result, classify_typenames (map ts_text l) = Some (uts, result) /\
    mapM (fun tpl => var_codes tpl result) (emitted_templates uts) = Some (map ts_codes l).
Proof.
  intros (Hne & Hd & (L & HL) & HN). unfold classify_typenames. rewrite map_map.
  rewrite (map_ext_in _ ts_codes) by (intros t Ht; apply remove_arrow; rewrite Forall_forall in Hd; apply Hd, Ht).
  set (rows := map ts_codes l) in *.
  assert (HR : Forall (fun q => length q = L) rows).
  { apply Forall_forall. intros q Hq. apply in_map_iff in Hq as (t & <- & Ht). rewrite Forall_forall in HL. apply HL, Ht. }
  assert (Hrne : rows <> []) by (unfold rows; destruct l; [contradiction|discriminate]).
  clearbody rows. clear l Hne Hd HL. destruct rows as [|r0 rest] eqn:Erows; [contradiction|]. rewrite <- Erows in *. 
  assert (Hr0 : length r0 = L) by (rewrite Erows in HR; inversion HR; assumption).
  assert (Hall : forallb (fun q => (length q =? length r0)%nat) rows = true).
  { apply forallb_forall. intros q Hq. apply Nat.eqb_eq. rewrite Forall_forall in HR. rewrite Hr0. apply HR, Hq. }
  rewrite Hall, Hr0. set (cols := map (fun i => column i rows) (seq 0 L)).
  set (m := length rows).
  assert (Hm : (0 < m)%nat) by (unfold m; rewrite Erows; cbn; lia).
  assert (HC : Forall (fun w => length w = m) cols).
  { apply Forall_forall. intros w Hw. apply in_map_iff in Hw as (i & <- & _). unfold column. apply map_length. }
  destruct (classify_inv m cols Hm HC [] [] []) as (uts & result & E & H2 & Hu); [constructor|apply Forall_nil|].
  cbn [app] in H2. exists uts, result. rewrite E. split; [reflexivity|].
  assert (HV : forall r, (r < m)%nat -> var_codes (map (fun w => nth r w Ascii.zero) uts) result = Some (nth r rows [])).
  { intros r Hr. rewrite (var_codes_ok uts cols result r m Hr HC H2). f_equal. apply row_of_columns; assumption. }
  destruct uts as [|w uts].
  - cbn [emitted_templates mapM]. pose proof (HV O Hm) as HV0. cbn [map] in HV0. rewrite HV0. cbn [bind ret].
    assert (Hm1 : m = 1%nat).
    { destruct (Nat.eq_dec m 1) as [E1|E1]; [exact E1|exfalso]. assert (H1 : (1 < m)%nat) by lia.
      pose proof (HV O Hm) as A0. pose proof (HV 1%nat H1) as A1. cbn [map] in A0, A1. rewrite A0 in A1. injection A1 as A1.
      apply (NoDup_nth rows []) in A1; [discriminate|exact HN|exact Hm|exact H1]. }
    unfold m in Hm1. clear - Hm1. destruct rows as [|q [|? ?]]; [discriminate|reflexivity|discriminate].
  - cbn [emitted_templates]. unfold zip_star. pose proof (Forall_inv Hu) as Hw. cbv beta in Hw.
    assert (EM : fold_right Nat.min (length w) (map (@length ascii) (w :: uts)) = m) by (apply fold_min; assumption).
    rewrite EM. rewrite (mapM_Some _ (fun tpl => match var_codes tpl result with Some r => r | None => [] end)).
    + f_equal. rewrite map_map. transitivity (map (fun r => nth r rows []) (seq 0 (length rows))); [|apply map_nth_seq]. apply map_ext_in. intros r Hr. apply in_seq in Hr.
      rewrite (HV r) by (unfold m in Hr; lia). reflexivity.
    + intros tpl Ht. apply in_map_iff in Ht as (r & <- & Hr). apply in_seq in Hr. rewrite (HV r) by lia. reflexivity.
Qed.

(** ** the tables of a ufunc *)
Lemma drop_long_texts same l : Forall no_dash l -> drop_long same (map ts_text l) = map ts_text (supported same l).
Proof.
  unfold drop_long, supported. destruct same; [|reflexivity]. induction 1 as [|t l Ht HF IH]; cbn [map filter]; [reflexivity|].
  assert (E : existsb (fun c => Ascii.eqb c (ch "g") || Ascii.eqb c (ch "G")) (ts_text t) = mentions_long t).
  { unfold mentions_long.
    assert (X : forall w, existsb (fun c => Ascii.eqb c (ch "g") || Ascii.eqb c (ch "G")) w = true <-> In "g"%char w \/ In "G"%char w).
    { intro w. rewrite existsb_exists. split.
      - intros (x & Hx & H). apply orb_prop in H as [H|H]; apply Ascii.eqb_eq in H; subst; auto.
      - intros [H|H]; [exists "g"%char|exists "G"%char]; auto. }
    assert (Y : forall c, c <> "-"%char -> c <> ">"%char -> (In c (ts_text t) <-> In c (ts_codes t))).
    { intros c H1 H2. unfold ts_text, ts_codes. rewrite !in_app_iff. cbn [S_ list_ascii_of_string In]. intuition congruence. }
    apply eq_true_iff_eq. rewrite X, !Y by discriminate.
    destruct (in_dec ascii_dec "g"%char (ts_codes t)); [tauto|]. destruct (in_dec ascii_dec "G"%char (ts_codes t)); [tauto|].
    split; [tauto|discriminate]. }
  rewrite E. destruct (mentions_long t); cbn [negb map]; [exact IH|]. f_equal. exact IH.
Qed.
Lemma supported_no_dash same l : Forall no_dash l -> Forall no_dash (supported same l).
Proof.
  intro H. unfold supported. destruct same; [|exact H]. apply Forall_forall. intros t Ht. apply filter_In in Ht.
  rewrite Forall_forall in H. apply H. tauto.
Qed.
Theorem tables_agree same sources : forall k,
  Forall (fun l => Forall no_dash l /\ source_ok (supported same l)) sources ->
  funcs_table same k (map (map ts_text) sources) = Some (table same k sources) /\
  typecodes_table same k (map (map ts_text) sources) = table same k sources.
Proof.
  induction sources as [|l sources IH]; intros k HF; cbn [map funcs_table typecodes_table table]; [split; reflexivity|].
  inversion HF as [|? ? [Hd Hok] HF']; subst. destruct (IH (S k) HF') as [I1 I2].
  rewrite drop_long_texts by exact Hd. destruct (classify_roundtrip _ Hok) as (uts & result & E & HM). rewrite E, I1, HM, I2.
  cbn [option_map]. rewrite !map_map. split; [reflexivity|]. f_equal. apply map_ext_in. intros t Ht. f_equal. apply remove_arrow.
  pose proof (supported_no_dash same l Hd) as H. rewrite Forall_forall in H. apply H, Ht.
Qed.

(** ** loop names *)
Definition ctype_id (c : ascii) : option str :=
  option_map (fun r => remove_sub (S_ "npy_") (remove_char (ch " ") r)) (typechar_to_npy_ctype c).
Definition all_chars : str := map ascii_of_nat (seq 0 256).
Lemma all_chars_in c : In c all_chars.
Proof.
  unfold all_chars. rewrite <- (ascii_nat_embedding c). apply in_map, in_seq. split; [lia|].
  pose proof (nat_ascii_bounded c). lia.
Qed.
Definition id_ok (c : ascii) : bool :=
  match ctype_id c with
  | None => true
  | Some s => negb (existsb (Ascii.eqb (ch "_")) s) &&
      forallb (fun d => match ctype_id d with None => true | Some s' => if eqs s s' then Ascii.eqb c d else true end) all_chars
  end.
Lemma ids_ok : forallb id_ok all_chars = true. Proof. vm_compute. reflexivity. Qed.
Lemma ctype_id_facts c s : ctype_id c = Some s -> ~ In (ch "_") s /\ forall d, ctype_id d = Some s -> c = d.
Proof.
  intro H. pose proof ids_ok as A. rewrite forallb_forall in A. specialize (A c (all_chars_in c)). unfold id_ok in A. rewrite H in A.
  apply andb_prop in A as [A1 A2]. split.
  - intro C. apply negb_true_iff in A1. assert (existsb (Ascii.eqb (ch "_")) s = true).
    { apply existsb_exists. exists (ch "_"). split; [exact C|apply Ascii.eqb_refl]. } congruence.
  - intros d Hd. rewrite forallb_forall in A2. specialize (A2 d (all_chars_in d)). cbv beta in A2. rewrite Hd, eqs_refl in A2.
    apply Ascii.eqb_eq, A2.
Qed.
Lemma mapM_ids codes : forall ct, mapM typechar_to_npy_ctype codes = Some ct ->
  Forall2 (fun c s => ctype_id c = Some s) codes (map (fun r => remove_sub (S_ "npy_") (remove_char (ch " ") r)) ct).
Proof.
  induction codes as [|c codes IH]; cbn [mapM]; intros ct H; [injection H as <-; constructor|].
  destruct (typechar_to_npy_ctype c) as [t|] eqn:E; [|discriminate]. cbn [bind] in H.
  destruct (mapM typechar_to_npy_ctype codes) as [r|]; [|discriminate]. cbn [bind ret] in H. injection H as <-.
  constructor; [unfold ctype_id; rewrite E; reflexivity|]. apply IH. reflexivity.
Qed.
Lemma split_tail l : Forall (fun x => ~ In (ch "_") x) l ->
  split_on (S_ "_") (concat (map (fun y => S_ "_" ++ y) l)) = [] :: l.
Proof.
  intro HF. change (S_ "_") with [ch "_"].
  replace (concat (map (fun y => [ch "_"] ++ y) l)) with (join [ch "_"] ([] :: l)).
  - apply split_join; [discriminate|]. apply Forall_cons; [cbn; tauto|exact HF].
  - clear. assert (H : forall p, join [ch "_"] (p :: l) = p ++ concat (map (fun y => [ch "_"] ++ y) l)); [|exact (H [])].
    induction l as [|x l IH]; intro p; cbn [map concat]; [cbn; rewrite app_nil_r; reflexivity|].
    change (join [ch "_"] (p :: x :: l)) with (p ++ [ch "_"] ++ join [ch "_"] (x :: l)). rewrite IH, <- app_assoc. reflexivity.
Qed.
Theorem loop_names_distinct core a b n :
  concrete_loop_function_name core a = Some n -> concrete_loop_function_name core b = Some n -> a = b.
Proof.
  unfold concrete_loop_function_name. destruct (mapM typechar_to_npy_ctype a) as [ca|] eqn:Ea; [|discriminate].
  destruct (mapM typechar_to_npy_ctype b) as [cb|] eqn:Eb; [|discriminate]. cbn [option_map]. intros H1 H2.
  rewrite <- H2 in H1. clear n H2. apply (f_equal (fun o => match o with Some x => x | None => [] end)) in H1. cbv beta iota in H1.
  apply mapM_ids in Ea. apply mapM_ids in Eb.
  set (ia := map (fun r => remove_sub (S_ "npy_") (remove_char (ch " ") r)) ca) in *.
  set (ib := map (fun r => remove_sub (S_ "npy_") (remove_char (ch " ") r)) cb) in *. clearbody ia ib.
  assert (H : concat (map (fun y => S_ "_" ++ y) ia) = concat (map (fun y => S_ "_" ++ y) ib)).
  { unfold py_join in H1. apply app_inv_head in H1. cbn [map concat] in H1. apply app_inv_head in H1. exact H1. }
  assert (HN : forall x l, Forall2 (fun c s => ctype_id c = Some s) x l -> Forall (fun s => ~ In (ch "_") s) l).
  { clear. intros x l H. induction H as [|c s x l Hc H IH]; [apply Forall_nil|]. apply Forall_cons; [eapply ctype_id_facts; exact Hc|exact IH]. }
  apply (f_equal (split_on (S_ "_"))) in H. rewrite !split_tail in H by (eapply HN; eassumption). injection H as ->.
  clear - Ea Eb. revert b Eb. induction Ea as [|c s a l Hc Ha IH]; intros b Eb; inversion Eb as [|d s' b' l' Hd Hb]; subst; [reflexivity|].
  f_equal; [eapply ctype_id_facts; eassumption|]. apply IH. assumption.
Qed.

(** two signatures with the same types: two rows of type codes, one loop *)
Theorem duplicate_refuted : exists sources, length sources = 1%nat /\
  exists f, funcs_table false 0 (map (map ts_text) sources) = Some f /\
    length f <> length (typecodes_table false 0 (map (map ts_text) sources)).
Proof. exists [[(S_ "d", S_ "d"); (S_ "d", S_ "d")]]. split; [reflexivity|]. eexists. split; [vm_compute; reflexivity|]. vm_compute. discriminate. Qed.
(** a core function that only has long double signatures, where long double is double *)
Theorem only_long_refuted : exists sources, Forall source_ok sources /\
  exists f, funcs_table true 0 (map (map ts_text) sources) = Some f /\
    (length f > length (typecodes_table true 0 (map (map ts_text) sources)))%nat.
Proof.
  exists [[(S_ "d", S_ "d")]; [(S_ "g", S_ "g")]]. split.
  - assert (H : forall s, s = S_ "d" \/ s = S_ "g" -> source_ok [(s, s)]).
    { intros s Hs. split; [discriminate|]. split; [|split].
      - apply Forall_cons; [|apply Forall_nil]. destruct Hs as [-> | ->]; unfold no_dash, ts_codes; cbn; intuition discriminate.
      - exists 2%nat. apply Forall_cons; [|apply Forall_nil]. destruct Hs as [-> | ->]; reflexivity.
      - cbn [map]. apply NoDup_cons; [intros []|apply NoDup_nil]. }
    apply Forall_cons; [apply H; auto|]. apply Forall_cons; [apply H; auto|apply Forall_nil].
  - eexists. split; [vm_compute; reflexivity|]. vm_compute. lia.
Qed.
(** an object type among the varying types gives a name that is not a C identifier *)
Theorem object_name_refuted : exists codes n, concrete_loop_function_name (S_ "core") codes = Some n /\ In "*"%char n.
Proof. exists (S_ "O"). eexists. split; [vm_compute; reflexivity|]. cbn. tauto. Qed.

(** * P_GenNames: the variable names taken from the docstring and the signature *)
From Coq Require Import ZArith Bool Ascii String List Lia.
From Verif Require Import CSem M_Int M_Stat M_Gen S_Gen S_GenNames P_Gen.
Import ListNotations.
Open Scope Z_scope.

Lemma dec_digit n : 0 <= n < 10 -> nth_error decimals (Z.to_nat n) = Some (ascii_of_nat (Z.to_nat (48 + n))).
Proof.
  intros H. assert (n = 0 \/ n = 1 \/ n = 2 \/ n = 3 \/ n = 4 \/ n = 5 \/ n = 6 \/ n = 7 \/ n = 8 \/ n = 9) by lia.
  repeat (destruct H0 as [->|H0]; [reflexivity|]). subst. reflexivity.
Qed.
Lemma dec_numeral : forall fuel n, 0 <= n < Z.of_nat fuel -> numeral (dec_digits fuel n) n.
Proof.
  induction fuel as [|k IH]; intros n H; [lia|]. cbn [dec_digits]. pose proof (Z.mod_pos_bound n 10 ltac:(lia)) as M.
  destruct (n <? 10) eqn:E.
  - apply Z.ltb_lt in E. rewrite Z.mod_small by lia. cbn [app]. rewrite <- (Z2Nat.id n) at 2 by lia. apply num1. apply dec_digit. lia.
  - apply Z.ltb_ge in E. pose proof (Z.div_mod n 10 ltac:(lia)) as D. rewrite D at 3. rewrite <- (Z2Nat.id (n mod 10)) at 2 by lia.
    apply numS; [apply IH|apply dec_digit; lia]. split; [apply Z.div_pos; lia|]. assert (n / 10 < n) by (apply Z.div_lt; lia). lia.
Qed.
Lemma dec_lead : forall fuel n, 0 < n < Z.of_nat fuel -> hd_error (dec_digits fuel n) <> nth_error decimals 0.
Proof.
  induction fuel as [|k IH]; intros n H; [lia|]. cbn [dec_digits]. destruct (n <? 10) eqn:E.
  - apply Z.ltb_lt in E. rewrite Z.mod_small by lia. cbn [app hd_error].
    assert (n = 1 \/ n = 2 \/ n = 3 \/ n = 4 \/ n = 5 \/ n = 6 \/ n = 7 \/ n = 8 \/ n = 9) by lia.
    repeat (destruct H0 as [->|H0]; [discriminate|]). subst. discriminate.
  - apply Z.ltb_ge in E. assert (P : 0 < n / 10) by (apply Z.div_str_pos; lia). assert (Q : n / 10 < n) by (apply Z.div_lt; lia).
    specialize (IH (n / 10) ltac:(lia)). destruct (dec_digits k (n / 10)) eqn:Ed; [|exact IH].
    assert (N : numeral (dec_digits k (n / 10)) (n / 10)) by (apply dec_numeral; lia). rewrite Ed in N. apply numeral_digits in N. destruct N as [N _]. congruence.
Qed.
Lemma outnames_ok n : (1 < n)%nat -> out_names n (map (fun k => outname (S k)) (seq 0 n)).
Proof.
  intros H. right. split; [exact H|]. split; [now rewrite map_length, seq_length|]. intros k Hk. exists (dec_digits (S (S k)) (Z.of_nat (S k))). split.
  - rewrite nth_error_map, (nth_error_nth' _ 0%nat) by (rewrite seq_length; exact Hk). rewrite seq_nth by exact Hk. reflexivity.
  - split; [apply dec_numeral; lia|apply dec_lead; lia].
Qed.

Lemma first_line_all s : ~ In newline s -> first_line s = s.
Proof.
  induction s as [|c s IH]; intros H; [reflexivity|]. cbn [first_line]. rewrite eqb_neq' by (intro E; apply H; left; exact E). f_equal. apply IH. intro E; apply H; right; exact E.
Qed.
Lemma first_line_cut s tail : ~ In newline s -> first_line (s ++ newline :: tail) = s.
Proof.
  induction s as [|c s IH]; intros H; [reflexivity|]. cbn [first_line app]. rewrite eqb_neq' by (intro E; apply H; left; exact E). f_equal. apply IH. intro E; apply H; right; exact E.
Qed.
Lemma find_skip h p x : forall s k, ~ In h x -> find_sub (h :: p) (x ++ s) k = find_sub (h :: p) s (k + Z.of_nat (length x)).
Proof.
  induction x as [|c x IH]; intros s k H; cbn [app length]; [f_equal; lia|].
  cbn [find_sub prefixb]. rewrite eqb_neq' by (intro E; apply H; left; now symmetry). cbn [andb]. rewrite IH by (intro E; apply H; right; exact E). f_equal. lia.
Qed.
Lemma find_here p s k : find_sub p (p ++ s) k = k.
Proof. destruct p as [|a p]; [destruct s; reflexivity|]. cbn [app find_sub]. change (a :: p ++ s) with ((a :: p) ++ s). now rewrite prefixb_app. Qed.
Lemma ident_no s c : ident s -> ~ In c letters -> ~ In c decimals -> ~ In c s.
Proof. intros H L D C. apply ident_chars in H. rewrite Forall_forall in H. destruct (H c C); tauto. Qed.
Ltac notin := let H := fresh in intro H; cbn in H; repeat (destruct H as [H|H]; [discriminate|]); exact H.

Lemma find_params ps : ps <> [] -> Forall ident ps -> forall rest k,
  find_sub (S_ ", /") (join (S_ ", ") ps ++ S_ ", /" ++ rest) k = k + Z.of_nat (length (join (S_ ", ") ps)).
Proof.
  intros Hne. destruct ps as [|p ps]; [contradiction|]. clear Hne. revert p. induction ps as [|q ps IH]; intros p HF rest k; inversion HF as [|? ? Hp HF']; subst.
  - cbn [join]. change (S_ ", /") with (ch "," :: S_ " /") at 1. rewrite find_skip by (apply (ident_no p); [exact Hp|notin|notin]).
    change (ch "," :: S_ " /") with (S_ ", /"). rewrite find_here. reflexivity.
  - change (join (S_ ", ") (p :: q :: ps)) with (p ++ S_ ", " ++ join (S_ ", ") (q :: ps)). rewrite <- !app_assoc.
    change (S_ ", /") with (ch "," :: S_ " /") at 1. rewrite find_skip by (apply (ident_no p); [exact Hp|notin|notin]).
    set (J := join (S_ ", ") (q :: ps)) in *.
    assert (Q : forall z, prefixb (S_ ", /") (S_ ", " ++ J ++ z) = false).
    { intros z. inversion HF' as [|? ? Hq _]; subst. destruct q as [|c q]; [contradiction|]. cbn [ident] in Hq. destruct Hq as [Hc _].
      assert (EJ : exists y, J = c :: y). { unfold J. destruct ps; [exists q; reflexivity|]. eexists. cbn [join app]. reflexivity. }
      destruct EJ as [y ->]. change (prefixb (S_ ", /") (S_ ", " ++ (c :: y) ++ z)) with (Ascii.eqb (ch "/") c && true).
      rewrite eqb_neq'; [reflexivity|]. intros <-. revert Hc. notin. }
    change (S_ ", " ++ J ++ S_ ", /" ++ rest) with (ch "," :: (S_ " " ++ J ++ S_ ", /" ++ rest)). 
    cbn [find_sub]. change (ch "," :: S_ " /") with (S_ ", /"). change (ch "," :: S_ " " ++ J ++ S_ ", /" ++ rest) with (S_ ", " ++ J ++ S_ ", /" ++ rest).
    rewrite Q. change (S_ ", /") with (ch "," :: S_ " /") at 1. rewrite find_skip by notin. change (ch "," :: S_ " /") with (S_ ", /").
    rewrite (IH q HF'). fold J. rewrite !app_length. cbn [length S_ list_ascii_of_string]. lia.
Qed.
Lemma remove_none c s : ~ In c s -> remove_char c s = s.
Proof.
  unfold remove_char. induction s as [|a s IH]; intros H; [reflexivity|]. cbn [filter]. rewrite eqb_neq' by (intro E; apply H; left; exact E). cbn [negb]. f_equal. apply IH. intro E; apply H; right; exact E.
Qed.
Lemma remove_app c s t : remove_char c (s ++ t) = remove_char c s ++ remove_char c t.
Proof. apply filter_app. Qed.
Lemma unblank ps : Forall ident ps -> remove_char (ch " ") (join (S_ ", ") ps) = join (S_ ",") ps.
Proof.
  induction ps as [|p ps IH]; intros HF; [reflexivity|]. inversion HF as [|? ? Hp HF']; subst.
  assert (E : remove_char (ch " ") p = p) by (apply remove_none, (ident_no p); [exact Hp|notin|notin]).
  destruct ps as [|q ps]; [exact E|].
  change (join (S_ ", ") (p :: q :: ps)) with (p ++ S_ ", " ++ join (S_ ", ") (q :: ps)). rewrite !remove_app, E, (IH HF'). reflexivity.
Qed.
Lemma params_line name ps rest : ident name -> ps <> [] -> Forall ident ps ->
  let l := name ++ S_ "(" ++ join (S_ ", ") ps ++ S_ ", /" ++ rest in
  py_slice l (find_sub (S_ "(") l 0 + 1) (find_sub (S_ ", /") l 0) = join (S_ ", ") ps.
Proof.
  intros Hn Hne HF. cbv zeta. set (J := join (S_ ", ") ps).
  assert (F1 : find_sub (S_ "(") (name ++ S_ "(" ++ J ++ S_ ", /" ++ rest) 0 = Z.of_nat (length name)).
  { change (S_ "(") with (ch "(" :: []) at 1. rewrite find_skip by (apply (ident_no name); [exact Hn|notin|notin]). change (ch "(" :: []) with (S_ "("). rewrite find_here. lia. }
  assert (F2 : find_sub (S_ ", /") (name ++ S_ "(" ++ J ++ S_ ", /" ++ rest) 0 = Z.of_nat (length name) + 1 + Z.of_nat (length J)).
  { change (S_ ", /") with (ch "," :: S_ " /") at 1. rewrite find_skip by (apply (ident_no name); [exact Hn|notin|notin]). rewrite find_skip by notin. change (ch "," :: S_ " /") with (S_ ", /").
    unfold J. rewrite find_params by assumption. cbn [length S_ list_ascii_of_string]. lia. }
  rewrite F1, F2. unfold py_slice. replace (Z.of_nat (length name) + 1 + Z.of_nat (length J) <? 0) with false by (symmetry; apply Z.ltb_ge; lia).
  replace (Z.to_nat (Z.of_nat (length name) + 1)) with (length (name ++ S_ "(")) by (rewrite app_length; cbn [length S_ list_ascii_of_string]; lia).
  rewrite (app_assoc name). rewrite skipn_app, skipn_all, Nat.sub_diag. cbn [app skipn].
  replace (Z.to_nat _) with (length J) by lia. rewrite firstn_app, firstn_all, Nat.sub_diag. cbn [firstn]. apply app_nil_r.
Qed.

Theorem varnames_spec g t name ps doc : spells g t -> ident name -> ps <> [] -> Forall ident ps -> shows_call name ps doc ->
  exists os, get_varnames doc t = Some (ps ++ os) /\ out_names (length (outs g)) os.
Proof.
  intros Hs Hn Hne HF Hd.
  assert (NJ : forall rest, ~ In newline rest -> ~ In newline (name ++ S_ "(" ++ join (S_ ", ") ps ++ S_ ", /" ++ rest)).
  { intros rest Hr. rewrite !in_app_iff. intros [C|[C|[C|[C|C]]]].
    - revert C. apply (ident_no name); [exact Hn|notin|notin].
    - revert C. notin.
    - clear - C HF. induction ps as [|p ps IH]; [exact C|]. inversion HF as [|? ? Hp HF']; subst. destruct ps as [|q ps].
      + revert C. apply (ident_no p); [exact Hp|notin|notin].
      + change (join (S_ ", ") (p :: q :: ps)) with (p ++ S_ ", " ++ join (S_ ", ") (q :: ps)) in C. rewrite !in_app_iff in C. destruct C as [C|[C|C]]; [revert C; apply (ident_no p); [exact Hp|notin|notin]|revert C; notin|exact (IH HF' C)].
    - revert C. notin.
    - exact (Hr C). }
  assert (FL : exists rest, first_line doc = name ++ S_ "(" ++ join (S_ ", ") ps ++ S_ ", /" ++ rest).
  { destruct Hd as [rest Hr|rest tail Hr]; exists rest; [apply first_line_all; auto|].
    replace (name ++ S_ "(" ++ join (S_ ", ") ps ++ S_ ", /" ++ rest ++ newline :: tail) with ((name ++ S_ "(" ++ join (S_ ", ") ps ++ S_ ", /" ++ rest) ++ newline :: tail) by now rewrite <- !app_assoc.
    apply first_line_cut. auto. }
  destruct FL as [rest FL]. unfold get_varnames. rewrite FL. pose proof (params_line name ps rest Hn Hne HF) as P. cbv zeta in P. cbv zeta. rewrite P. clear P FL.
  rewrite unblank by exact HF.
  change (S_ ",") with (ch "," :: []) at 1 2. rewrite split_join; [|exact Hne|].
  2:{ apply Forall_forall. intros p Hp. rewrite Forall_forall in HF. apply (ident_no p); [exact (HF p Hp)|notin|notin]. }
  destruct Hs as (Hi & Ho & li & lo & H1 & H2 & E).
  change (remove_char (ch " ") t) with (filter (fun c => negb (Ascii.eqb c (ascii_of_nat 32))) t). rewrite E.
  assert (Es : split_on (S_ "->") (join (S_ ",") li ++ S_ "->" ++ join (S_ ",") lo) = [join (S_ ",") li; join (S_ ",") lo]).
  { change (S_ "->") with (ch "-" :: S_ ">").
    change (join (S_ ",") li ++ (ch "-" :: S_ ">") ++ join (S_ ",") lo)
      with (join (ch "-" :: S_ ">") [join (S_ ",") li; join (S_ ",") lo]).
    apply split_join; [discriminate|]. apply Forall_cons; [eapply join_nodash; exact H1|].
    apply Forall_cons; [eapply join_nodash; exact H2|apply Forall_nil]. }
  rewrite Es. assert (L : length (split_on (S_ "),(") (join (S_ ",") lo)) = length (outs g)).
  { pose proof (split_parts_spells (outs g) lo Ho H2) as S. unfold split_parts in S. apply (f_equal (@length shape)) in S. rewrite !map_length in S. exact S. }
  rewrite L. eexists. split; [reflexivity|]. assert (1 <= length (outs g))%nat by (destruct (outs g); [contradiction|cbn; lia]).
  destruct (1 <? Z.of_nat (length (outs g))) eqn:B.
  - apply Z.ltb_lt in B. apply outnames_ok. lia.
  - apply Z.ltb_ge in B. left. split; [lia|reflexivity].
Qed.

(** the names of the outputs are distinct *)
Lemma out_names_nodup n l : out_names n l -> NoDup l.
Proof.
  intros [[_ ->]|(_ & L & H)]; [apply NoDup_cons; [intros []|apply NoDup_nil]|].
  apply NoDup_nth_error. intros i j Hi E. rewrite L in Hi.
  destruct (H i Hi) as (d & E1 & [N1 _]). rewrite E1 in E. symmetry in E.
  assert (Hj : (j < n)%nat) by (rewrite <- L; apply nth_error_Some; congruence).
  destruct (H j Hj) as (d' & E2 & [N2 _]). rewrite E2 in E. injection E as E. subst d'.
  apply numeral_value in N1, N2. rewrite N1 in N2. lia.
Qed.

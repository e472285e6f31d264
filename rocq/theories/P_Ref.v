(** * P_Ref: proofs about reference counts *)
From Coq Require Import ZArith List Bool Lia.
From Verif Require Import CSem M_Select M_Obj M_Geom M_Ref S_Ref.
Import ListNotations.
Open Scope Z_scope.

(** ** tools *)
Lemma bind_some {A B} (x : M A) (f : A -> M B) r :
  bind x f = Some r -> exists a, x = Some a /\ f a = Some r.
Proof. destruct x as [a|]; cbn; [eauto|discriminate]. Qed.

Lemma loop_inv {S R} (I : S -> Prop) (J : R -> Prop) (body : Z -> S -> M (ctl S R)) :
  (forall k s c, I s -> body k s = Some c ->
     match c with Next s' => I s' | Brk s' => I s' | Ret r => J r end) ->
  forall n k s r, I s -> loop_from n k body s = Some r ->
  match r with inl s' => I s' | inr r => J r end.
Proof.
  intros Hb n. induction n as [|n IH]; cbn; intros k s r Hs E.
  - injection E as <-. exact Hs.
  - destruct (body k s) as [c|] eqn:B; [|discriminate]. specialize (Hb _ _ _ Hs B).
    destruct c as [t|t|t]; [exact (IH _ _ _ Hb E)| |]; inversion E; subst; exact Hb.
Qed.

Lemma loop_sim {S1 R1 S2 R2} (I : S1 -> S2 -> Prop) (J : R1 -> R2 -> Prop)
      (b1 : Z -> S1 -> M (ctl S1 R1)) (b2 : Z -> S2 -> M (ctl S2 R2)) :
  (forall k s1 s2 c1, I s1 s2 -> b1 k s1 = Some c1 ->
     exists c2, b2 k s2 = Some c2 /\
       match c1, c2 with
       | Next a, Next b => I a b
       | Brk a, Brk b => I a b
       | Ret a, Ret b => J a b
       | _, _ => False
       end) ->
  forall n k s1 s2 r1, I s1 s2 -> loop_from n k b1 s1 = Some r1 ->
  exists r2, loop_from n k b2 s2 = Some r2 /\
    match r1, r2 with inl a, inl b => I a b | inr a, inr b => J a b | _, _ => False end.
Proof.
  intros Hb n. induction n as [|n IH]; cbn; intros k s1 s2 r1 Hs E.
  - injection E as <-. exists (inl s2). auto.
  - destruct (b1 k s1) as [c1|] eqn:B1; [|discriminate].
    destruct (Hb _ _ _ _ Hs B1) as (c2 & -> & H).
    destruct c1, c2; try contradiction; [eapply IH; eauto| |]; injection E as <-; eexists; split; eauto.
Qed.

(** ** the primitive operations *)
(** the step from [s] to [s'] changed the references held by [d] and wrote nothing *)
Definition held (d : obj -> Z) (s s' : pst) : Prop :=
  sound (hp s') /\ (forall o, own (hp s') o = own (hp s) o + d o) /\ outp s' = outp s.
Definition one (r o : obj) : Z := if r =? o then 1 else 0.
Definition oone (r : option obj) (o : obj) : Z := match r with Some r => one r o | None => 0 end.

Lemma one_nonneg r o : 0 <= one r o.
Proof. unfold one. destruct (r =? o); lia. Qed.
Lemma one_self r : one r r = 1.
Proof. unfold one. now rewrite Z.eqb_refl. Qed.

Lemma held_refl s : sound (hp s) -> held (fun _ => 0) s s.
Proof. intro H. split; [exact H|]. split; [intro; lia|reflexivity]. Qed.
Lemma held_trans d1 d2 d s s1 s2 :
  held d1 s s1 -> held d2 s1 s2 -> (forall o, d o = d1 o + d2 o) -> held d s s2.
Proof.
  intros (A & B & C) (A' & B' & C') E. split; [exact A'|]. split.
  - intro o. rewrite B', B, E. lia.
  - congruence.
Qed.

Section Ref.
  Context (P : python) (HP : honest P).

  Lemma rich_held a b op s r s' :
    sound (hp s) -> rich_ref P a b op s = Some (r, s') -> held (fun _ => 0) s s'.
  Proof.
    intros Hs. unfold rich_ref. destruct (alive s a && alive s b); [|discriminate].
    destruct (rich _ a b op (cw s)) as [q w']. intro E. injection E as _ <-.
    unfold held. cbn [hp outp]. destruct ((a =? b) && _).
    - split; [exact Hs|]. split; [intro; lia|reflexivity].
    - destruct (proj1 HP (hist w') (hp s) Hs) as (A & B & _).
      split; [exact A|]. split; [intro o; rewrite B; lia|reflexivity].
  Qed.

  Lemma num_held op a b s r s' :
    sound (hp s) -> num_ref P op a b s = Some (r, s') -> held (oone r) s s'.
  Proof.
    intros Hs. unfold num_ref. destruct (alive s a && alive s b); [|discriminate].
    unfold pynum. destruct (num_ans P ((op, a, b) :: ahist (aw s))) as [q|] eqn:E0; intro E; injection E as <- <-.
    all: unfold held; cbn [hp outp ahist];
      destruct (proj2 HP ((op, a, b) :: ahist (aw s)) (hp s) Hs) as (A & B & _);
      split; [exact A|]; split; [|reflexivity]; intro o; rewrite B, E0; reflexivity.
  Qed.

  Lemma incref_held o s s' : sound (hp s) -> incref o s = Some s' -> held (one o) s s'.
  Proof.
    intros (A & B & C). unfold incref. destruct (alive s o); [|discriminate]. intro E. injection E as <-.
    unfold held, sound, own, with_hp, add_rc in *. cbn [hp rc ext inp outp] in *.
    split; [|split; [|reflexivity]].
    - split; [exact A|]. split; [|exact C]. intro q. specialize (B q). destruct (q =? o); lia.
    - intro q. unfold one. rewrite (Z.eqb_sym o q). destruct (q =? o); lia.
  Qed.

  (** releasing a reference the call holds *)
  Lemma decref_held o s s' :
    sound (hp s) -> 1 <= own (hp s) o -> decref o s = Some s' -> held (fun q => - one o q) s s'.
  Proof.
    intros (A & B & C) Ho. unfold decref. destruct (alive s o); [|discriminate]. intro E. injection E as <-.
    unfold held, sound, own, with_hp, add_rc in *. cbn [hp rc ext inp outp] in *.
    split; [|split; [|reflexivity]].
    - split; [exact A|]. split; [|exact C]. intro q. specialize (B q).
      destruct (q =? o) eqn:Q; [apply Z.eqb_eq in Q; subst q|]; lia.
    - intro q. unfold one. rewrite (Z.eqb_sym o q). destruct (q =? o); lia.
  Qed.

  Lemma put_state a v s s' : put a v s = Some s' ->
    hp s' = hp s /\ cw s' = cw s /\ aw s' = aw s /\ outp s a <> None /\
    (forall b, outp s' b = if b =? a then Some v else outp s b).
  Proof.
    unfold put, store. destruct (outp s a) eqn:E; [|discriminate]. cbn. intro H. injection H as <-.
    cbn. repeat split; congruence.
  Qed.

  Lemma put_ok a v s : outp s a <> None -> exists s', put a v s = Some s'.
  Proof. unfold put, store. destruct (outp s a); [cbn; eauto|congruence]. Qed.

  (** ** held references of the cores *)
  Lemma det2_held a b c d s r s' :
    sound (hp s) -> det2_ref P a b c d s = Some (r, s') -> held (oone r) s s'.
  Proof.
    intros Hs E. unfold det2_ref in E. apply bind_some in E as ([r0 s0] & E0 & E).
    pose proof (num_held _ _ _ _ _ _ Hs E0) as H0. destruct r0 as [p0|].
    2:{ injection E as <- <-. exact H0. }
    apply bind_some in E as ([r1 s1] & E1 & E).
    pose proof (num_held _ _ _ _ _ _ (proj1 H0) E1) as H1. destruct r1 as [p1|].
    2:{ apply bind_some in E as (s2 & E2 & E). injection E as <- <-.
        apply decref_held in E2; [|apply H1|].
        - eapply held_trans; [eapply held_trans; [exact H0|exact H1|intro; reflexivity]|exact E2|].
          intro o. cbn. lia.
        - destruct H1 as (_ & B1 & _), H0 as (_ & B0 & _), Hs as (_ & B & _).
          rewrite B1, B0. cbn. rewrite one_self. specialize (B p0). lia. }
    apply bind_some in E as ([r2 s2] & E2 & E).
    pose proof (num_held _ _ _ _ _ _ (proj1 H1) E2) as H2.
    apply bind_some in E as (s3 & E3 & E). apply bind_some in E as (s4 & E4 & E). injection E as <- <-.
    assert (H02 : held (fun o => one p0 o + one p1 o + oone r2 o) s s2).
    { eapply held_trans; [eapply held_trans; [exact H0|exact H1|intro; reflexivity]|exact H2|]. intro o. cbn. lia. }
    assert (N : forall o, 0 <= oone r2 o) by (intro o; destruct r2; cbn; [apply one_nonneg|lia]).
    apply decref_held in E3; [|apply H2|].
    2:{ destruct H02 as (_ & B2 & _), Hs as (_ & B & _). rewrite B2, one_self.
        specialize (B p0). pose proof (one_nonneg p1 p0). specialize (N p0). lia. }
    assert (H3 : held (fun o => one p1 o + oone r2 o) s s3).
    { eapply held_trans; [exact H02|exact E3|]. intro o. cbn. lia. }
    apply decref_held in E4; [|apply H3|].
    2:{ destruct H3 as (_ & B2 & _), Hs as (_ & B & _). rewrite B2, one_self.
        specialize (B p1). specialize (N p1). lia. }
    eapply held_trans; [exact H3|exact E4|]. intro o. cbn. lia.
  Qed.

  Lemma scan_held n px sx s r :
    sound (hp s) -> scan_ref P n px sx s = Some r ->
    held (fun _ => 0) s (match r with inl (_, _, s') => s' | inr s' => s' end).
  Proof.
    intros Hs E. unfold scan_ref in E. apply bind_some in E as (x0 & _ & E).
    unfold for_loop in E.
    apply (loop_inv (fun st => held (fun _ => 0) s (snd st)) (held (fun _ => 0) s)) in E.
    - destruct r as [[[? ?] ?]|?]; exact E.
    - intros k [[mn mx] t] c Ht B. cbn [snd] in Ht. unfold scan_step_ref in B.
      apply bind_some in B as (x & _ & B). apply bind_some in B as ([r1 s1] & B1 & B).
      apply rich_held in B1; [|apply Ht].
      assert (H1 : held (fun _ => 0) s s1) by (eapply held_trans; [exact Ht|exact B1|intro; lia]).
      destruct r1 as [[|]|]; [injection B as <-; exact H1| |injection B as <-; exact H1].
      apply bind_some in B as ([r2 s2] & B2 & B). apply rich_held in B2; [|apply H1].
      assert (H2 : held (fun _ => 0) s s2) by (eapply held_trans; [exact H1|exact B2|intro; lia]).
      destruct r2 as [[|]|]; injection B as <-; exact H2.
    - now apply held_refl.
  Qed.

  (** ** What a core does to the counts.  [cells] are the output cells of the slice. *)
  Lemma delivers_balanced cells s s' :
    fresh cells (outp s) -> delivers cells s s' -> balanced cells s s'.
  Proof.
    intros Hf (_ & _ & [[E H]|[H _]]) o.
    - rewrite E, H. lia.
    - rewrite H. assert (Z0 : refs cells (outp s) o = 0).
      { clear H. induction cells as [|a r IH]; cbn; [reflexivity|].
        rewrite (Hf a (or_introl eq_refl)). rewrite IH; [lia|]. intros b Hb. apply Hf. now right. }
      lia.
  Qed.

  Lemma delivers_none cells s s' : held (fun _ => 0) s s' -> delivers cells s s'.
  Proof.
    intros (A & B & C). split; [exact A|]. split; [intros a _; now rewrite C|].
    left. split; [exact C|]. intro o. rewrite B. lia.
  Qed.

  Lemma delivers_one po v s s1 s' :
    held (oone v) s s1 -> put po v s1 = Some s' -> delivers [po] s s'.
  Proof.
    intros (A & B & C) E. apply put_state in E as (E1 & _ & _ & E2 & E3). split; [now rewrite E1|]. split.
    - intros a Ha. rewrite E3, C. destruct (a =? po) eqn:Q; [|reflexivity]. apply Z.eqb_eq in Q. subst a.
      exfalso. apply Ha. now left.
    - right. split.
      + intro o. rewrite E1, B. cbn [refs]. rewrite E3, Z.eqb_refl. destruct v as [v|]; cbn; unfold one; [|lia].
        destruct (v =? o); lia.
      + intros a [<-|[]]. rewrite E3, Z.eqb_refl. discriminate.
  Qed.

  Lemma first_delivers n px sx op pt pw po s s' :
    sound (hp s) -> first_ref P n px sx op pt pw po s = Some s' -> delivers [po] s s'.
  Proof.
    intros Hs E. unfold first_ref in E. apply bind_some in E as (oth & _ & E).
    apply bind_some in E as ([res s1] & E1 & E). apply bind_some in E as (s2 & E2 & E). cbn [fst snd] in *.
    assert (H1 : held (fun _ => 0) s s1).
    { destruct ((0 <=? op) && (op <=? 5)).
      2:{ injection E1 as <- <-. now apply held_refl. }
      apply bind_some in E1 as (t & _ & E1). apply bind_some in E1 as (r & E0 & E1).
      unfold for_loop in E0.
      apply (loop_inv (fun st => held (fun _ => 0) s (snd st)) (fun _ => True)) in E0.
      - destruct r as [st|].
        + injection E1 as E1. rewrite E1 in E0. exact E0.
        + injection E1 as _ <-. now apply held_refl.
      - intros k [q t'] c Ht B. cbn [snd] in Ht.
        apply bind_some in B as (x & _ & B). apply bind_some in B as ([r1 s3] & B1 & B).
        apply rich_held in B1; [|apply Ht].
        assert (H1 : held (fun _ => 0) s s3) by (eapply held_trans; [exact Ht|exact B1|intro; lia]).
        destruct r1 as [[|]|]; injection B as <-; exact H1.
      - now apply held_refl. }
    eapply delivers_one; [|exact E].
    destruct res as [res|]; cbn in E2.
    - apply incref_held in E2; [|apply H1]. eapply held_trans; [exact H1|exact E2|]. intro o. cbn. lia.
    - injection E2 as <-. exact H1.
  Qed.

  Lemma ext_argext_delivers op n px sx po s r s' :
    sound (hp s) -> ext_argext_ref P op n px sx po s = Some (r, s') -> delivers [po] s s'.
  Proof.
    intros Hs E. unfold ext_argext_ref in E. apply bind_some in E as (x0 & _ & E).
    apply bind_some in E as (q & E0 & E). unfold for_loop in E0.
    apply (loop_inv (fun st => held (fun _ => 0) s (snd st)) (held (fun _ => 0) s)) in E0.
    - destruct q as [[[xm im] s1]|s1].
      2:{ injection E as _ <-. now apply delivers_none. }
      cbn [snd] in E0. apply bind_some in E as (s2 & E2 & E). apply bind_some in E as (s3 & E3 & E).
      injection E as _ <-. apply (delivers_one po (Some xm) s s2); [|exact E3].
      apply incref_held in E2; [|apply E0]. eapply held_trans; [exact E0|exact E2|]. intro o. cbn. lia.
    - intros k [[xm im] t] c Ht B. cbn [snd] in Ht.
      apply bind_some in B as (x & _ & B). apply bind_some in B as ([r1 s1] & B1 & B).
      apply rich_held in B1; [|apply Ht].
      assert (H1 : held (fun _ => 0) s s1) by (eapply held_trans; [exact Ht|exact B1|intro; lia]).
      destruct r1 as [[|]|]; injection B as <-; exact H1.
    - now apply held_refl.
  Qed.

  Lemma minmax_delivers n px sx po so s s' :
    so <> 0 -> sound (hp s) -> minmax_ref P n px sx po so s = Some s' -> delivers [po; po + so] s s'.
  Proof.
    intros Hso Hs E. unfold minmax_ref in E. apply bind_some in E as (r & E0 & E).
    apply scan_held in E0; [|exact Hs]. destruct r as [[[mn mx] s1]|s1].
    2:{ injection E as <-. now apply delivers_none. }
    apply bind_some in E as (s2 & E2 & E). apply bind_some in E as (s3 & E3 & E).
    apply bind_some in E as (s4 & E4 & E). replace (po + 1 * so) with (po + so) in E by lia.
    apply incref_held in E2; [|apply E0].
    apply incref_held in E3; [|apply E2].
    assert (H : held (fun o => one mn o + one mx o) s s3).
    { eapply held_trans; [eapply held_trans; [exact E0|exact E2|intro; reflexivity]|exact E3|]. intro o. cbn. lia. }
    clear E0 E2 E3. destruct H as (A & B & C).
    apply put_state in E4 as (F1 & _ & _ & F2 & F3). apply put_state in E as (G1 & _ & _ & G2 & G3).
    assert (N1 : (po =? po + so) = false) by (apply Z.eqb_neq; lia).
    split; [now rewrite G1, F1|]. split.
    - intros a Ha. rewrite G3, F3, C. destruct (a =? po + so) eqn:Q1; [|destruct (a =? po) eqn:Q2].
      + exfalso. apply Ha. apply Z.eqb_eq in Q1. subst. right. now left.
      + exfalso. apply Ha. apply Z.eqb_eq in Q2. subst. now left.
      + reflexivity.
    - right. split.
      + intro o. rewrite G1, F1, B. cbn [refs]. rewrite !G3, N1, !F3, !Z.eqb_refl. unfold one. lia.
      + intros a [<-|[<-|[]]]; rewrite G3; [rewrite N1, F3|]; rewrite Z.eqb_refl; discriminate.
  Qed.

  Lemma cross2_delivers pu su pv sv po s s' :
    sound (hp s) -> cross2_ref P pu su pv sv po s = Some s' -> delivers [po] s s'.
  Proof.
    intros Hs E. unfold cross2_ref in E.
    apply bind_some in E as (u0 & _ & E). apply bind_some in E as (u1 & _ & E).
    apply bind_some in E as (v0 & _ & E). apply bind_some in E as (v1 & _ & E).
    apply bind_some in E as ([r s1] & E1 & E). apply det2_held in E1; [|exact Hs].
    destruct r as [r|].
    - eapply delivers_one; [exact E1|exact E].
    - injection E as <-. now apply delivers_none.
  Qed.

  Lemma cross3_delivers pu su pv sv po so s s' :
    so <> 0 -> sound (hp s) -> cross3_ref P pu su pv sv po so s = Some s' ->
    delivers [po; po + so; po + 2 * so] s s'.
  Proof.
    intros Hso Hs E. unfold cross3_ref in E.
    apply bind_some in E as (u0 & _ & E). apply bind_some in E as (u1 & _ & E). apply bind_some in E as (u2 & _ & E).
    apply bind_some in E as (v0 & _ & E). apply bind_some in E as (v1 & _ & E). apply bind_some in E as (v2 & _ & E).
    apply bind_some in E as ([r0 s0] & E0 & E). apply det2_held in E0; [|exact Hs].
    destruct r0 as [o0|]. 2:{ injection E as <-. now apply delivers_none. }
    apply bind_some in E as ([r1 s1] & E1 & E). apply det2_held in E1; [|apply E0].
    assert (H1 : held (fun o => one o0 o + oone r1 o) s s1).
    { eapply held_trans; [exact E0|exact E1|]. intro o. reflexivity. }
    assert (N : forall r o, 0 <= oone r o) by (intros r o; destruct r; cbn; [apply one_nonneg|lia]).
    pose proof (proj1 (proj2 Hs)) as Own.
    destruct r1 as [o1|].
    2:{ apply decref_held in E; [|apply H1|].
        - apply delivers_none. eapply held_trans; [exact H1|exact E|]. intro o. cbn. lia.
        - rewrite (proj1 (proj2 H1)), one_self. specialize (Own o0). cbn. lia. }
    apply bind_some in E as ([r2 s2] & E2 & E). apply det2_held in E2; [|apply E1].
    assert (H2 : held (fun o => one o0 o + one o1 o + oone r2 o) s s2).
    { eapply held_trans; [exact H1|exact E2|]. intro o. cbn. lia. }
    destruct r2 as [o2|].
    2:{ apply bind_some in E as (s3 & E3 & E).
        apply decref_held in E3; [|apply H2|].
        2:{ rewrite (proj1 (proj2 H2)), one_self. specialize (Own o0). pose proof (one_nonneg o1 o0). cbn [oone]. lia. }
        assert (H3 : held (fun o => one o1 o) s s3).
        { eapply held_trans; [exact H2|exact E3|]. intro o. cbn. lia. }
        apply decref_held in E; [|apply H3|].
        - apply delivers_none. eapply held_trans; [exact H3|exact E|]. intro o. cbn. lia.
        - rewrite (proj1 (proj2 H3)), one_self. specialize (Own o1). lia. }
    apply bind_some in E as (s3 & E3 & E). apply bind_some in E as (s4 & E4 & E).
    replace (po + 0 * so) with po in E3 by lia. replace (po + 1 * so) with (po + so) in E4 by lia.
    clear E0 E1 E2 H1. destruct H2 as (A & B & C).
    apply put_state in E3 as (F1 & _ & _ & _ & F3). apply put_state in E4 as (G1 & _ & _ & _ & G3).
    apply put_state in E as (K1 & _ & _ & _ & K3).
    assert (N1 : (po =? po + so) = false) by (apply Z.eqb_neq; lia).
    assert (N2 : (po =? po + 2 * so) = false) by (apply Z.eqb_neq; lia).
    assert (N3 : (po + so =? po + 2 * so) = false) by (apply Z.eqb_neq; lia).
    split; [now rewrite K1, G1, F1|]. split.
    - intros a Ha. rewrite K3, G3, F3, C.
      destruct (a =? po + 2 * so) eqn:Q0; [|destruct (a =? po + so) eqn:Q1; [|destruct (a =? po) eqn:Q2]].
      + exfalso. apply Ha. apply Z.eqb_eq in Q0. subst. right. right. now left.
      + exfalso. apply Ha. apply Z.eqb_eq in Q1. subst. right. now left.
      + exfalso. apply Ha. apply Z.eqb_eq in Q2. subst. now left.
      + reflexivity.
    - right. split.
      + intro o. rewrite K1, G1, F1, B. cbn [refs oone]. rewrite !K3, N2, N3, !G3, N1, !F3, !Z.eqb_refl. unfold one. lia.
      + intros a [<-|[<-|[<-|[]]]]; rewrite K3.
        * rewrite N2, G3, N1, F3, Z.eqb_refl. discriminate.
        * rewrite N3, G3, Z.eqb_refl. discriminate.
        * rewrite Z.eqb_refl. discriminate.
  Qed.

  Lemma peaktopeak_slice_delivers n px sx po s c :
    sound (hp s) -> peaktopeak_slice_ref P n px sx po s = Some c ->
    delivers [po] s (match c with inl s' => s' | inr s' => s' end).
  Proof.
    intros Hs E. unfold peaktopeak_slice_ref in E. apply bind_some in E as (r & E0 & E).
    apply scan_held in E0; [|exact Hs]. destruct r as [[[mn mx] s1]|s1].
    2:{ injection E as <-. now apply delivers_none. }
    apply bind_some in E as (s2 & E2 & E). apply bind_some in E as (s3 & E3 & E).
    apply bind_some in E as ([d s4] & E4 & E). apply bind_some in E as (s5 & E5 & E). apply bind_some in E as (s6 & E6 & E).
    apply incref_held in E2; [|apply E0].
    apply incref_held in E3; [|apply E2].
    apply num_held in E4; [|apply E3].
    assert (H4 : held (fun o => one mn o + one mx o + oone d o) s s4).
    { eapply held_trans; [eapply held_trans; [eapply held_trans; [exact E0|exact E2|intro; reflexivity]|exact E3|
        intro; reflexivity]|exact E4|]. intro o. cbn. lia. }
    assert (N : forall r o, 0 <= oone r o) by (intros r o; destruct r; cbn; [apply one_nonneg|lia]).
    pose proof (proj1 (proj2 Hs)) as Own.
    apply decref_held in E5; [|apply H4|].
    2:{ rewrite (proj1 (proj2 H4)), one_self. specialize (Own mn). pose proof (one_nonneg mx mn). specialize (N d mn). lia. }
    assert (H5 : held (fun o => one mx o + oone d o) s s5).
    { eapply held_trans; [exact H4|exact E5|]. intro o. cbn. lia. }
    apply decref_held in E6; [|apply H5|].
    2:{ rewrite (proj1 (proj2 H5)), one_self. specialize (Own mx). specialize (N d mx). lia. }
    assert (H6 : held (oone d) s s6).
    { eapply held_trans; [exact H5|exact E6|]. intro o. cbn. lia. }
    destruct d as [d|].
    - apply bind_some in E as (s7 & E7 & E). injection E as <-. eapply delivers_one; [exact H6|exact E7].
    - injection E as <-. now apply delivers_none.
  Qed.
End Ref.

(** ** all slices of a call *)
Lemma refs_app c1 c2 m o : refs (c1 ++ c2) m o = refs c1 m o + refs c2 m o.
Proof. induction c1 as [|a r IH]; cbn [refs app]; [lia|]. rewrite IH. lia. Qed.
Lemma refs_ext c m m' o : (forall a, In a c -> m a = m' a) -> refs c m o = refs c m' o.
Proof.
  induction c as [|a r IH]; cbn [refs]; intro H; [reflexivity|].
  rewrite (H a (or_introl eq_refl)), IH; [reflexivity|]. intros b Hb. apply H. now right.
Qed.

Lemma NoDup_app_disj {A} (l1 l2 : list A) : NoDup (l1 ++ l2) ->
  NoDup l2 /\ (forall a, In a l1 -> ~ In a l2).
Proof.
  induction l1 as [|x l1 IH]; cbn; intro H; [split; [exact H|tauto]|].
  inversion H as [|? ? Hx Hr]; subst. destruct (IH Hr) as [I1 I2]. split; [exact I1|].
  intros a [->|Ha]; [|now apply I2]. intro Hb. apply Hx. apply in_or_app. now right.
Qed.

Lemma slice_step cells rest s s1 s2 :
  NoDup (cells ++ rest) -> fresh (cells ++ rest) (outp s) -> delivers cells s s1 ->
  fresh rest (outp s1) /\
  (balanced rest s1 s2 -> only rest s1 s2 -> balanced (cells ++ rest) s s2 /\ only (cells ++ rest) s s2).
Proof.
  intros Hn Hf Hd. destruct (NoDup_app_disj _ _ Hn) as [_ Dj].
  assert (Hb : balanced cells s s1).
  { apply delivers_balanced; [|exact Hd]. intros a Ha. apply Hf, in_or_app. now left. }
  destruct Hd as (_ & Ho & _). split.
  - intros a Ha. rewrite Ho; [apply Hf, in_or_app; now right|]. intro Hc. exact (Dj _ Hc Ha).
  - intros Hb2 Ho2. split.
    + intro o. rewrite !refs_app. specialize (Hb o). specialize (Hb2 o).
      rewrite (refs_ext cells (outp s2) (outp s1)) by (intros a Ha; apply Ho2; now apply Dj).
      rewrite <- (refs_ext rest (outp s1) (outp s)) by (intros a Ha; apply Ho; intro Hc; exact (Dj _ Hc Ha)).
      lia.
    + intros a Ha. rewrite Ho2, Ho; [reflexivity| |]; intro Hc; apply Ha, in_or_app; tauto.
Qed.

Lemma balanced_refl cells s : balanced cells s s /\ only cells s s.
Proof. split; [intro o; lia|intros a _; reflexivity]. Qed.

Lemma balanced_skip cells rest s s1 :
  NoDup (cells ++ rest) -> fresh (cells ++ rest) (outp s) -> delivers cells s s1 ->
  balanced (cells ++ rest) s s1 /\ only (cells ++ rest) s s1.
Proof. intros Hn Hf Hd. apply (slice_step cells rest s s1 s1 Hn Hf Hd); apply balanced_refl. Qed.

Lemma slices_from (cells : Z -> list Z) (core : Z -> pst -> M pst) :
  (forall i s s', sound (hp s) -> core i s = Some s' -> delivers (cells i) s s') ->
  forall n k s s', sound (hp s) ->
  NoDup (flat_map cells (map Z.of_nat (seq k n))) ->
  fresh (flat_map cells (map Z.of_nat (seq k n))) (outp s) ->
  iter_from n (Z.of_nat k) core s = Some s' ->
  balanced (flat_map cells (map Z.of_nat (seq k n))) s s' /\
  only (flat_map cells (map Z.of_nat (seq k n))) s s'.
Proof.
  intros Hc n. induction n as [|n IH]; intros k s s' Hs Hn Hf E.
  - cbn in E. injection E as <-. apply balanced_refl.
  - cbn [seq map flat_map] in *. cbn [iter_from] in E. apply bind_some in E as (s1 & E1 & E).
    pose proof (Hc _ _ _ Hs E1) as Hd.
    destruct (slice_step _ _ s s1 s' Hn Hf Hd) as [F K].
    replace (Z.of_nat k + 1) with (Z.of_nat (S k)) in E by lia.
    destruct (NoDup_app_disj _ _ Hn) as [Hn2 _].
    destruct (IH (S k) s1 s' (proj1 Hd) Hn2 F E) as [A B]. now apply K.
Qed.

Lemma slices_balanced (cells : Z -> list Z) (core : Z -> pst -> M pst) N s s' :
  (forall i s s', sound (hp s) -> core i s = Some s' -> delivers (cells i) s s') ->
  sound (hp s) -> NoDup (all_cells N cells) -> fresh (all_cells N cells) (outp s) ->
  slices N core s = Some s' ->
  balanced (all_cells N cells) s s' /\ only (all_cells N cells) s s'.
Proof.
  intros Hc Hs Hn Hf E. unfold slices, for_each in E. rewrite Z.sub_0_r in E.
  exact (slices_from cells core Hc _ 0%nat s s' Hs Hn Hf E).
Qed.

Lemma first_balanced P N n px dx sx (op : Z -> Z) pt dt pw dw po dout s s' :
  honest P -> sound (hp s) ->
  let cells := all_cells N (fun i => [po + i * dout]) in
  NoDup cells -> fresh cells (outp s) ->
  slices N (fun i => first_ref P n (px + i * dx) sx (op i) (pt + i * dt) (pw + i * dw) (po + i * dout)) s = Some s' ->
  balanced cells s s' /\ only cells s s'.
Proof.
  intros HP Hs cells Hn Hf E. eapply slices_balanced; [|exact Hs|exact Hn|exact Hf|exact E].
  intros i t t' Ht. now apply first_delivers.
Qed.

Lemma ext_argext_balanced P op N n px dx sx po dout s s' :
  honest P -> sound (hp s) ->
  let cells := all_cells N (fun i => [po + i * dout]) in
  NoDup cells -> fresh cells (outp s) ->
  slices N (fun i s => r <- ext_argext_ref P op n (px + i * dx) sx (po + i * dout) s ;; ret (snd r)) s = Some s' ->
  balanced cells s s' /\ only cells s s'.
Proof.
  intros HP Hs cells Hn Hf E. eapply slices_balanced; [|exact Hs|exact Hn|exact Hf|exact E].
  intros i t t' Ht F. apply bind_some in F as ([r t1] & F & G). injection G as <-. cbn [snd].
  eapply ext_argext_delivers; eauto.
Qed.

Lemma minmax_balanced P N n px dx sx po dout so s s' :
  honest P -> sound (hp s) -> so <> 0 ->
  let cells := all_cells N (fun i => [po + i * dout; po + i * dout + so]) in
  NoDup cells -> fresh cells (outp s) ->
  slices N (fun i => minmax_ref P n (px + i * dx) sx (po + i * dout) so) s = Some s' ->
  balanced cells s s' /\ only cells s s'.
Proof.
  intros HP Hs Hso cells Hn Hf E. eapply slices_balanced; [|exact Hs|exact Hn|exact Hf|exact E].
  intros i t t' Ht. now apply minmax_delivers.
Qed.

Lemma cross2_balanced P N pu du su pv dv sv po dout s s' :
  honest P -> sound (hp s) ->
  let cells := all_cells N (fun i => [po + i * dout]) in
  NoDup cells -> fresh cells (outp s) ->
  slices N (fun i => cross2_ref P (pu + i * du) su (pv + i * dv) sv (po + i * dout)) s = Some s' ->
  balanced cells s s' /\ only cells s s'.
Proof.
  intros HP Hs cells Hn Hf E. eapply slices_balanced; [|exact Hs|exact Hn|exact Hf|exact E].
  intros i t t' Ht. now apply cross2_delivers.
Qed.

Lemma cross3_balanced P N pu du su pv dv sv po dout so s s' :
  honest P -> sound (hp s) -> so <> 0 ->
  let cells := all_cells N (fun i => [po + i * dout; po + i * dout + so; po + i * dout + 2 * so]) in
  NoDup cells -> fresh cells (outp s) ->
  slices N (fun i => cross3_ref P (pu + i * du) su (pv + i * dv) sv (po + i * dout) so) s = Some s' ->
  balanced cells s s' /\ only cells s s'.
Proof.
  intros HP Hs Hso cells Hn Hf E. eapply slices_balanced; [|exact Hs|exact Hn|exact Hf|exact E].
  intros i t t' Ht. now apply cross3_delivers.
Qed.

Lemma peaktopeak_balanced P N n p step cstep po dout s s' :
  honest P -> sound (hp s) ->
  let cells := all_cells N (fun i => [po + i * dout]) in
  NoDup cells -> fresh cells (outp s) ->
  peaktopeak_loop_ref P N n p step cstep po dout s = Some s' ->
  balanced cells s s' /\ only cells s s'.
Proof.
  intros HP Hs cells Hn Hf E. unfold peaktopeak_loop_ref in E. destruct (n =? 0).
  { injection E as <-. split; [intro o; cbn [hp outp]; lia|intros a _; reflexivity]. }
  apply bind_some in E as (r & E & E'). unfold for_loop in E. rewrite Z.sub_0_r in E.
  injection E' as <-. unfold cells, all_cells in *. clear cells.
  change 0 with (Z.of_nat 0) in E. revert s r Hs Hn Hf E. generalize 0%nat as k.
  generalize (Z.to_nat N) as m. induction m as [|m IH]; intros k s r Hs Hn Hf E.
  - cbn in E. injection E as <-. apply balanced_refl.
  - cbn [seq map flat_map] in *. cbn [loop_from] in E.
    destruct (peaktopeak_slice_ref P n (p + Z.of_nat k * step) cstep (po + Z.of_nat k * dout) s) as [c|] eqn:B; [|discriminate].
    pose proof (peaktopeak_slice_delivers P HP _ _ _ _ _ _ Hs B) as Hd.
    destruct c as [s1|s1]; cbn in E.
    + destruct (slice_step _ _ s s1 (match r with inl s => s | inr s => s end) Hn Hf Hd) as [F K].
      replace (Z.of_nat k + 1) with (Z.of_nat (S k)) in E by lia.
      destruct (NoDup_app_disj _ _ Hn) as [Hn2 _].
      destruct (IH (S k) s1 r (proj1 Hd) Hn2 F E) as [A C]. now apply K.
    + injection E as <-. now apply balanced_skip.
Qed.

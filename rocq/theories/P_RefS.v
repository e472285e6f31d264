(** * P_RefS: the object cores with reference counts do what M_Obj.v and M_Geom.v say, as
    long as Python code leaves the input arrays alone; and what happens otherwise *)
From Coq Require Import ZArith List Bool Lia.
From Verif Require Import CSem M_Select M_Obj M_Geom M_Ref S_Ref P_Ref.
Import ListNotations.
Open Scope Z_scope.

Section Sim.
  Context (P : python) (HP : honest P) (HG : gentle P).

  Lemma alive_inp s a o : sound (hp s) -> inp (hp s) a = Some o -> alive s o = true.
  Proof.
    intros (A & B & C) H. specialize (C _ _ H). specialize (B o). unfold own, alive in *. apply Z.ltb_lt. lia.
  Qed.
  Lemma alive_own s o : sound (hp s) -> 1 <= own (hp s) o -> alive s o = true.
  Proof. intros (A & _) H. specialize (A o). unfold own, alive in *. apply Z.ltb_lt. lia. Qed.

  (** the state [s] belongs to the world [w], with the input memory [mx] still in place *)
  Definition at_ (mx : mem obj) (m : mem (option obj)) (w : world) (v : aworld) (s : pst) : Prop :=
    sound (hp s) /\ (forall a, inp (hp s) a = mx a) /\ outp s = m /\ cw s = w /\ aw s = v.

  Lemma rich_sim mx m w v s a b ia ib op r w' :
    at_ mx m w v s -> mx ia = Some a -> mx ib = Some b -> rich (cmp_ans P) a b op w = (r, w') ->
    exists s', rich_ref P a b op s = Some (r, s') /\ at_ mx m w' v s'.
  Proof.
    intros (A & B & C & D & F) Ha Hb E. rewrite <- B in Ha, Hb.
    assert (X : exists s', rich_ref P a b op s = Some (r, s') /\ outp s' = m /\ cw s' = w' /\ aw s' = v /\
                 forall q, inp (hp s') q = mx q).
    { unfold rich_ref. rewrite (alive_inp _ _ _ A Ha), (alive_inp _ _ _ A Hb). cbn [andb]. rewrite D, E.
      eexists. split; [reflexivity|]. cbn. repeat split; auto. intro q. destruct ((a =? b) && _); [apply B|].
      rewrite (proj1 HG). apply B. }
    destruct X as (s' & E' & X1 & X2 & X3 & X4). exists s'. split; [exact E'|].
    pose proof (rich_held P HP _ _ _ _ _ _ A E') as (S1 & _). repeat split; auto; apply S1.
  Qed.

  Lemma num_sim mx m w v s a b op r v' :
    at_ mx m w v s -> alive s a = true -> alive s b = true -> pynum (num_ans P) op a b v = (r, v') ->
    exists s', num_ref P op a b s = Some (r, s') /\ at_ mx m w v' s' /\ held (oone r) s s'.
  Proof.
    intros (A & B & C & D & F) Ha Hb E.
    assert (X : exists s', num_ref P op a b s = Some (r, s') /\ outp s' = m /\ cw s' = w /\ aw s' = v' /\
                 forall q, inp (hp s') q = mx q).
    { unfold num_ref. rewrite Ha, Hb. cbn [andb]. rewrite F, E.
      eexists. split; [reflexivity|]. cbn. repeat split; auto. intro q.
      rewrite (proj2 HG). apply B. }
    destruct X as (s' & E' & X1 & X2 & X3 & X4). exists s'. split; [exact E'|].
    pose proof (num_held P HP _ _ _ _ _ _ A E') as H. split; [|exact H].
    repeat split; auto; apply H.
  Qed.

  Lemma incref_sim mx m w v s o :
    at_ mx m w v s -> alive s o = true ->
    exists s', incref o s = Some s' /\ at_ mx m w v s' /\ held (one o) s s'.
  Proof.
    intros (A & B & C & D & F) Ho. assert (X : exists s', incref o s = Some s').
    { unfold incref. rewrite Ho. eexists. reflexivity. }
    destruct X as [s' E]. exists s'. split; [exact E|]. pose proof (incref_held _ _ _ A E) as H. split; [|exact H].
    unfold incref in E. rewrite Ho in E. injection E as <-. cbn in *. repeat split; auto; apply H.
  Qed.

  Lemma decref_sim mx m w v s o :
    at_ mx m w v s -> 1 <= own (hp s) o ->
    exists s', decref o s = Some s' /\ at_ mx m w v s' /\ held (fun q => - one o q) s s'.
  Proof.
    intros (A & B & C & D & F) Ho. pose proof (alive_own _ _ A Ho) as L.
    assert (X : exists s', decref o s = Some s').
    { unfold decref. rewrite L. eexists. reflexivity. }
    destruct X as [s' E]. exists s'. split; [exact E|]. pose proof (decref_held _ _ _ A Ho E) as H. split; [|exact H].
    unfold decref in E. rewrite L in E. injection E as <-. cbn in *. repeat split; auto; apply H.
  Qed.

  Lemma put_after mx m m' w v s a x :
    after mx w v m s -> m a <> None -> (forall b, m' b = if b =? a then Some x else m b) ->
    exists s', put a x s = Some s' /\ after mx w v m' s'.
  Proof.
    intros (A & B & C & D & F) Ha Hm. rewrite <- C in Ha. destruct (put_ok a x s Ha) as [s' E]. exists s'.
    split; [exact E|]. apply put_state in E as (E1 & E2 & E3 & _ & E4). unfold after.
    rewrite E1, E2, E3. repeat split; try apply A; auto.
    intro b. rewrite E4, Hm. destruct (b =? a); [reflexivity|apply C].
  Qed.
  Lemma at_after mx m w v s : at_ mx m w v s -> after mx w v m s.
  Proof. intros (A & B & C & D & F). repeat split; try apply A; auto. intro a. now rewrite C. Qed.

  (** *** min_argmin, max_argmax *)
  Lemma ext_argext_refines op n px sx po s r w' :
    sound (hp s) -> outp s po <> None ->
    ext_argext_object (cmp_ans P) op n (inp (hp s)) px sx (cw s) = Some (r, w') ->
    exists s', ext_argext_ref P op n px sx po s = Some (option_map snd r, s') /\
      after (inp (hp s)) w' (aw s)
        (match r with Some (x, _) => put_all [po] [Some x] (outp s) | None => outp s end) s'.
  Proof.
    intros Hs Hpo E. unfold ext_argext_object in E. apply bind_some in E as (x0 & E0 & E).
    apply bind_some in E as (q & E1 & E). unfold ext_argext_ref. cbv beta. unfold load at 1. unfold load in E0. rewrite E0. cbn [bind].
    set (mx := inp (hp s)) in *.
    pose (I := fun (st1 : obj * Z * world) (st2 : obj * Z * pst) =>
      fst st1 = fst st2 /\ at_ mx (outp s) (snd st1) (aw s) (snd st2) /\ exists a, mx a = Some (fst (fst st1))).
    unfold for_loop in *.
    eapply (loop_sim I (fun w t => at_ mx (outp s) w (aw s) t)) in E1 as (q2 & E2 & R).
    - rewrite E2. cbn [bind]. destruct q as [[[xm im] w1]|w1], q2 as [[[xm2 im2] s1]|s1]; try contradiction.
      + destruct R as (R1 & R2 & a & R3). cbn [fst snd] in *. injection R1 as <- <-. injection E as <- <-.
        destruct (incref_sim _ _ _ _ _ xm R2) as (s2 & F2 & G2 & _).
        { eapply alive_inp; [apply R2|]. rewrite (proj1 (proj2 R2)). exact R3. }
        rewrite F2. cbn [bind].
        destruct (put_after mx (outp s) (put_all [po] [Some xm] (outp s)) w1 (aw s) s2 po (Some xm)) as (s3 & F3 & G3).
        { now apply at_after. } { exact Hpo. } { intro b. reflexivity. }
        rewrite F3. cbn. eexists. split; [reflexivity|exact G3].
      + injection E as <- <-. cbn. eexists. split; [reflexivity|]. now apply at_after.
    - intros k [[xm im] w1] [[xm2 im2] s1] c (R1 & R2 & a & R3) B. cbn [fst snd] in *. injection R1 as <- <-.
      apply bind_some in B as (x & Bx & B). unfold get, load in *.
      rewrite (proj1 (proj2 R2)), Bx. cbn [bind].
      destruct (rich (cmp_ans P) x xm op w1) as [rr w2] eqn:Er.
      destruct (rich_sim _ _ _ _ _ _ _ _ _ op _ _ R2 Bx R3 Er) as (s2 & F & G). rewrite F. cbn [bind].
      destruct rr as [[|]|]; injection B as <-; eexists; (split; [reflexivity|]); try exact G;
        (split; [reflexivity|]); split; cbn; eauto.
    - split; [reflexivity|]. split; [|eexists; exact E0]. cbn. repeat split; auto; apply Hs.
  Qed.

  (** *** the scan *)
  Lemma scan_sim n px sx s r w' :
    sound (hp s) ->
    minmax_scan_object (cmp_ans P) n (inp (hp s)) px sx (cw s) = Some (r, w') ->
    exists q, scan_ref P n px sx s = Some q /\
      match r, q with
      | Some (xmin, xmax, _, _), inl (a, b, t) =>
          xmin = a /\ xmax = b /\ at_ (inp (hp s)) (outp s) w' (aw s) t /\
          (exists i, inp (hp s) i = Some xmin) /\ (exists i, inp (hp s) i = Some xmax)
      | None, inr t => at_ (inp (hp s)) (outp s) w' (aw s) t
      | _, _ => False
      end.
  Proof.
    intros Hs E. unfold minmax_scan_object in E. apply bind_some in E as (x0 & E0 & E).
    apply bind_some in E as (q & E1 & E). unfold scan_ref. unfold load at 1. unfold load in E0. rewrite E0. cbn [bind].
    set (mx := inp (hp s)) in *.
    pose (I := fun (st1 : obj * obj * Z * Z * world) (st2 : obj * obj * pst) =>
      let '(mn, mxx, _, _, w) := st1 in
      (mn, mxx) = fst st2 /\ at_ mx (outp s) w (aw s) (snd st2) /\
      (exists a, mx a = Some mn) /\ (exists a, mx a = Some mxx)).
    unfold for_loop in *.
    eapply (loop_sim I (fun w t => at_ mx (outp s) w (aw s) t)) in E1 as (q2 & E2 & R).
    - exists q2. split; [exact E2|].
      destruct q as [[[[[mn mxx] i] j] w1]|w1], q2 as [[[mn2 mxx2] s1]|s1]; try contradiction.
      + injection E as <- <-. destruct R as (R1 & R2 & R3 & R4). cbn [fst snd] in *. injection R1 as <- <-. repeat split; auto; apply R2.
      + injection E as <- <-. exact R.
    - intros k [[[[mn mxx] i] j] w1] [[mn2 mxx2] s1] c (R1 & R2 & (a & R3) & (b & R4)) B. cbn [fst snd] in *. injection R1 as <- <-.
      apply bind_some in B as (x & Bx & B). unfold scan_step_ref, get, load in *.
      rewrite (proj1 (proj2 R2)), Bx. cbn [bind].
      destruct (rich (cmp_ans P) x mn Py_LT w1) as [rr w2] eqn:Er.
      destruct (rich_sim _ _ _ _ _ _ _ _ _ _ _ _ R2 Bx R3 Er) as (s2 & F & G). rewrite F. cbn [bind].
      destruct rr as [[|]|].
      + injection B as <-. eexists. split; [reflexivity|]. repeat split; cbn; eauto; apply G.
      + destruct (rich (cmp_ans P) x mxx Py_GT w2) as [r2 w3] eqn:Er2.
        destruct (rich_sim _ _ _ _ _ _ _ _ _ _ _ _ G Bx R4 Er2) as (s3 & F3 & G3). rewrite F3. cbn [bind].
        destruct r2 as [[|]|]; injection B as <-; eexists; (split; [reflexivity|]); try exact G3; repeat split; cbn; eauto; apply G3.
      + injection B as <-. eexists. split; [reflexivity|]. exact G.
    - split; [reflexivity|]. split; [|split; eexists; exact E0]. cbn. repeat split; auto; apply Hs.
  Qed.

  Lemma minmax_refines n px sx po so s r w' :
    sound (hp s) -> outp s po <> None -> outp s (po + so) <> None ->
    minmax_object_core (cmp_ans P) n (inp (hp s)) px sx (cw s) = Some (r, w') ->
    exists s', minmax_ref P n px sx po so s = Some s' /\
      after (inp (hp s)) w' (aw s)
        (match r with Some (a, b) => put_all [po; po + so] [Some a; Some b] (outp s) | None => outp s end) s'.
  Proof.
    intros Hs H1 H2 E. unfold minmax_object_core in E. apply bind_some in E as ([r0 w0] & E & E'). injection E' as <- <-.
    cbn [fst snd]. destruct (scan_sim _ _ _ _ _ _ Hs E) as (q & F & R). unfold minmax_ref. rewrite F. cbn [bind].
    destruct r0 as [[[[mn mx] i] j]|], q as [[[a b] t]|t]; try contradiction.
    - destruct R as (<- & <- & R & (ia & Ra) & (ib & Rb)).
      destruct (incref_sim _ _ _ _ _ mn R) as (s2 & F2 & G2 & _).
      { eapply alive_inp; [apply R|]. rewrite (proj1 (proj2 R)). exact Ra. }
      rewrite F2. cbn [bind].
      destruct (incref_sim _ _ _ _ _ mx G2) as (s3 & F3 & G3 & _).
      { eapply alive_inp; [apply G2|]. rewrite (proj1 (proj2 G2)). exact Rb. }
      rewrite F3. cbn [bind option_map]. apply at_after in G3.
      destruct (put_after _ _ (put_all [po] [Some mn] (outp s)) _ _ s3 po (Some mn) G3 H1) as (s4 & F4 & G4).
      { intro b. reflexivity. }
      rewrite F4. cbn [bind]. replace (po + 1 * so) with (po + so) by lia.
      destruct (put_after _ _ (put_all [po; po + so] [Some mn; Some mx] (outp s)) _ _ s4 (po + so) (Some mx) G4) as (s5 & F5 & G5).
      { cbn. destruct (po + so =? po); [discriminate|exact H2]. } { intro b. reflexivity. }
      exists s5. split; [exact F5|exact G5].
    - eexists. split; [reflexivity|]. now apply at_after.
  Qed.

  Lemma peaktopeak_refines n px sx po s r w' :
    sound (hp s) -> outp s po <> None ->
    peaktopeak_object (cmp_ans P) (fun a b _ => num_ans P ((OSub, a, b) :: ahist (aw s))) n (inp (hp s)) px sx (cw s) = Some (r, w') ->
    exists c, peaktopeak_slice_ref P n px sx po s = Some c /\
      match r, c with
      | Some d, inl s' =>
          sound (hp s') /\ (forall a, inp (hp s') a = inp (hp s) a) /\
          (forall a, outp s' a = put_all [po] [Some d] (outp s) a) /\ cw s' = w' /\ aerr (aw s') = aerr (aw s)
      | None, inr s' =>
          sound (hp s') /\ (forall a, inp (hp s') a = inp (hp s) a) /\
          (forall a, outp s' a = outp s a) /\ hist (cw s') = hist w' /\
          (err (cw s') = true \/ aerr (aw s') = true)
      | _, _ => False
      end.
  Proof.
    intros Hs H1 E. unfold peaktopeak_object in E. apply bind_some in E as ([r0 w0] & E & E').
    destruct (scan_sim _ _ _ _ _ _ Hs E) as (q & F & R). unfold peaktopeak_slice_ref. rewrite F. cbn [bind].
    destruct r0 as [[[[mn mx] i] j]|], q as [[[a b] t]|t]; try contradiction.
    - destruct R as (<- & <- & R & (ia & Ra) & (ib & Rb)).
      destruct (incref_sim _ _ _ _ _ mn R) as (s2 & F2 & G2 & K2).
      { eapply alive_inp; [apply R|]. rewrite (proj1 (proj2 R)). exact Ra. }
      rewrite F2. cbn [bind].
      destruct (incref_sim _ _ _ _ _ mx G2) as (s3 & F3 & G3 & K3).
      { eapply alive_inp; [apply G2|]. rewrite (proj1 (proj2 G2)). exact Rb. }
      rewrite F3. cbn [bind].
      destruct (pynum (num_ans P) OSub mx mn (aw s)) as [d v'] eqn:Ed.
      destruct (num_sim _ _ _ _ _ mx mn OSub d v' G3) as (s4 & F4 & G4 & K4).
      { eapply alive_inp; [apply G3|]. rewrite (proj1 (proj2 G3)). exact Rb. }
      { eapply alive_inp; [apply G3|]. rewrite (proj1 (proj2 G3)). exact Ra. }
      { exact Ed. }
      rewrite F4. cbn [bind].
      pose proof (proj1 (proj2 (proj1 R))) as Own.
      assert (N : forall o, 0 <= oone d o) by (intro o; destruct d; cbn [oone]; [apply one_nonneg|lia]).
      destruct (decref_sim _ _ _ _ _ mn G4) as (s5 & F5 & G5 & K5).
      { rewrite (proj1 (proj2 K4)), (proj1 (proj2 K3)), (proj1 (proj2 K2)), one_self. specialize (Own mn).
        specialize (N mn). pose proof (one_nonneg mx mn). lia. }
      rewrite F5. cbn [bind].
      destruct (decref_sim _ _ _ _ _ mx G5) as (s6 & F6 & G6 & K6).
      { rewrite (proj1 (proj2 K5)), (proj1 (proj2 K4)), (proj1 (proj2 K3)), (proj1 (proj2 K2)), one_self. specialize (Own mx).
        specialize (N mx). lia. }
      rewrite F6. cbn [bind]. unfold pynum in Ed. cbv zeta in Ed.
      destruct (num_ans P ((OSub, mx, mn) :: ahist (aw s))) as [d'|] eqn:En; injection Ed as <- <-; injection E' as <- <-.
      + apply at_after in G6.
        destruct (put_after _ _ (put_all [po] [Some d'] (outp s)) _ _ s6 po (Some d') G6 H1) as (s7 & F7 & G7).
        { intro b. reflexivity. }
        rewrite F7. cbn. eexists. split; [reflexivity|]. destruct G7 as (A & B & C & D & G). rewrite G. repeat split; auto; apply A.
      + eexists. split; [reflexivity|]. destruct G6 as (A & B & C & D & G). rewrite C, D, G. cbn. repeat split; auto; apply A.
    - injection E' as <- <-. eexists. split; [reflexivity|]. destruct R as (A & B & C & D & G). rewrite C, D.
      repeat split; try apply A; auto.
      (* the scan ends early only after an exception *)
      left. clear - E. unfold minmax_scan_object in E. apply bind_some in E as (x0 & _ & E).
      apply bind_some in E as (q & E1 & E). unfold for_loop in E1.
      apply (loop_inv (fun _ => True) (fun w => err w = true)) in E1; [|clear; intros k [[[[a b] i] j] w] c _ B|exact I].
      + destruct q as [[[[[? ?] ?] ?] ?]|w1]; [discriminate|]. injection E as <-. exact E1.
      + assert (X : forall a b op w w', rich (cmp_ans P) a b op w = (None, w') -> err w' = true).
        { clear. intros a b op w w'. unfold rich. destruct (a =? b); [destruct (op =? Py_EQ); [|destruct (op =? Py_NE)]|];
            try discriminate; destruct (cmp_ans P _); try discriminate; intro E; injection E as <-; reflexivity. }
        apply bind_some in B as (x & _ & B). destruct (rich _ x a Py_LT w) as [[[|]|] w2] eqn:E1.
        * injection B as <-. exact I.
        * destruct (rich _ x b Py_GT w2) as [[[|]|] w3] eqn:E2; injection B as <-; try exact I. eapply X; exact E2.
        * injection B as <-. eapply X; exact E1.
  Qed.

  (** *** first *)
  Lemma first_refines n px sx op pt pw po target otherwise s r w' :
    sound (hp s) -> outp s po <> None ->
    inp (hp s) pt = Some target -> inp (hp s) pw = Some otherwise ->
    first_core_calc_object (cmp_ans P) n (inp (hp s)) px sx op target otherwise (cw s) = Some (r, w') ->
    exists s', first_ref P n px sx op pt pw po s = Some s' /\
      after (inp (hp s)) w' (aw s) (put_all [po] [r] (outp s)) s'.
  Proof.
    intros Hs H1 Ht Ho E. unfold first_ref. unfold load at 1. rewrite Ho. cbn [bind].
    set (mx := inp (hp s)) in *.
    assert (X : exists s1,
      (if (0 <=? op) && (op <=? 5)
       then
        target0 <- load mx pt ;;
        r0 <- for_loop 0 n
                (fun k st => let '(result, s) := st in
                   x <- get (inp (hp s)) px sx k ;;
                   c <- rich_ref P x target0 op s ;;
                   match c with
                   | (None, s) => ret (@Brk (option obj * pst) unit (None, s))
                   | (Some true, s) => ret (Brk (Some x, s))
                   | (Some false, s) => ret (Next (result, s))
                   end) (Some otherwise, s) ;;
        ret match r0 with inl st => st | inr _ => (Some otherwise, s) end
       else ret (Some otherwise, s)) = Some (r, s1) /\ at_ mx (outp s) w' (aw s) s1 /\
      match r with Some x => exists a, mx a = Some x | None => True end).
    { unfold first_core_calc_object in E. destruct ((0 <=? op) && (op <=? 5)).
      2:{ injection E as <- <-. exists s. split; [reflexivity|]. split; [|exists pw; exact Ho]. repeat split; auto; apply Hs. }
      unfold load. rewrite Ht. cbn [bind]. apply bind_some in E as (q & E1 & E). unfold for_loop in *.
      eapply (loop_sim (fun st1 st2 => fst st1 = fst st2 /\ at_ mx (outp s) (snd st1) (aw s) (snd st2) /\
                 match fst st1 with Some x => exists a, mx a = Some x | None => True end) (fun _ _ => False)) in E1 as (q2 & E2 & R).
      - unfold get, load in *. rewrite E2. cbn [bind]. destruct q as [[r1 w1]|?], q2 as [[r2 s2]|?]; try contradiction.
        destruct R as (R1 & R2 & R3). cbn [fst snd] in *. subst r2. injection E as <- <-. exists s2. auto.
      - intros k [r1 w1] [r2 s2] c (R1 & R2 & R3) B. cbn [fst snd] in *. subst r2.
        apply bind_some in B as (x & Bx & B). unfold get, load in *.
        rewrite (proj1 (proj2 R2)), Bx. cbn [bind].
        destruct (rich (cmp_ans P) x target op w1) as [rr w2] eqn:Er.
        destruct (rich_sim _ _ _ _ _ _ _ _ _ _ _ _ R2 Bx Ht Er) as (s3 & F & G). rewrite F. cbn [bind].
        destruct rr as [[|]|]; injection B as <-; eexists; (split; [reflexivity|]); repeat split; cbn; eauto; apply G.
      - repeat split; cbn; eauto; apply Hs. }
    destruct X as (s1 & -> & G & K). cbn [bind fst snd].
    assert (Y : exists s2, xincref r s1 = Some s2 /\ at_ mx (outp s) w' (aw s) s2).
    { destruct r as [x|]; cbn [xincref]; [|eauto]. destruct K as [a Ka].
      destruct (incref_sim _ _ _ _ _ x G) as (s2 & F2 & G2 & _); [|eauto].
      eapply alive_inp; [apply G|]. rewrite (proj1 (proj2 G)). exact Ka. }
    destruct Y as (s2 & -> & G2). cbn [bind]. apply at_after in G2.
    apply (put_after _ _ _ _ _ _ _ _ G2 H1). intro b. reflexivity.
  Qed.

  (** *** cross *)
  Lemma det2_sim mx m w v s a b c d ia ib ic id r v' :
    at_ mx m w v s -> mx ia = Some a -> mx ib = Some b -> mx ic = Some c -> mx id = Some d ->
    det2 (num_ans P) a b c d v = (r, v') ->
    exists s', det2_ref P a b c d s = Some (r, s') /\ at_ mx m w v' s' /\ held (oone r) s s'.
  Proof.
    intros R Ha Hb Hc Hd E. unfold det2 in E. unfold det2_ref.
    assert (AL : forall t v o i, at_ mx m w v t -> mx i = Some o -> alive t o = true).
    { intros t v0 o i T H. eapply alive_inp; [apply T|]. rewrite (proj1 (proj2 T)). exact H. }
    assert (N : forall r o, 0 <= oone r o) by (intros q o; destruct q; cbn [oone]; [apply one_nonneg|lia]).
    pose proof (proj1 (proj2 (proj1 R))) as Own.
    destruct (pynum (num_ans P) OMul a d v) as [r0 v0] eqn:E0.
    destruct (num_sim _ _ _ _ _ a d OMul _ _ R (AL _ _ _ _ R Ha) (AL _ _ _ _ R Hd) E0) as (s0 & F0 & G0 & K0).
    rewrite F0. cbn [bind]. destruct r0 as [p0|].
    2:{ injection E as <- <-. exists s0. auto. }
    destruct (pynum (num_ans P) OMul b c v0) as [r1 v1] eqn:E1.
    destruct (num_sim _ _ _ _ _ b c OMul _ _ G0 (AL _ _ _ _ G0 Hb) (AL _ _ _ _ G0 Hc) E1) as (s1 & F1 & G1 & K1).
    rewrite F1. cbn [bind].
    assert (K01 : held (fun o => one p0 o + oone r1 o) s s1) by (eapply held_trans; [exact K0|exact K1|intro; reflexivity]).
    destruct r1 as [p1|].
    2:{ injection E as <- <-. destruct (decref_sim _ _ _ _ _ p0 G1) as (s2 & F2 & G2 & K2).
        { rewrite (proj1 (proj2 K01)), one_self. specialize (Own p0). cbn [oone]. lia. }
        rewrite F2. cbn [bind]. exists s2. split; [reflexivity|]. split; [exact G2|].
        eapply held_trans; [exact K01|exact K2|]. intro o. cbn [oone]. lia. }
    destruct (num_sim _ _ _ _ _ p0 p1 OSub r v' G1) as (s2 & F2 & G2 & K2).
    { apply alive_own; [apply G1|]. rewrite (proj1 (proj2 K01)), one_self. specialize (Own p0). specialize (N (Some p1) p0). lia. }
    { apply alive_own; [apply G1|]. rewrite (proj1 (proj2 K01)). cbn [oone]. rewrite one_self. specialize (Own p1). pose proof (one_nonneg p0 p1). lia. }
    { exact E. }
    rewrite F2. cbn [bind].
    assert (K02 : held (fun o => one p0 o + one p1 o + oone r o) s s2).
    { eapply held_trans; [exact K01|exact K2|]. intro o. cbn [oone]. lia. }
    destruct (decref_sim _ _ _ _ _ p0 G2) as (s3 & F3 & G3 & K3).
    { rewrite (proj1 (proj2 K02)), one_self. specialize (Own p0). specialize (N r p0). pose proof (one_nonneg p1 p0). lia. }
    rewrite F3. cbn [bind].
    assert (K03 : held (fun o => one p1 o + oone r o) s s3).
    { eapply held_trans; [exact K02|exact K3|]. intro o. cbn. lia. }
    destruct (decref_sim _ _ _ _ _ p1 G3) as (s4 & F4 & G4 & K4).
    { rewrite (proj1 (proj2 K03)), one_self. specialize (Own p1). specialize (N r p1). lia. }
    rewrite F4. cbn [bind]. exists s4. split; [reflexivity|]. split; [exact G4|].
    eapply held_trans; [exact K03|exact K4|]. intro o. cbn. lia.
  Qed.

  (** *** cross2, cross3: the model of M_Geom.v writes objects, here a cell may be NULL *)
  Lemma det2_err a b c d v r v' :
    aerr v = false -> det2 (num_ans P) a b c d v = (r, v') ->
    aerr v' = match r with Some _ => false | None => true end.
  Proof.
    intros Hv. unfold det2, pynum.
    repeat (destruct (num_ans P _) as [?|]; cbn [ahist aerr]; [|intro E; injection E as <- <-; reflexivity]).
    intro E; injection E as <- <-. exact Hv.
  Qed.

  Lemma store_at m a (x : obj) m' : store m a x = Some m' ->
    m a <> None /\ forall b, m' b = if b =? a then Some x else m b.
  Proof. unfold store. destruct (m a); [|discriminate]. intro E. injection E as <-. split; [discriminate|reflexivity]. Qed.

  Lemma cross2_refines pu su pv sv po mo s mo' v' :
    sound (hp s) -> (forall a, mo a = None <-> outp s a = None) -> aerr (aw s) = false ->
    cross2_core_calc_object (num_ans P) (inp (hp s)) pu su (inp (hp s)) pv sv mo po (aw s) = Some (mo', v') ->
    exists s', cross2_ref P pu su pv sv po s = Some s' /\
      after (inp (hp s)) (cw s) v' (if aerr v' then outp s else given [po] mo' (outp s)) s'.
  Proof.
    intros Hs Hd Hv E. unfold cross2_core_calc_object in E. unfold cross2_ref, get, load in *.
    destruct (inp (hp s) (pu + 0 * su)) as [u0|] eqn:U0; [|discriminate]. cbn [bind] in *.
    destruct (inp (hp s) (pu + 1 * su)) as [u1|] eqn:U1; [|discriminate]. cbn [bind] in *.
    destruct (inp (hp s) (pv + 0 * sv)) as [v0|] eqn:V0; [|discriminate]. cbn [bind] in *.
    destruct (inp (hp s) (pv + 1 * sv)) as [v1|] eqn:V1; [|discriminate]. cbn [bind] in *.
    destruct (det2 (num_ans P) u0 u1 v0 v1 (aw s)) as [r w] eqn:D.
    assert (R : at_ (inp (hp s)) (outp s) (cw s) (aw s) s) by (repeat split; auto; apply Hs).
    destruct (det2_sim _ _ _ _ _ _ _ _ _ _ _ _ _ _ _ R U0 U1 V0 V1 D) as (s1 & F & G & _).
    pose proof (det2_err _ _ _ _ _ _ _ Hv D) as X.
    rewrite F. cbn [bind]. destruct r as [r|].
    - apply bind_some in E as (m1 & E & E'). injection E' as <- <-. rewrite X.
      apply store_at in E as [Ea Eb]. apply at_after in G.
      apply (put_after _ _ _ _ _ _ _ _ G).
      + intro Hn. apply Ea, Hd, Hn.
      + intro b. unfold given. cbn [existsb]. rewrite orb_false_r, Eb. now destruct (b =? po).
    - injection E as <- <-. rewrite X. exists s1. split; [reflexivity|]. now apply at_after.
  Qed.

  Lemma cross3_refines pu su pv sv po so mo s mo' v' :
    sound (hp s) -> (forall a, mo a = None <-> outp s a = None) -> aerr (aw s) = false ->
    cross3_core_calc_object (num_ans P) (inp (hp s)) pu su (inp (hp s)) pv sv mo po so (aw s) = Some (mo', v') ->
    exists s', cross3_ref P pu su pv sv po so s = Some s' /\
      after (inp (hp s)) (cw s) v' (if aerr v' then outp s else given [po; po + so; po + 2 * so] mo' (outp s)) s'.
  Proof.
    intros Hs Hd Hv E. unfold cross3_core_calc_object in E. unfold cross3_ref, get, load in *.
    destruct (inp (hp s) (pu + 0 * su)) as [u0|] eqn:U0; [|discriminate]. cbn [bind] in *.
    destruct (inp (hp s) (pu + 1 * su)) as [u1|] eqn:U1; [|discriminate]. cbn [bind] in *.
    destruct (inp (hp s) (pu + 2 * su)) as [u2|] eqn:U2; [|discriminate]. cbn [bind] in *.
    destruct (inp (hp s) (pv + 0 * sv)) as [v0|] eqn:V0; [|discriminate]. cbn [bind] in *.
    destruct (inp (hp s) (pv + 1 * sv)) as [v1|] eqn:V1; [|discriminate]. cbn [bind] in *.
    destruct (inp (hp s) (pv + 2 * sv)) as [v2|] eqn:V2; [|discriminate]. cbn [bind] in *.
    assert (R : at_ (inp (hp s)) (outp s) (cw s) (aw s) s) by (repeat split; auto; apply Hs).
    pose proof (proj1 (proj2 Hs)) as Own.
    destruct (det2 (num_ans P) u1 u2 v1 v2 (aw s)) as [r0 w0] eqn:D0.
    destruct (det2_sim _ _ _ _ _ _ _ _ _ _ _ _ _ _ _ R U1 U2 V1 V2 D0) as (s0 & F0 & G0 & K0).
    pose proof (det2_err _ _ _ _ _ _ _ Hv D0) as X0. rewrite F0. cbn [bind]. destruct r0 as [o0|].
    2:{ injection E as <- <-. rewrite X0. exists s0. split; [reflexivity|]. now apply at_after. }
    destruct (det2 (num_ans P) u2 u0 v2 v0 w0) as [r1 w1] eqn:D1.
    destruct (det2_sim _ _ _ _ _ _ _ _ _ _ _ _ _ _ _ G0 U2 U0 V2 V0 D1) as (s1 & F1 & G1 & K1).
    pose proof (det2_err _ _ _ _ _ _ _ X0 D1) as X1. rewrite F1. cbn [bind].
    assert (K01 : held (fun o => one o0 o + oone r1 o) s s1) by (eapply held_trans; [exact K0|exact K1|intro; reflexivity]).
    destruct r1 as [o1|].
    2:{ injection E as <- <-. rewrite X1. destruct (decref_sim _ _ _ _ _ o0 G1) as (s2 & F2 & G2 & _).
        { rewrite (proj1 (proj2 K01)), one_self. specialize (Own o0). cbn [oone]. lia. }
        exists s2. split; [exact F2|]. now apply at_after. }
    destruct (det2 (num_ans P) u0 u1 v0 v1 w1) as [r2 w2] eqn:D2.
    destruct (det2_sim _ _ _ _ _ _ _ _ _ _ _ _ _ _ _ G1 U0 U1 V0 V1 D2) as (s2 & F2 & G2 & K2).
    pose proof (det2_err _ _ _ _ _ _ _ X1 D2) as X2. rewrite F2. cbn [bind].
    assert (K02 : held (fun o => one o0 o + one o1 o + oone r2 o) s s2).
    { eapply held_trans; [exact K01|exact K2|]. intro o. cbn [oone]. lia. }
    destruct r2 as [o2|].
    2:{ injection E as <- <-. rewrite X2. destruct (decref_sim _ _ _ _ _ o0 G2) as (s3 & F3 & G3 & K3).
        { rewrite (proj1 (proj2 K02)), one_self. specialize (Own o0). pose proof (one_nonneg o1 o0). cbn [oone]. lia. }
        rewrite F3. cbn [bind]. destruct (decref_sim _ _ _ _ _ o1 G3) as (s4 & F4 & G4 & _).
        { rewrite (proj1 (proj2 K3)), (proj1 (proj2 K02)), one_self. specialize (Own o1). cbn [oone]. lia. }
        exists s4. split; [exact F4|]. now apply at_after. }
    apply bind_some in E as (m0 & E0 & E). apply bind_some in E as (m1 & E1 & E). apply bind_some in E as (m2 & E2 & E).
    injection E as <- <-. rewrite X2. unfold set in *. apply at_after in G2.
    apply store_at in E0 as [A0 B0]. apply store_at in E1 as [A1 B1]. apply store_at in E2 as [A2 B2].
    set (o := outp s) in *.
    assert (NN : forall a, mo a <> None -> o a <> None) by (intros a Ha Hn; apply Ha, Hd, Hn).
    destruct (put_after _ _ (put_all [po + 0 * so] [Some o0] o) _ _ s2 (po + 0 * so) (Some o0) G2) as (s3 & F3 & G3).
    { apply NN, A0. } { intro b; reflexivity. }
    rewrite F3. cbn [bind].
    destruct (put_after _ _ (put_all [po + 0 * so; po + 1 * so] [Some o0; Some o1] o) _ _ s3 (po + 1 * so) (Some o1) G3) as (s4 & F4 & G4).
    { cbn [put_all]. rewrite B0 in A1. destruct (po + 1 * so =? po + 0 * so); [discriminate|]. apply NN, A1. } { intro b; reflexivity. }
    rewrite F4. cbn [bind].
    apply (put_after _ _ _ _ _ _ _ _ G4).
    { cbn [put_all]. rewrite B1, B0 in A2. destruct (po + 2 * so =? po + 1 * so); [discriminate|].
      destruct (po + 2 * so =? po + 0 * so); [discriminate|]. apply NN, A2. }
    intro b. unfold given. cbn [existsb put_all]. rewrite orb_false_r, B2, B1, B0.
    replace (po + 1 * so) with (po + so) by lia. replace (po + 0 * so) with po by lia.
    destruct (b =? po + 2 * so), (b =? po + so), (b =? po); reflexivity.
  Qed.
End Sim.

(** ** Concrete Python code *)
(** four objects 1..4 in the input array, each held once; 5 is the value of every product
    and difference; 9 is held by the output array only *)
Definition heap0 : heap :=
  mkH (fun o => if (1 <=? o) && (o <=? 4) || (o =? 9) then 1 else 0)
      (fun o => if (1 <=? o) && (o <=? 4) then 1 else 0)
      (fun a => if a =? 0 then Some 1 else if a =? 8 then Some 2 else if a =? 16 then Some 3
                else if a =? 24 then Some 4 else None).
(** output cells at 100, 108, 116 *)
Definition out0 (v : option obj) : mem (option obj) :=
  fun a => if (a =? 100) || (a =? 108) || (a =? 116) then Some v else None.
Definition st0 (v : option obj) : pst := mkS heap0 (out0 v) (mkW [] false) (mkAW [] false).

(** well-behaved code: every comparison is false *)
Definition py_calm : python := mkPy (fun _ => Some false) (fun _ h => h) (fun _ => Some 5) (fun _ h => add_rc h 5 1).
(** the same answers, but each call replaces object 1 by object 2 in the arrays and drops
    every reference to object 1 *)
Definition evict (h : heap) : heap :=
  mkH (fun o => if o =? 1 then own h 1 else if o =? 2 then rc h o + 1 else rc h o)
      (fun o => if o =? 1 then 0 else if o =? 2 then ext h o + 1 else ext h o)
      (fun a => match inp h a with Some o => Some (if o =? 1 then 2 else o) | None => None end).
Definition py_evict : python :=
  mkPy (fun _ => Some false) (fun _ h => evict h) (fun _ => Some 5) (fun _ h => add_rc (evict h) 5 1).

Lemma heap0_sound : sound heap0.
Proof.
  split; [|split].
  - intro o. unfold heap0. cbn [ext]. destruct (_ && _); lia.
  - intro o. unfold own, heap0. cbn [rc ext]. destruct ((1 <=? o) && (o <=? 4)), (o =? 9); cbn; lia.
  - intros a o. unfold heap0. cbn [inp ext].
    repeat (destruct (_ =? _); [intro E; injection E as <-; cbn; lia|]). discriminate.
Qed.

Lemma add_rc_sound h o : sound h -> sound (add_rc h o 1) /\
  (forall q, own (add_rc h o 1) q = own h q + (if o =? q then 1 else 0)) /\
  (forall a, inp (add_rc h o 1) a = inp h a).
Proof.
  intros (A & B & C). unfold sound, own, add_rc in *. cbn [rc ext inp] in *. repeat split; auto.
  - intro q. specialize (B q). destruct (q =? o); lia.
  - intro q. rewrite (Z.eqb_sym o q). destruct (q =? o); lia.
Qed.

Lemma evict_sound h : sound h -> sound (evict h) /\ (forall q, own (evict h) q = own h q) /\
  (forall a, inp (evict h) a = None <-> inp h a = None).
Proof.
  intros (A & B & C).
  assert (O : forall q, own (evict h) q = own h q).
  { intro q. unfold own, evict. cbn [rc ext]. destruct (q =? 1) eqn:E1; [apply Z.eqb_eq in E1; subst; unfold own; lia|].
    destruct (q =? 2); lia. }
  split; [|split; [exact O|]].
  - split; [|split].
    + intro o. specialize (A o). unfold evict. cbn [ext]. destruct (o =? 1); [lia|]. destruct (o =? 2); lia.
    + intro o. rewrite O. apply B.
    + intros a o. unfold evict. cbn [inp ext]. destruct (inp h a) as [q|] eqn:E; [|discriminate].
      intro H. injection H as <-. destruct (q =? 1) eqn:Q.
      * cbn. specialize (A 2). lia.
      * rewrite Q. specialize (C _ _ E). destruct (q =? 2); lia.
  - intro a. unfold evict. cbn [inp]. destruct (inp h a); split; congruence.
Qed.

Lemma calm_honest : honest py_calm /\ gentle py_calm.
Proof.
  split; [split|split]; cbn [py_calm cmp_eff num_eff num_ans].
  - intros c h Hs. cbv zeta. split; [exact Hs|]. split; [reflexivity|tauto].
  - intros c h Hs. cbv zeta. destruct (add_rc_sound h 5 Hs) as (A & B & C). split; [exact A|]. split; [exact B|].
    intro a. rewrite C. tauto.
  - reflexivity.
  - reflexivity.
Qed.

Lemma evict_honest : honest py_evict.
Proof.
  split; cbn [py_evict cmp_eff num_eff num_ans]; intros c h Hs; destruct (evict_sound h Hs) as (A & B & C).
  - auto.
  - destruct (add_rc_sound _ 5 A) as (A' & B' & C'). split; [exact A'|]. split.
    + intro o. rewrite B', B. reflexivity.
    + intro a. rewrite C'. apply C.
Qed.

Lemma leak_by (run : M pst) v :
  match run with
  | Some s' => (match outp s' 100 with Some (Some x) => x =? v | _ => false end) && negb (v =? 9) &&
               (rc (hp s') 9 =? 1) && (own (hp s') 9 =? 1) && (refs [100] (outp s') 9 =? 0)
  | None => false
  end = true ->
  exists s', run = Some s' /\ (exists v, outp s' 100 = Some (Some v) /\ v <> 9) /\
    rc (hp s') 9 = 1 /\ ~ balanced [100] (st0 (Some 9)) s'.
Proof.
  destruct run as [s'|]; [|discriminate]. intro H. repeat (apply andb_prop in H as [H ?]). exists s'. split; [reflexivity|].
  apply Z.eqb_eq in H0, H1, H2. apply negb_true_iff, Z.eqb_neq in H3. split; [|split; [exact H2|]].
  - exists v. destruct (outp s' 100) as [[x|]|]; try discriminate. apply Z.eqb_eq in H. subst x. auto.
  - intro B. specialize (B 9). rewrite H0, H1 in B. cbn in B. discriminate.
Qed.
Lemma some_by {A} (x : M A) : match x with Some _ => true | None => false end = true -> x <> None.
Proof. destruct x; discriminate. Qed.

(** *** an output array that already holds objects is overwritten without releasing them *)
Lemma leak :
  exists P s po q,
    honest P /\ gentle P /\ sound (hp s) /\ outp s po = Some (Some q) /\ own (hp s) q = 1 /\
    (forall run : pst -> M pst,
       In run [ first_ref P 2 8 8 Py_LT 0 24 po;
                (fun s => r <- min_argmin_ref P 3 0 8 po s ;; ret (snd r));
                (fun s => r <- max_argmax_ref P 3 0 8 po s ;; ret (snd r));
                minmax_ref P 3 0 8 po 8;
                peaktopeak_loop_ref P 1 3 0 0 8 po 0;
                cross2_ref P 8 (-8) 16 8 po;
                cross3_ref P 16 (-8) 8 8 po 8 ] ->
       exists s', run s = Some s' /\ (exists v, outp s' po = Some (Some v) /\ v <> q) /\
         rc (hp s') q = 1 /\ ~ balanced [po] s s').
Proof.
  exists py_calm, (st0 (Some 9)), 100, 9.
  split; [apply calm_honest|]. split; [apply calm_honest|]. split; [exact heap0_sound|].
  split; [reflexivity|]. split; [reflexivity|].
  intros run H. repeat (destruct H as [<-|H]; [|]); [..|contradiction].
  - apply (leak_by _ 4); vm_compute; reflexivity.
  - apply (leak_by _ 1); vm_compute; reflexivity.
  - apply (leak_by _ 1); vm_compute; reflexivity.
  - apply (leak_by _ 1); vm_compute; reflexivity.
  - apply (leak_by _ 5); vm_compute; reflexivity.
  - apply (leak_by _ 5); vm_compute; reflexivity.
  - apply (leak_by _ 5); vm_compute; reflexivity.
Qed.

(** *** Python code that replaces an element of the array: the running minimum, the
    target or an operand is freed while the loop still uses it *)
Lemma use_after_free :
  exists P P' s,
    honest P /\ honest P' /\ gentle P' /\ (forall h, cmp_ans P h = cmp_ans P' h) /\ (forall h, num_ans P h = num_ans P' h) /\
    sound (hp s) /\
    first_ref P' 2 8 8 Py_LT 0 24 100 s <> None /\ first_ref P 2 8 8 Py_LT 0 24 100 s = None /\
    min_argmin_ref P' 3 0 8 100 s <> None /\ min_argmin_ref P 3 0 8 100 s = None /\
    max_argmax_ref P' 3 0 8 100 s <> None /\ max_argmax_ref P 3 0 8 100 s = None /\
    minmax_ref P' 3 0 8 100 8 s <> None /\ minmax_ref P 3 0 8 100 8 s = None /\
    peaktopeak_loop_ref P' 1 3 0 0 8 100 0 s <> None /\ peaktopeak_loop_ref P 1 3 0 0 8 100 0 s = None /\
    cross2_ref P' 8 (-8) 16 8 100 s <> None /\ cross2_ref P 8 (-8) 16 8 100 s = None /\
    cross3_ref P' 16 (-8) 8 8 100 8 s <> None /\ cross3_ref P 16 (-8) 8 8 100 8 s = None.
Proof.
  exists py_evict, py_calm, (st0 None).
  split; [exact evict_honest|]. split; [apply calm_honest|]. split; [apply calm_honest|].
  split; [reflexivity|]. split; [reflexivity|]. split; [exact heap0_sound|].
  repeat split; first [apply some_by; vm_compute; reflexivity | vm_compute; reflexivity].
Qed.

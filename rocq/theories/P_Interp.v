(** Proofs about linear_interp1d. *)
From Coq Require Import ZArith Reals List Bool Lia Lra.
From Verif Require Import CSem CSemP Num NumP M_Signal S_Signal.
Import ListNotations.
Open Scope Z_scope.

Lemma Forall2_len {X Y} (P : X -> Y -> Prop) l1 l2 : Forall2 P l1 l2 -> length l1 = length l2.
Proof. induction 1; cbn; congruence. Qed.

Section Search.
  Context {T : Type} (A : arith T).
  Notation cmp := (a_cmp A).
  Hypothesis L : cmp_laws cmp.
  Notation lt := (ltb cmp).
  Notation eq := (eqb cmp).
  Notation nan := (isnanb cmp).

  Lemma lt_or_eq_or_gt x y : nan x = false -> nan y = false -> eq x y = false -> lt x y = false -> lt y x = true.
  Proof.
    intros Hx Hy He Hl. pose proof (not_lt_le cmp L x y Hx Hy Hl) as H.
    rewrite leb_lt_or_eq in H. apply orb_true_iff in H. destruct H as [H|H]; [exact H|].
    rewrite (eqb_sym cmp L) in H. congruence.
  Qed.

  Variables (ma : mem T) (pa stride : Z) (xs : list T) (key : T).
  Hypothesis V : view ma pa stride xs.
  Hypothesis Nn : forall a, In a xs -> nan a = false.
  Hypothesis Nk : nan key = false.

  Lemma at_load k a : nth_error xs k = Some a -> load ma (pa + Z.of_nat k * stride) = Some a.
  Proof.
    intros H. unfold load. rewrite V; [exact H|]. apply nth_error_Some. congruence.
  Qed.

  (** the position found *)
  Definition found (k : nat) : Prop :=
    exists a, nth_error xs k = Some a /\
      (eq key a = true \/ (lt a key = true /\ exists a', nth_error xs (k + 1) = Some a' /\ lt key a' = true)).

  Lemma search_loop_correct fuel : forall lo hi a b, (hi - lo <= fuel)%nat -> (lo < hi)%nat ->
    nth_error xs lo = Some a -> nth_error xs hi = Some b -> lt a key = true -> lt key b = true ->
    exists k, interp_search_loop A fuel key ma pa stride (Z.of_nat lo) (Z.of_nat hi) = Some (Z.of_nat k) /\ found k.
  Proof.
    induction fuel as [|fuel IH]; intros lo hi a b Hf Hl Ha Hb La Lb; [lia|].
    cbn [interp_search_loop]. destruct (Z.of_nat hi >? Z.of_nat lo + 1) eqn:E.
    - apply Z.gtb_lt in E. set (m := ((lo + hi) / 2)%nat).
      assert (Em : Z.quot (Z.of_nat lo + Z.of_nat hi) 2 = Z.of_nat m).
      { unfold m. rewrite Z.quot_div_nonneg by lia. rewrite Nat2Z.inj_div. f_equal. lia. }
      rewrite Em.
      assert (Hm : (lo < m < hi)%nat).
      { unfold m. split; [apply Nat.div_le_lower_bound; lia|apply Nat.div_lt_upper_bound; lia]. }
      destruct (nth_error xs m) as [v|] eqn:Ev.
      2:{ apply nth_error_None in Ev. assert (hi < length xs)%nat by (apply nth_error_Some; congruence). lia. }
      rewrite (at_load m v Ev). cbn [bind].
      assert (Nv : nan v = false) by (apply Nn; eapply nth_error_In; exact Ev).
      destruct (eq v key) eqn:Ee.
      + exists m. split; [reflexivity|]. exists v. split; [exact Ev|]. left. rewrite (eqb_sym cmp L). exact Ee.
      + destruct (lt v key) eqn:El.
        * apply (IH m hi v b); try assumption; lia.
        * apply (IH lo m a v); try assumption; try lia. apply lt_or_eq_or_gt; assumption.
    - exists lo. split; [reflexivity|]. exists a. split; [exact Ha|]. right. split; [exact La|].
      exists b. split; [|exact Lb]. rewrite <- Hb. f_equal.
      rewrite Z.gtb_ltb in E. apply Z.ltb_ge in E. lia.
  Qed.

  Lemma search_correct a b :
    nth_error xs 0 = Some a -> nth_error xs (length xs - 1) = Some b -> lt key a = false -> lt b key = false ->
    exists k, interp_search A key ma pa (Z.of_nat (length xs)) stride = Some (Z.of_nat k) /\ found k.
  Proof.
    intros Ha Hb Ka Kb.
    assert (Na : nan a = false) by (apply Nn; eapply nth_error_In; exact Ha).
    assert (Nb : nan b = false) by (apply Nn; eapply nth_error_In; exact Hb).
    assert (HL : (0 < length xs)%nat) by (apply nth_error_Some; congruence).
    unfold interp_search. destruct (Z.eqb_spec (Z.of_nat (length xs)) 1) as [E1|E1].
    - exists O. split; [reflexivity|]. exists a. split; [exact Ha|]. left.
      replace (length xs - 1)%nat with O in Hb by lia. assert (b = a) by congruence. subst b.
      destruct (eq key a) eqn:Ee; [reflexivity|].
      pose proof (lt_or_eq_or_gt key a Nk Na Ee Ka). congruence.
    - change 0 with (Z.of_nat 0) at 1; rewrite (at_load 0 a Ha). cbn [bind]. destruct (eq key a) eqn:Eka.
      + exists O. split; [reflexivity|]. exists a. auto.
      + replace (Z.of_nat (length xs) - 1) with (Z.of_nat (length xs - 1)) by lia.
        rewrite (at_load _ b Hb). cbn [bind]. destruct (eq key b) eqn:Ekb.
        * exists (length xs - 1)%nat. split; [reflexivity|]. exists b. auto.
        * assert (La : lt a key = true) by (apply lt_or_eq_or_gt; assumption).
          assert (Lb : lt key b = true).
          { apply lt_or_eq_or_gt; try assumption. rewrite (eqb_sym cmp L). exact Ekb. }
          destruct (Z.eqb_spec (Z.of_nat (length xs)) 2) as [E2|E2].
          -- exists O. split; [reflexivity|]. exists a. split; [exact Ha|]. right. split; [exact La|].
             exists b. split; [|exact Lb]. rewrite <- Hb. f_equal. lia.
          -- rewrite Nat2Z.id. change 0 with (Z.of_nat 0).
             apply (search_loop_correct (length xs) 0 (length xs - 1) a b); try assumption; lia.
  Qed.

  (** the position is unique in an increasing list *)
  Definition pos (k : nat) : Prop :=
    exists a, nth_error xs k = Some a /\ leb cmp a key = true /\
      forall a', nth_error xs (k + 1) = Some a' -> lt key a' = true.
  Hypothesis Inc : increasing cmp xs.

  Lemma pos_unique j k : pos j -> pos k -> j = k.
  Proof.
    assert (G : forall j k, (j < k)%nat -> pos j -> pos k -> False).
    { clear j k. intros j k Hjk (a & Ea & _ & Ha) (b & Eb & Hb & _).
      assert (Hk : (k < length xs)%nat) by (apply nth_error_Some; congruence).
      destruct (nth_error xs (j + 1)) as [a'|] eqn:Ea'; [|apply nth_error_None in Ea'; lia].
      specialize (Ha a' eq_refl).
      assert (H : leb cmp a' b = true).
      { destruct (Nat.eq_dec (j + 1) k) as [E|E].
        - subst k. assert (a' = b) by congruence. subst b. apply (leb_refl cmp L). apply Nn. eapply nth_error_In; exact Eb.
        - apply (ltb_leb cmp). apply (Inc (j + 1)%nat k); [lia|exact Ea'|exact Eb]. }
      pose proof (lt_le_trans cmp L _ _ _ Ha H) as H1.
      pose proof (lt_not_le cmp L _ _ H1). congruence. }
    intros Hj Hk. destruct (Nat.lt_total j k) as [H|[H|H]]; [exfalso; eapply G; eassumption|exact H|exfalso; eapply G; eassumption].
  Qed.
  Lemma pos_eq k a : nth_error xs k = Some a -> eq key a = true -> pos k.
  Proof.
    intros Ha He. exists a. split; [exact Ha|]. split.
    - apply (eqb_leb cmp). rewrite (eqb_sym cmp L). exact He.
    - intros a' Ha'. apply (le_lt_trans cmp L) with a; [apply (eqb_leb cmp); exact He|].
      apply (Inc k (k + 1)%nat); [lia|exact Ha|exact Ha'].
  Qed.
  Lemma pos_between k a a' : nth_error xs k = Some a -> nth_error xs (k + 1) = Some a' ->
    lt a key = true -> lt key a' = true -> pos k.
  Proof.
    intros Ha Ha' H1 H2. exists a. split; [exact Ha|]. split; [apply (ltb_leb cmp); exact H1|].
    intros a2 E. congruence.
  Qed.
  Lemma found_pos k : found k -> pos k.
  Proof.
    intros (a & Ha & [H|(H & a' & Ha' & H')]); [eapply pos_eq; eassumption|eapply pos_between; eassumption].
  Qed.

  (** the value obtained from the position found *)
  Lemma found_interp line fs k a v : length fs = length xs -> found k -> nth_error xs k = Some a ->
    lt key (hd a xs) = false -> (forall b, nth_error xs (length xs - 1) = Some b -> lt b key = false) ->
    (if eq key a
     then exists b, nth_error fs k = Some b /\ v = b
     else exists b a' b', nth_error fs k = Some b /\ nth_error xs (k + 1) = Some a' /\ nth_error fs (k + 1) = Some b' /\
          v = line a b a' b' key) ->
    interp_at A line xs fs key v.
  Proof.
    intros HL Hf Ha Hlo Hhi Hv. pose proof (found_pos k Hf) as Hp. split; [|split; [|split]].
    - intros a0 E0 H. exfalso. destruct xs as [|x0 xs']; [discriminate|]. cbn in *. congruence.
    - intros b Eb H. exfalso. rewrite (Hhi b Eb) in H. discriminate.
    - intros k' a1 b1 Ea1 Eb1 He. pose proof (pos_unique k' k (pos_eq k' a1 Ea1 He) Hp). subst k'.
      assert (a1 = a) by congruence. subst a1. rewrite He in Hv. destruct Hv as (b & Eb & ->). congruence.
    - intros k' a1 a2 b1 b2 E1 E2 F1 F2 H1 H2. pose proof (pos_unique k' k (pos_between k' a1 a2 E1 E2 H1 H2) Hp). subst k'.
      assert (a1 = a) by congruence. subst a1.
      destruct (eq key a) eqn:Ee.
      + exfalso. pose proof (lt_not_le cmp L _ _ H1) as H. rewrite (eqb_leb cmp _ _ Ee) in H. discriminate.
      + destruct Hv as (b & a' & b' & G1 & G2 & G3 & ->). congruence.
  Qed.
End Search.

Section Loop.
  Context {T : Type} (A : arith T).
  Notation cmp := (a_cmp A).
  Hypothesis L : cmp_laws cmp.
  Notation lt := (ltb cmp).
  Notation eq := (eqb cmp).
  Notation nan := (isnanb cmp).

  Lemma last_exists (xs : list T) : xs <> [] -> exists b, nth_error xs (length xs - 1) = Some b.
  Proof.
    intros H. destruct (nth_error xs (length xs - 1)) as [b|] eqn:E; [eauto|].
    apply nth_error_None in E. destruct xs; [congruence|cbn in E; lia].
  Qed.

  (** one iteration of the general loop *)
  Lemma interp_general_correct mxp pxp xps mfp pfp fps xs fs x :
    xs <> [] -> length fs = length xs ->
    view mxp pxp xps xs -> view mfp pfp fps fs -> (forall a, In a xs -> nan a = false) -> nan x = false ->
    increasing cmp xs ->
    exists v, interp_general A (Z.of_nat (length xs)) (Some x) mxp pxp xps mfp pfp fps = Some v /\
      interp_at A (line_general A) xs fs x v.
  Proof.
    intros Hne HL Vx Vf Nn Nx Inc. destruct xs as [|x0 xs']; [congruence|]. set (xs := x0 :: xs') in *.
    destruct (last_exists xs Hne) as (xl & El). unfold interp_general.
    replace (Z.of_nat (length xs) <? 1) with false by (symmetry; apply Z.ltb_ge; unfold xs; cbn [length]; lia).
    cbn [bind]. rewrite (view_load mxp pxp xps x0 xs' Vx). cbn [bind].
    replace (Z.of_nat (length xs) - 1) with (Z.of_nat (length xs - 1)) by (unfold xs; cbn [length]; lia).
    rewrite (at_load mxp pxp xps xs Vx _ xl El). cbn [bind]. rewrite (gtb_ltb cmp L).
    destruct (lt x x0) eqn:E0; cbn [orb].
    - exists (a_nan A). split; [reflexivity|]. split; [auto|]. split; [auto|].
      assert (G : forall k a, nth_error xs k = Some a -> lt x a = true).
      { intros k a Ha. destruct k as [|k]; [unfold xs in Ha; cbn in Ha; congruence|].
        apply (ltb_trans cmp L) with x0; [exact E0|]. apply (Inc O (S k)); [lia|reflexivity|exact Ha]. }
      split.
      + intros k a b Ha _ He. exfalso. pose proof (lt_not_le cmp L _ _ (G k a Ha)) as H.
        rewrite (eqb_sym cmp L) in He. rewrite (eqb_leb cmp _ _ He) in H. discriminate.
      + intros k a a' b b' Ha _ _ _ H1 _. exfalso. pose proof (lt_not_le cmp L _ _ (G k a Ha)) as H.
        rewrite (ltb_leb cmp _ _ H1) in H. discriminate.
    - destruct (lt xl x) eqn:E1.
      + exists (a_nan A). split; [reflexivity|]. split; [auto|]. split; [auto|].
        assert (G : forall k a, nth_error xs k = Some a -> lt a x = true).
        { intros k a Ha. assert (k < length xs)%nat by (apply nth_error_Some; congruence).
          destruct (Nat.eq_dec k (length xs - 1)) as [->|Hk]; [congruence|].
          apply (ltb_trans cmp L) with xl; [|exact E1]. apply (Inc k (length xs - 1)%nat); [lia|exact Ha|exact El]. }
        split.
        * intros k a b Ha _ He. exfalso. pose proof (lt_not_le cmp L _ _ (G k a Ha)) as H.
          rewrite (eqb_leb cmp _ _ He) in H. discriminate.
        * intros k a a' b b' _ Ha _ _ _ H1. exfalso. pose proof (lt_not_le cmp L _ _ (G _ a' Ha)) as H.
          rewrite (ltb_leb cmp _ _ H1) in H. discriminate.
      + destruct (search_correct A L mxp pxp xps xs x Vx Nn Nx x0 xl) as (k & Es & Hf); try assumption; [reflexivity|].
        rewrite Es. cbn [bind]. pose proof Hf as Hf'. destruct Hf' as (a & Ha & Hcase).
        assert (Hk : (k < length xs)%nat) by (apply nth_error_Some; congruence).
        destruct (nth_error fs k) as [b|] eqn:Eb; [|apply nth_error_None in Eb; lia].
        rewrite (at_load mxp pxp xps xs Vx _ a Ha). cbn [bind].
        rewrite (at_load mfp pfp fps fs Vf _ b Eb). cbn [bind].
        destruct (eq x a) eqn:Ee.
        * exists b. split; [reflexivity|].
          eapply (found_interp A L mxp pxp xps xs x Vx Nn Nx Inc (line_general A) fs k a); try eassumption; [intros; congruence|].
          rewrite Ee. exists b. auto.
        * destruct Hcase as [H|(Hlt & a' & Ha' & Hlt')]; [congruence|].
          assert (Hk1 : (k + 1 < length xs)%nat) by (apply nth_error_Some; congruence).
          destruct (nth_error fs (k + 1)) as [b'|] eqn:Eb'; [|apply nth_error_None in Eb'; lia].
          replace (Z.of_nat k + 1) with (Z.of_nat (k + 1)) by lia.
          rewrite (at_load mxp pxp xps xs Vx _ a' Ha'). cbn [bind].
          rewrite (at_load mfp pfp fps fs Vf _ b' Eb'). cbn [bind].
          eexists. split; [reflexivity|].
          eapply (found_interp A L mxp pxp xps xs x Vx Nn Nx Inc (line_general A) fs k a); try eassumption; [intros; congruence|].
          rewrite Ee. exists b, a', b'. auto.
  Qed.

  Lemma emit_list {X} (P : X -> T -> Prop) (g : Z -> M T) po so (l : list X) : forall (k : nat) (mo : mem T),
    (forall i x, nth_error l i = Some x -> exists v, g (Z.of_nat (k + i)) = Some v /\ P x v) ->
    (forall i, (i < length l)%nat -> mo (po + (Z.of_nat k + Z.of_nat i) * so) <> None) ->
    exists vs, Forall2 P l vs /\
      iter_from (length l) (Z.of_nat k) (fun j m => v <- g j ;; set m po so j v) mo = Some (upds mo po so (Z.of_nat k) vs).
  Proof.
    induction l as [|x l IH]; intros k mo Hg Ho.
    - exists []. split; [constructor|reflexivity].
    - destruct (Hg O x eq_refl) as (v & Ev & Pv). rewrite Nat.add_0_r in Ev.
      cbn [length iter_from]. rewrite Ev. cbn [bind]. rewrite set_upd.
      2:{ specialize (Ho O ltac:(cbn; lia)). cbn [Z.of_nat] in Ho. rewrite Z.add_0_r in Ho. exact Ho. }
      cbn [bind]. destruct (IH (S k) (upd mo (po + Z.of_nat k * so) v)) as (vs & HF & E).
      + intros i y Hy. destruct (Hg (S i) y Hy) as (w & Ew & Pw). exists w. split; [|exact Pw].
        rewrite <- Ew. f_equal. lia.
      + intros i Hi. unfold upd. destruct (_ =? _); [discriminate|].
        replace (Z.of_nat (S k) + Z.of_nat i) with (Z.of_nat k + Z.of_nat (S i)) by lia. apply Ho. cbn [length]. lia.
      + exists (v :: vs). split; [constructor; assumption|].
        cbn [upds]. replace (Z.of_nat k + 1) with (Z.of_nat (S k)) by lia. exact E.
  Qed.

  Theorem interp_general_loop n mx px sx0 mxp pxp sxp0 xps mfp pfp sfp0 fps mo po so rows :
    (0 < n)%nat -> (sx0 <> 0 \/ sxp0 <> 0) ->
    (forall j r, nth_error rows j = Some r -> row_ok A n mx px sx0 mxp pxp sxp0 xps mfp pfp sfp0 fps j r) ->
    writable mo po so (length rows) ->
    exists vs,
      writes (interp_loop A (Z.of_nat (length rows)) (Z.of_nat n) mx px sx0 mxp pxp sxp0 xps mfp pfp sfp0 fps mo po so)
        mo po so vs /\
      Forall2 (fun r v => let '(x, xs, fs) := r in interp_at A (line_general A) xs fs x v) rows vs.
  Proof.
    intros Hn Hs Hr W. unfold interp_loop.
    replace ((sx0 =? 0) && (sxp0 =? 0)) with false.
    2:{ symmetry. apply andb_false_iff. destruct Hs as [H|H]; [left|right]; apply Z.eqb_neq; exact H. }
    unfold for_each. rewrite Z.sub_0_r, Nat2Z.id.
    destruct (emit_list (fun r v => let '(x, xs, fs) := r in interp_at A (line_general A) xs fs x v)
      (fun j => interp_general A (Z.of_nat n) (load mx (px + j * sx0)) mxp (pxp + j * sxp0) xps
                               mfp (pfp + j * sfp0) fps) po so rows O mo) as (vs & HF & E).
    - intros i [[x xs] fs] Hi. cbn [Nat.add]. destruct (Hr i _ Hi) as (Ex & Lx & Lf & Vx & Vf & Nx & Nn & Inc).
      unfold load at 1. rewrite Ex. subst n.
      apply interp_general_correct; try assumption. destruct xs; [cbn in Hn; lia|discriminate].
    - intros i Hi. rewrite Z.add_0_l. apply W. exact Hi.
    - exists vs. split; [|exact HF]. change 0 with (Z.of_nat 0). rewrite E.
      eapply writes_upds; [exact W|]. symmetry. eapply Forall2_len; exact HF.
  Qed.

  (** the path for a common x and xp *)
  Theorem interp_fast_loop mx px mxp pxp xps mfp pfp sfp0 fps mo po so x xs fps_l :
    xs <> [] -> mx px = Some x -> view mxp pxp xps xs -> nan x = false -> (forall a, In a xs -> nan a = false) ->
    increasing cmp xs ->
    (forall j fs, nth_error fps_l j = Some fs -> length fs = length xs /\ view mfp (pfp + Z.of_nat j * sfp0) fps fs) ->
    writable mo po so (length fps_l) ->
    exists vs,
      writes (interp_loop A (Z.of_nat (length fps_l)) (Z.of_nat (length xs)) mx px 0 mxp pxp 0 xps mfp pfp sfp0 fps mo po so)
        mo po so vs /\
      Forall2 (fun fs v => interp_at A (line_fast A) xs fs x v) fps_l vs.
  Proof.
    intros Hne Ex Vx Nx Nn Inc Hr W. unfold interp_loop. cbn [Z.eqb andb]. unfold interp_fast.
    unfold load at 1. rewrite Ex. cbn [bind].
    destruct xs as [|x0 xs']; [congruence|]. set (xs := x0 :: xs') in *.
    destruct (last_exists xs Hne) as (xl & El).
    rewrite (view_load mxp pxp xps x0 xs' Vx). cbn [bind].
    replace (Z.of_nat (length xs) - 1) with (Z.of_nat (length xs - 1)) by (unfold xs; cbn [length]; lia).
    rewrite (at_load mxp pxp xps xs Vx _ xl El). cbn [bind]. rewrite (gtb_ltb cmp L).
    assert (Ho : forall i, (i < length fps_l)%nat -> mo (po + (Z.of_nat 0 + Z.of_nat i) * so) <> None).
    { intros i Hi. change (Z.of_nat 0) with 0. rewrite Z.add_0_l. apply W. exact Hi. }
    assert (Hfin : forall r vs, Forall2 (fun fs v => interp_at A (line_fast A) xs fs x v) fps_l vs ->
               r = Some (upds mo po so 0 vs) -> exists vs, writes r mo po so vs /\ Forall2 (fun fs v => interp_at A (line_fast A) xs fs x v) fps_l vs).
    { intros r vs HF ->. exists vs. split; [|exact HF]. eapply writes_upds; [exact W|]. symmetry. eapply Forall2_len; exact HF. }
    destruct (lt x x0 || lt xl x) eqn:E0.
    - unfold for_each. rewrite Z.sub_0_r, Nat2Z.id.
      destruct (emit_list (fun fs v => interp_at A (line_fast A) xs fs x v) (fun _ => Some (a_nan A)) po so fps_l O mo) as (vs & HF & E); [|exact Ho|].
      + intros i fs Hi. exists (a_nan A). split; [reflexivity|]. split; [auto|]. split; [auto|].
        apply orb_true_iff in E0. destruct E0 as [E0|E1].
        * assert (G : forall k a, nth_error xs k = Some a -> lt x a = true).
          { intros k a Ha. destruct k as [|k]; [unfold xs in Ha; cbn in Ha; congruence|].
            apply (ltb_trans cmp L) with x0; [exact E0|]. apply (Inc O (S k)); [lia|reflexivity|exact Ha]. }
          split.
          -- intros k a b Ha _ He. exfalso. pose proof (lt_not_le cmp L _ _ (G k a Ha)) as H.
             rewrite (eqb_sym cmp L) in He. rewrite (eqb_leb cmp _ _ He) in H. discriminate.
          -- intros k a a' b b' Ha _ _ _ H1 _. exfalso. pose proof (lt_not_le cmp L _ _ (G k a Ha)) as H.
             rewrite (ltb_leb cmp _ _ H1) in H. discriminate.
        * assert (G : forall k a, nth_error xs k = Some a -> lt a x = true).
          { intros k a Ha. assert (k < length xs)%nat by (apply nth_error_Some; congruence).
            destruct (Nat.eq_dec k (length xs - 1)) as [->|Hk]; [congruence|].
            apply (ltb_trans cmp L) with xl; [|exact E1]. apply (Inc k (length xs - 1)%nat); [lia|exact Ha|exact El]. }
          split.
          -- intros k a b Ha _ He. exfalso. pose proof (lt_not_le cmp L _ _ (G k a Ha)) as H.
             rewrite (eqb_leb cmp _ _ He) in H. discriminate.
          -- intros k a a' b b' _ Ha _ _ _ H1. exfalso. pose proof (lt_not_le cmp L _ _ (G _ a' Ha)) as H.
             rewrite (ltb_leb cmp _ _ H1) in H. discriminate.
      + eapply Hfin; [exact HF|]. exact E.
    - apply orb_false_iff in E0. destruct E0 as [E0 E1].
      destruct (search_correct A L mxp pxp xps xs x Vx Nn Nx x0 xl) as (k & Es & Hf); try assumption; [reflexivity|].
      rewrite Es. cbn [bind]. pose proof Hf as Hf'. destruct Hf' as (a & Ha & Hcase).
      assert (Hk : (k < length xs)%nat) by (apply nth_error_Some; congruence).
      rewrite (at_load mxp pxp xps xs Vx _ a Ha). cbn [bind]. unfold neb.
      destruct (eq x a) eqn:Ee; cbn [negb].
      + unfold ret. cbn [bind]. unfold for_each. rewrite Z.sub_0_r, Nat2Z.id.
        destruct (emit_list (fun fs v => interp_at A (line_fast A) xs fs x v)
          (fun j => load mfp (pfp + j * sfp0 + Z.of_nat k * fps)) po so fps_l O mo) as (vs & HF & E); [|exact Ho|eapply Hfin; [exact HF|exact E]].
        intros i fs Hi. cbn [Nat.add]. destruct (Hr i fs Hi) as [HLf Vf].
        destruct (nth_error fs k) as [b|] eqn:Eb; [|apply nth_error_None in Eb; lia].
        exists b. split; [apply (at_load mfp _ fps fs Vf _ b Eb)|].
        eapply (found_interp A L mxp pxp xps xs x Vx Nn Nx Inc (line_fast A) fs k a); try eassumption; [intros; congruence|].
        rewrite Ee. exists b. auto.
      + destruct Hcase as [H|(Hlt & a' & Ha' & Hlt')]; [congruence|].
        assert (Hk1 : (k + 1 < length xs)%nat) by (apply nth_error_Some; congruence).
        replace (Z.of_nat k + 1) with (Z.of_nat (k + 1)) by lia.
        rewrite (at_load mxp pxp xps xs Vx _ a' Ha'). unfold ret. cbn [bind].
        unfold for_each. rewrite Z.sub_0_r, Nat2Z.id.
        destruct (emit_list (fun fs v => interp_at A (line_fast A) xs fs x v)
          (fun j => fpk <- load mfp (pfp + j * sfp0 + Z.of_nat k * fps) ;;
                    fpk_next <- load mfp (pfp + j * sfp0 + Z.of_nat (k + 1) * fps) ;;
                    Some (a_add A fpk (a_mul A (a_div A (a_sub A x a) (a_sub A a' a)) (a_sub A fpk_next fpk))))
          po so fps_l O mo) as (vs & HF & E); [|exact Ho|].
        * intros i fs Hi. cbn [Nat.add]. destruct (Hr i fs Hi) as [HLf Vf].
          destruct (nth_error fs k) as [b|] eqn:Eb; [|apply nth_error_None in Eb; lia].
          destruct (nth_error fs (k + 1)) as [b'|] eqn:Eb'; [|apply nth_error_None in Eb'; lia].
          rewrite (at_load mfp _ fps fs Vf _ b Eb), (at_load mfp _ fps fs Vf _ b' Eb'). cbn [bind].
          eexists. split; [reflexivity|].
          eapply (found_interp A L mxp pxp xps xs x Vx Nn Nx Inc (line_fast A) fs k a); try eassumption; [intros; congruence|].
          rewrite Ee. exists b, a', b'. auto.
        * eapply Hfin; [exact HF|]. change (Z.of_nat 0) with 0 in E. rewrite <- E.
          apply (fun H => iter_from_ext _ _ _ _ _ H). intros j m.
          destruct (load mfp (pfp + j * sfp0 + Z.of_nat k * fps)) as [u|]; cbn [bind]; [|reflexivity].
          destruct (load mfp (pfp + j * sfp0 + Z.of_nat (k + 1) * fps)) as [u'|]; cbn [bind]; reflexivity.
  Qed.
End Loop.

(** ** exact arithmetic: both paths evaluate the interpolating line *)
Lemma increasing_Fin xs : rincreasing xs -> increasing ecmp (map Fin xs).
Proof.
  intros H i j a b Hij Ha Hb. rewrite nth_error_map in Ha, Hb.
  destruct (nth_error xs i) as [u|] eqn:Eu; [|discriminate]. destruct (nth_error xs j) as [w|] eqn:Ew; [|discriminate].
  cbn in Ha, Hb. injection Ha as <-. injection Hb as <-. apply ltb_Fin. eapply H; eassumption.
Qed.

Lemma interp_exact line xs fs x v :
  (forall a b a' b', (a < x < a')%R -> exists y, line (Fin a) (Fin b) (Fin a') (Fin b') (Fin x) = Fin y /\ on_line a b a' b' x y) ->
  interp_at earith line (map Fin xs) (map Fin fs) (Fin x) v -> rinterp_at xs fs x v.
Proof.
  intros Hl (H1 & H2 & H3 & H4). split; [|split; [|split]].
  - intros a Ha Hx. apply (H1 (Fin a)); [rewrite nth_error_map, Ha; reflexivity|apply ltb_Fin; exact Hx].
  - intros a Ha Hx. apply (H2 (Fin a)); [rewrite map_length, nth_error_map, Ha; reflexivity|apply ltb_Fin; exact Hx].
  - intros k b Ha Hb. apply (H3 k (Fin x)); [rewrite nth_error_map, Ha; reflexivity|rewrite nth_error_map, Hb; reflexivity|].
    apply eqb_Fin. reflexivity.
  - intros k a a' b b' Ha Ha' Hb Hb' Hx. destruct (Hl a b a' b' Hx) as (y & E & On). exists y. split; [|exact On].
    rewrite <- E. apply (H4 k); rewrite ?nth_error_map, ?Ha, ?Ha', ?Hb, ?Hb'; try reflexivity; apply ltb_Fin; lra.
Qed.

Lemma line_general_exact a b a' b' x : (a < x < a')%R ->
  exists y, line_general earith (Fin a) (Fin b) (Fin a') (Fin b') (Fin x) = Fin y /\ on_line a b a' b' x y.
Proof.
  intros H. unfold line_general. cbn [earith a_add a_mul a_sub a_div esub eopp eadd].
  rewrite ediv_Fin by lra. cbn [emul eadd]. eexists. split; [reflexivity|]. unfold on_line. field. lra.
Qed.
Lemma line_fast_exact a b a' b' x : (a < x < a')%R ->
  exists y, line_fast earith (Fin a) (Fin b) (Fin a') (Fin b') (Fin x) = Fin y /\ on_line a b a' b' x y.
Proof.
  intros H. unfold line_fast. cbn [earith a_add a_mul a_sub a_div esub eopp eadd].
  rewrite ediv_Fin by lra. cbn [emul eadd]. eexists. split; [reflexivity|]. unfold on_line. field. lra.
Qed.

Lemma nonan_Fin xs : forall a, In a (map Fin xs) -> isnanb ecmp a = false.
Proof. intros a H. apply in_map_iff in H. destruct H as (r & <- & _). reflexivity. Qed.

Lemma map_Fin_inj l1 : forall l2, map Fin l1 = map Fin l2 -> l1 = l2.
Proof. induction l1 as [|a l1 IH]; intros [|b l2] H; cbn in H; try discriminate; [reflexivity|]. injection H as <- H. f_equal. apply IH. exact H. Qed.

Theorem interp_loop_exact n mx px sx0 mxp pxp sxp0 xps mfp pfp sfp0 fps mo po so rows :
  (0 < n)%nat -> rows <> [] ->
  (forall j r, nth_error rows j = Some r -> rrow_ok n mx px sx0 mxp pxp sxp0 xps mfp pfp sfp0 fps j r) ->
  writable mo po so (length rows) ->
  exists vs,
    writes (interp_loop earith (Z.of_nat (length rows)) (Z.of_nat n) mx px sx0 mxp pxp sxp0 xps mfp pfp sfp0 fps mo po so)
      mo po so vs /\
    Forall2 (fun r v => let '(x, xs, fs) := r in rinterp_at xs fs x v) rows vs.
Proof.
  intros Hn Hne Hr W.
  destruct (Z.eq_dec sx0 0) as [Es|Es]; [destruct (Z.eq_dec sxp0 0) as [Es'|Es']|].
  - subst sx0 sxp0. destruct rows as [|[[x xs] fs0] rows']; [congruence|]. set (rows := (x, xs, fs0) :: rows') in *.
    assert (Hall : forall j r, nth_error rows j = Some r -> fst (fst r) = x /\ snd (fst r) = xs).
    { intros j [[x1 xs1] fs1] Hj. destruct (Hr j _ Hj) as (E1 & L1 & _ & V1 & _).
      destruct (Hr O _ eq_refl) as (E0 & L0 & _ & V0 & _). rewrite !Z.mul_0_r, !Z.add_0_r in *. cbn [fst snd].
      split; [congruence|]. apply map_Fin_inj. eapply view_uniq; [rewrite !map_length; lia|exact V1|].
      exact V0. }
    destruct (Hr O _ eq_refl) as (E0 & L0 & _ & V0 & _ & I0). rewrite !Z.mul_0_r, !Z.add_0_r in *.
    destruct (interp_fast_loop earith ecmp_laws mx px mxp pxp xps mfp pfp sfp0 fps mo po so (Fin x) (map Fin xs)
        (map (fun r => map Fin (snd r)) rows)) as (vs & Wr & HF).
    + destruct xs; [cbn in L0; lia|discriminate].
    + exact E0.
    + exact V0.
    + reflexivity.
    + apply nonan_Fin.
    + apply increasing_Fin. exact I0.
    + intros j fs Hj. rewrite nth_error_map in Hj. destruct (nth_error rows j) as [[[x1 xs1] fs1]|] eqn:Ej; [|discriminate].
      cbn in Hj. injection Hj as <-. destruct (Hr j _ Ej) as (_ & Lx & Lf & _ & Vf & _).
      split; [rewrite !map_length; lia|exact Vf].
    + rewrite map_length. exact W.
    + rewrite !map_length in Wr. rewrite L0 in Wr. exists vs. split; [exact Wr|].
      clear - HF Hall. revert vs HF Hall. generalize rows. clear.
      induction rows as [|[[x1 xs1] fs1] rows IH]; intros vs HF Hall; inversion HF; subst; [constructor|].
      constructor.
      * destruct (Hall O _ eq_refl) as [E1 E2]. cbn [fst snd] in *. subst.
        eapply interp_exact; [|eassumption]. intros. apply line_fast_exact. assumption.
      * apply IH; [assumption|]. intros j r Hj. apply (Hall (S j) r Hj).
  - destruct (interp_general_loop earith ecmp_laws n mx px sx0 mxp pxp sxp0 xps mfp pfp sfp0 fps mo po so
       (map (fun r => (Fin (fst (fst r)), map Fin (snd (fst r)), map Fin (snd r))) rows)) as (vs & Wr & HF); auto.
    + intros j r Hj. rewrite nth_error_map in Hj. destruct (nth_error rows j) as [[[x1 xs1] fs1]|] eqn:Ej; [|discriminate].
      cbn in Hj. injection Hj as <-. destruct (Hr j _ Ej) as (E1 & Lx & Lf & Vx & Vf & I).
      cbn [row_ok]. repeat split; try assumption; try (rewrite map_length; assumption); [apply nonan_Fin|apply increasing_Fin; exact I].
    + rewrite map_length. exact W.
    + rewrite map_length in Wr. exists vs. split; [exact Wr|].
      clear - HF. revert vs HF. induction rows as [|[[x1 xs1] fs1] rows IH]; intros vs HF; inversion HF; subst; constructor.
      * cbn [fst snd] in *. eapply interp_exact; [|eassumption]. intros. apply line_general_exact. assumption.
      * apply IH. assumption.
  - destruct (interp_general_loop earith ecmp_laws n mx px sx0 mxp pxp sxp0 xps mfp pfp sfp0 fps mo po so
       (map (fun r => (Fin (fst (fst r)), map Fin (snd (fst r)), map Fin (snd r))) rows)) as (vs & Wr & HF); auto.
    + intros j r Hj. rewrite nth_error_map in Hj. destruct (nth_error rows j) as [[[x1 xs1] fs1]|] eqn:Ej; [|discriminate].
      cbn in Hj. injection Hj as <-. destruct (Hr j _ Ej) as (E1 & Lx & Lf & Vx & Vf & I).
      cbn [row_ok]. repeat split; try assumption; try (rewrite map_length; assumption); [apply nonan_Fin|apply increasing_Fin; exact I].
    + rewrite map_length. exact W.
    + rewrite map_length in Wr. exists vs. split; [exact Wr|].
      clear - HF. revert vs HF. induction rows as [|[[x1 xs1] fs1] rows IH]; intros vs HF; inversion HF; subst; constructor.
      * cbn [fst snd] in *. eapply interp_exact; [|eassumption]. intros. apply line_general_exact. assumption.
      * apply IH. assumption.
Qed.

(** nan x with at least two nodes: nan (exact arithmetic) *)
Lemma search_nan (ma : mem ER) pa stride xs : view ma pa stride (map Fin xs) -> forall fuel lo hi,
  (hi - lo <= fuel)%nat -> (lo < hi < length xs)%nat ->
  interp_search_loop earith fuel ENaN ma pa stride (Z.of_nat lo) (Z.of_nat hi) = Some (Z.of_nat lo).
Proof.
  intros V. induction fuel as [|fuel IH]; intros lo hi Hf Hl; [lia|].
  cbn [interp_search_loop]. destruct (Z.of_nat hi >? Z.of_nat lo + 1) eqn:E; [|reflexivity].
  apply Z.gtb_lt in E. set (m := ((lo + hi) / 2)%nat).
  assert (Em : Z.quot (Z.of_nat lo + Z.of_nat hi) 2 = Z.of_nat m).
  { unfold m. rewrite Z.quot_div_nonneg by lia. rewrite Nat2Z.inj_div. f_equal. lia. }
  rewrite Em.
  assert (Hm : (lo < m < hi)%nat).
  { unfold m. split; [apply Nat.div_le_lower_bound; lia|apply Nat.div_lt_upper_bound; lia]. }
  destruct (nth_error (map Fin xs) m) as [v|] eqn:Ev.
  2:{ apply nth_error_None in Ev. rewrite map_length in Ev. lia. }
  rewrite (at_load ma pa stride (map Fin xs) V m v Ev). cbn [bind].
  rewrite nth_error_map in Ev. destruct (nth_error xs m) as [r|]; [|discriminate]. cbn in Ev. injection Ev as <-.
  change (eqb (a_cmp earith) (Fin r) ENaN) with false. change (ltb (a_cmp earith) (Fin r) ENaN) with false. cbv iota.
  apply IH; lia.
Qed.

Theorem interp_nan mxp pxp xps mfp pfp fps xs fs :
  (2 <= length xs)%nat -> length fs = length xs ->
  view mxp pxp xps (map Fin xs) -> view mfp pfp fps (map Fin fs) ->
  interp_general earith (Z.of_nat (length xs)) (Some ENaN) mxp pxp xps mfp pfp fps = Some ENaN.
Proof.
  intros H2 HL Vx Vf. unfold interp_general.
  replace (Z.of_nat (length xs) <? 1) with false by (symmetry; apply Z.ltb_ge; lia). cbn [bind].
  assert (Hx : forall k, (k < length xs)%nat -> exists a, load mxp (pxp + Z.of_nat k * xps) = Some (Fin a)).
  { intros k Hk. destruct (nth_error xs k) as [a|] eqn:E; [|apply nth_error_None in E; lia]. exists a.
    apply (at_load mxp pxp xps _ Vx). rewrite nth_error_map, E. reflexivity. }
  assert (Hf : forall k, (k < length xs)%nat -> exists a, load mfp (pfp + Z.of_nat k * fps) = Some (Fin a)).
  { intros k Hk. destruct (nth_error fs k) as [a|] eqn:E; [|apply nth_error_None in E; lia]. exists a.
    apply (at_load mfp pfp fps _ Vf). rewrite nth_error_map, E. reflexivity. }
  destruct (Hx O ltac:(lia)) as (a0 & E0). cbn [Z.of_nat] in E0.
  assert (E0' : load mxp pxp = Some (Fin a0)) by (rewrite <- E0; f_equal; lia).
  destruct (Hx (length xs - 1)%nat ltac:(lia)) as (al & El).
  replace (Z.of_nat (length xs) - 1) with (Z.of_nat (length xs - 1)) by lia.
  assert (Es : interp_search earith ENaN mxp pxp (Z.of_nat (length xs)) xps = Some 0).
  { unfold interp_search. destruct (Z.eqb_spec (Z.of_nat (length xs)) 1) as [E1|_]; [lia|].
    rewrite E0. cbn [bind]. change (eqb (a_cmp earith) ENaN (Fin a0)) with false. cbv iota.
    replace (Z.of_nat (length xs) - 1) with (Z.of_nat (length xs - 1)) by lia.
    rewrite El. cbn [bind]. change (eqb (a_cmp earith) ENaN (Fin al)) with false. cbv iota.
    destruct (_ =? 2); [reflexivity|]. rewrite Nat2Z.id. change 0 with (Z.of_nat 0).
    apply (search_nan mxp pxp xps xs Vx); lia. }
  rewrite E0', El. cbn [bind]. change (ltb (a_cmp earith) ENaN (Fin a0)) with false.
  change (gtb (a_cmp earith) ENaN (Fin al)) with false. cbn [orb].
  rewrite Es. cbn [bind]. rewrite E0. cbn [bind].
  destruct (Hf O ltac:(lia)) as (b0 & F0). cbn [Z.of_nat] in F0. rewrite F0. cbn [bind].
  change (eqb (a_cmp earith) ENaN (Fin a0)) with false. cbv iota.
  destruct (Hx 1%nat ltac:(lia)) as (a1 & E1). destruct (Hf 1%nat ltac:(lia)) as (b1 & F1).
  change (0 + 1) with (Z.of_nat 1). rewrite E1, F1. cbn [bind ret]. unfold ret. f_equal.
  cbn [earith a_add a_mul a_sub a_div esub eopp eadd emul].
  destruct (ediv _ _); reflexivity.
Qed.

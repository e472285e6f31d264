(** Proofs about fillnan1d. *)
From Coq Require Import ZArith Reals List Bool Lia Lra.
From Flocq Require Import Core BinarySingleNaN.
From Verif Require Import CSem CSemP Num NumP NumF M_Signal S_Signal.
Import ListNotations.
Open Scope Z_scope.

(** cells all present: there is a list there *)
Lemma view_exists {T} (m : mem T) p s n :
  (forall i, (i < n)%nat -> exists v, m (p + Z.of_nat i * s) = Some v) ->
  exists l, length l = n /\ view m p s l.
Proof.
  induction n as [|n IH]; intros H.
  - exists []. split; [reflexivity|]. intros k Hk. simpl in Hk. lia.
  - destruct IH as (l & Hl & V). { intros i Hi. apply H. lia. }
    destruct (H n ltac:(lia)) as (v & Hv).
    exists (l ++ [v]). split; [rewrite app_length; simpl; lia|].
    intros k Hk. rewrite app_length in Hk; simpl in Hk.
    destruct (Nat.eq_dec k n) as [->|Hn].
    + rewrite nth_error_app2 by lia. rewrite Hl, Nat.sub_diag. exact Hv.
    + rewrite nth_error_app1 by lia. apply V. lia.
Qed.

(** a loop that only stores: every cell lo..hi-1 gets its value, nothing else changes *)
Lemma store_loop {T} (g : Z -> T) po so (lo n : nat) (m : mem T) :
  (forall i, (lo <= i < lo + n)%nat -> m (po + Z.of_nat i * so) <> None) ->
  (so <> 0 \/ (n <= 1)%nat) ->
  exists m', iter_from n (Z.of_nat lo) (fun i m => set m po so i (g i)) m = Some m' /\
    (forall i, (lo <= i < lo + n)%nat -> m' (po + Z.of_nat i * so) = Some (g (Z.of_nat i))) /\
    (forall a, (forall i, (lo <= i < lo + n)%nat -> a <> po + Z.of_nat i * so) -> m' a = m a).
Proof.
  revert lo m. induction n as [|n IH]; intros lo m Ho Hs; cbn [iter_from].
  - exists m. split; [reflexivity|]. split; [intros; lia|auto].
  - rewrite set_upd by (apply Ho; lia). cbn [bind].
    destruct (IH (S lo) (upd m (po + Z.of_nat lo * so) (g (Z.of_nat lo)))) as (m' & E & H1 & H2).
    + intros i Hi. unfold upd. destruct (_ =? _); [discriminate|]. apply Ho. lia.
    + lia.
    + exists m'. replace (Z.of_nat lo + 1) with (Z.of_nat (S lo)) by lia. split; [exact E|]. split.
      * intros i Hi. destruct (Nat.eq_dec i lo) as [->|Hn].
        -- rewrite H2; [apply upd_same|]. intros j Hj. destruct Hs; [nia|lia].
        -- apply H1. lia.
      * intros a Ha. rewrite H2 by (intros i Hi; apply Ha; lia). apply upd_other. apply Ha. lia.
Qed.

Section FillProof.
  Context {T L : Type} (A : arith T) (AL : arith L) (up : T -> L) (down : L -> T).
  Notation isnan := (isnanb (a_cmp A)).
  Notation line := (gap_value AL up down).
  Notation FA := (fill_at isnan (a_nan A) line).

  Lemma fillnan_find_spec mx px sx x :
    view mx px sx x ->
    exists k, fillnan_find A (Z.of_nat (length x)) mx px sx = Some (Z.of_nat k) /\
      (k <= length x)%nat /\ nan_between isnan x 0 k /\
      ((k < length x)%nat -> exists v, real_at isnan x k v).
  Proof.
    intros V. unfold fillnan_find.
    rewrite (for_loop_view mx px sx x _ (fun k x _ => ret (if isnan x then @Next Z Z (k + 1) else Brk k)) 0 V).
    2:{ intros k s v Hk Hg. rewrite Hg. reflexivity. }
    assert (G : forall l pre, x = pre ++ l -> nan_between isnan x 0 (length pre) ->
      exists r k, lloop (Z.of_nat (length pre)) l
         (fun k x (_:Z) => ret (if isnan x then @Next Z Z (k + 1) else Brk k)) (Z.of_nat (length pre)) = Some r /\
        match r with inl k => k | inr k => k end = Z.of_nat k /\
        (k <= length x)%nat /\ nan_between isnan x 0 k /\
        ((k < length x)%nat -> exists v, real_at isnan x k v)).
    { induction l as [|a l IH]; intros pre Ex Hn.
      - exists (inl (Z.of_nat (length pre))), (length pre). cbn [lloop]. rewrite app_nil_r in Ex. subst pre.
        repeat split; try assumption; lia.
      - cbn [lloop]. destruct (isnan a) eqn:Ea; cbn [ret].
        + destruct (IH (pre ++ [a])) as (r & k & E & H).
          * rewrite <- app_assoc. exact Ex.
          * intros j v Hj Hv. rewrite app_length in Hj; simpl in Hj.
            destruct (Nat.eq_dec j (length pre)) as [->|Hne].
            -- rewrite Ex, nth_error_app2, Nat.sub_diag in Hv by lia. cbn in Hv. congruence.
            -- apply (Hn j v); [lia|exact Hv].
          * exists r, k. rewrite app_length in E; simpl in E.
            replace (Z.of_nat (length pre) + 1) with (Z.of_nat (length pre + 1)) by lia. split; assumption.
        + exists (inl (Z.of_nat (length pre))), (length pre). split; [reflexivity|]. split; [reflexivity|].
          split; [rewrite Ex, app_length; simpl; lia|]. split; [exact Hn|]. intros _. exists a.
          split; [|exact Ea]. rewrite Ex, nth_error_app2, Nat.sub_diag by lia. reflexivity. }
    destruct (G x [] eq_refl) as (r & k & E & Er & H).
    { intros j v Hj; simpl in Hj; lia. }
    exists k. simpl length in E. change (Z.of_nat 0) with 0 in E. rewrite E. cbn [bind ret].
    unfold ret. rewrite Er. split; [reflexivity|exact H].
  Qed.

  (** invariant of the main loop: positions up to [li] are final, [li] holds a
      number, everything in li+1..k-1 is nan *)
  Record fill_inv (x : list T) (mo0 : mem T) (po so : Z) (k : nat) (mo : mem T) (lv : T) (li : nat) : Prop := {
    fi_lt : (li < k)%nat;
    fi_real : real_at isnan x li lv;
    fi_nan : nan_between isnan x (S li) k;
    fi_done : forall i, (i <= li)%nat -> exists v, mo (po + Z.of_nat i * so) = Some v /\ FA x i v;
    fi_own : forall i, (i < length x)%nat -> mo (po + Z.of_nat i * so) <> None;
    fi_frame : forall a, outside po so (length x) a -> mo a = mo0 a }.

  Lemma fill_main mx px sx x mo0 po so :
    view mx px sx x -> (so <> 0 \/ (length x <= 1)%nat) ->
    forall n k mo lv li, (k + n = length x)%nat -> fill_inv x mo0 po so k mo lv li ->
    exists mo' lv' li', iter_from n (Z.of_nat k) (fillnan_body A AL up down mx px sx po so)
                          (mo, lv, Z.of_nat li) = Some (mo', lv', Z.of_nat li') /\
      fill_inv x mo0 po so (length x) mo' lv' li'.
  Proof.
    intros V Hs. induction n as [|n IH]; intros k mo lv li Hk I; cbn [iter_from].
    - exists mo, lv, li. split; [reflexivity|]. replace (length x) with k by lia. exact I.
    - destruct (view_cons_nth mx px sx x k V ltac:(lia)) as (v & Hv & Hg).
      unfold fillnan_body at 1. rewrite Hg. cbn [bind].
      replace (Z.of_nat k + 1) with (Z.of_nat (S k)) by lia.
      destruct (isnan v) eqn:Ev.
      + cbn [ret bind]. unfold ret; cbn [bind].
        apply IH; [lia|]. destruct I. constructor; try assumption; [lia|].
        intros j u Hj Hu. destruct (Nat.eq_dec j k) as [->|Hne]; [congruence|].
        apply (fi_nan0 j u); [lia|exact Hu].
      + destruct I as [I1 I2 I3 I4 I5 I6].
        rewrite set_upd by (apply I5; lia). cbn [bind].
        set (mo1 := upd mo (po + Z.of_nat k * so) v).
        assert (O1 : forall i, (i < length x)%nat -> mo1 (po + Z.of_nat i * so) <> None).
        { intros i Hi. unfold mo1, upd. destruct (_ =? _); [discriminate|]. apply I5; exact Hi. }
        assert (Inj : forall i j, (i < length x)%nat -> (j < length x)%nat -> i <> j ->
                  po + Z.of_nat i * so <> po + Z.of_nat j * so).
        { intros i j Hi Hj Hij. destruct Hs; [nia|lia]. }
        assert (G : exists mo2,
           (if negb (Z.of_nat li =? Z.of_nat k - 1)
            then for_each 1 (Z.of_nat k - Z.of_nat li)
                   (fun i m => set m po so (Z.of_nat li + i)
                        (line lv v i (Z.of_nat k - Z.of_nat li))) mo1
            else ret mo1) = Some mo2 /\
           (forall i, (li < i < k)%nat -> mo2 (po + Z.of_nat i * so) =
               Some (line lv v (Z.of_nat (i - li)) (Z.of_nat (k - li)))) /\
           (forall a, (forall i, (li < i < k)%nat -> a <> po + Z.of_nat i * so) -> mo2 a = mo1 a)).
        { destruct (Z.eqb_spec (Z.of_nat li) (Z.of_nat k - 1)) as [E|E]; cbn [negb].
          - exists mo1. split; [reflexivity|]. split; [intros; lia|auto].
          - destruct (store_loop (fun z => line lv v (z - Z.of_nat li) (Z.of_nat (k - li))) po so (S li) (k - S li) mo1)
              as (mo2 & E2 & H1 & H2).
            + intros i Hi. apply O1. lia.
            + destruct Hs as [?|?]; [left; assumption|right; lia].
            + exists mo2. split; [|split].
              * rewrite <- E2. unfold for_each.
                replace (Z.to_nat (Z.of_nat k - Z.of_nat li - 1)) with (k - S li)%nat by lia.
                replace (Z.of_nat k - Z.of_nat li) with (Z.of_nat (k - li)) by lia.
                generalize (k - S li)%nat as q. generalize mo1 as m1. clear.
                assert (G : forall q m1 (j : Z),
                  iter_from q j (fun (i : Z) (m : mem T) => set m po so (Z.of_nat li + i)
                          (line lv v i (Z.of_nat (k - li)))) m1 =
                  iter_from q (Z.of_nat li + j) (fun (i : Z) (m : mem T) => set m po so i
                          (line lv v (i - Z.of_nat li) (Z.of_nat (k - li)))) m1).
                { induction q as [|q IHq]; intros m1 j; cbn [iter_from]; [reflexivity|].
                  replace (Z.of_nat li + j - Z.of_nat li) with j by lia.
                  destruct (set m1 po so (Z.of_nat li + j) _); cbn [bind]; [|reflexivity].
                  rewrite IHq. f_equal. lia. }
                intros m1 q. rewrite G. f_equal. lia.
              * intros i Hi. rewrite H1 by lia. f_equal. f_equal. lia.
              * intros a Ha. apply H2. intros i Hi. apply Ha. lia. }
        destruct G as (mo2 & E2 & G1 & G2). rewrite E2. cbn [bind ret]. unfold ret; cbn [bind].
        apply IH; [lia|].
        assert (Rk : real_at isnan x k v) by (split; assumption).
        constructor.
        * lia.
        * exact Rk.
        * intros j u Hj; lia.
        * intros i Hi. destruct (Nat.eq_dec i k) as [->|Hne].
          { exists v. split; [|apply fa_keep; exact Rk].
            rewrite G2 by (intros j Hj; apply Inj; lia). apply upd_same. }
          destruct (le_lt_dec i li) as [Hle|Hgt].
          { destruct (I4 i Hle) as (w & Hw & Fw). exists w. split; [|exact Fw].
            rewrite G2 by (intros j Hj; apply Inj; lia).
            unfold mo1. rewrite upd_other by (apply Inj; lia). exact Hw. }
          { eexists. split; [apply G1; lia|]. apply fa_gap; [lia|exact I2|exact Rk|exact I3]. }
        * intros i Hi. destruct (le_lt_dec k i) as [Hle|Hgt].
          { rewrite G2; [apply O1; exact Hi|]. intros j Hj; apply Inj; lia. }
          destruct (le_lt_dec i li) as [Hle|Hgt'].
          { rewrite G2; [apply O1; exact Hi|]. intros j Hj; apply Inj; lia. }
          rewrite G1 by lia. discriminate.
        * intros a Ha. rewrite G2 by (intros i Hi; apply Ha; lia).
          unfold mo1. rewrite upd_other by (apply Ha; lia). apply I6; exact Ha.
  Qed.

  Theorem fillnan1d_correct mx px sx x mo po so :
    view mx px sx x -> writable mo po so (length x) ->
    exists mo' out,
      fillnan1d_core A AL up down (Z.of_nat (length x)) mx px sx mo po so = Some mo' /\
      wrote mo mo' po so out /\ length out = length x /\
      forall i v, nth_error out i = Some v -> FA x i v.
  Proof.
    intros V [Ho Hs].
    destruct (fillnan_find_spec mx px sx x V) as (k & Ek & Hk & Hn & Hr).
    assert (Main : exists mo', fillnan1d_core A AL up down (Z.of_nat (length x)) mx px sx mo po so = Some mo' /\
        (forall i, (i < length x)%nat -> exists v, mo' (po + Z.of_nat i * so) = Some v /\ FA x i v) /\
        (forall a, outside po so (length x) a -> mo' a = mo a)).
    { unfold fillnan1d_core. rewrite Ek. cbn [bind].
      destruct (Z.eqb_spec (Z.of_nat k) (Z.of_nat (length x))) as [E|E].
      - assert (k = length x) by lia. subst k.
        destruct (store_loop (fun _ => a_nan A) po so 0 (length x) mo) as (m' & E' & H1 & H2).
        + intros i Hi. apply Ho. lia.
        + exact Hs.
        + exists m'. split; [|split].
          * unfold for_each. rewrite Z.sub_0_r, Nat2Z.id. exact E'.
          * intros i Hi. exists (a_nan A). split; [apply H1; lia|]. apply fa_all; [exact Hi|exact Hn].
          * intros a Ha. apply H2. intros i Hi. apply Ha. lia.
      - destruct (Hr ltac:(lia)) as (v & Rv). destruct Rv as [Hv Nv].
        rewrite (view_get mx px sx x k v V Hv). cbn [bind].
        destruct (store_loop (fun _ => v) po so 0 (k + 1) mo) as (m1 & E1 & H1 & H2).
        + intros i Hi. apply Ho. lia.
        + destruct Hs; [left; assumption|right; lia].
        + unfold for_each at 1. replace (Z.to_nat (Z.of_nat k + 1 - 0)) with (k + 1)%nat by lia.
          change 0 with (Z.of_nat 0) at 1. rewrite E1. cbn [bind].
          destruct (fill_main mx px sx x mo po so V Hs (length x - (k + 1)) (k + 1) m1 v k) as (m2 & lv & li & E2 & I).
          * lia.
          * constructor.
            -- lia.
            -- split; assumption.
            -- intros j u Hj; lia.
            -- intros i Hi. exists v. split; [apply H1; lia|].
               destruct (Nat.eq_dec i k) as [->|Hne]; [apply fa_keep; split; assumption|].
               apply fa_before with (b := k); [lia|split; assumption|exact Hn].
            -- intros i Hi. destruct (le_lt_dec i k).
               ++ rewrite H1 by lia. discriminate.
               ++ rewrite H2; [apply Ho; exact Hi|]. intros j Hj. destruct Hs; [nia|lia].
            -- intros a Ha. apply H2. intros i Hi. apply Ha. lia.
          * unfold for_each at 1.
            replace (Z.to_nat (Z.of_nat (length x) - (Z.of_nat k + 1))) with (length x - (k + 1))%nat by lia.
            replace (Z.of_nat k + 1) with (Z.of_nat (k + 1)) by lia.
            unfold mem in E2 |- *. rewrite E2. cbn [bind].
            destruct I as [I1 I2 I3 I4 I5 I6].
            replace (Z.of_nat li =? Z.of_nat (length x)) with false by (symmetry; apply Z.eqb_neq; lia).
            cbn [negb].
            destruct (store_loop (fun _ => lv) po so (S li) (length x - S li) m2) as (m3 & E3 & H3 & H4).
            -- intros i Hi. apply I5. lia.
            -- destruct Hs; [left; assumption|right; lia].
            -- exists m3. split; [|split].
               ++ unfold for_each.
                  replace (Z.to_nat (Z.of_nat (length x) - (Z.of_nat li + 1))) with (length x - S li)%nat by lia.
                  replace (Z.of_nat li + 1) with (Z.of_nat (S li)) by lia. exact E3.
               ++ intros i Hi. destruct (le_lt_dec i li) as [Hle|Hgt].
                  ** destruct (I4 i Hle) as (w & Hw & Fw). exists w. split; [|exact Fw].
                     rewrite H4; [exact Hw|]. intros j Hj. destruct Hs; [nia|lia].
                  ** exists lv. split; [apply H3; lia|].
                     apply fa_after with (a := li); [lia|exact I2|exact I3].
               ++ intros a Ha. rewrite H4 by (intros i Hi; apply Ha; lia). apply I6; exact Ha. }
    destruct Main as (mo' & E & H1 & H2).
    destruct (view_exists mo' po so (length x)) as (out & Lo & Vo).
    { intros i Hi. destruct (H1 i Hi) as (v & Hv & _). eauto. }
    exists mo', out. split; [exact E|]. split; [|split; [exact Lo|]].
    - split; [exact Vo|]. rewrite Lo. exact H2.
    - intros i v Hv. assert (Hi : (i < length out)%nat) by (apply nth_error_Some; congruence).
      destruct (H1 i ltac:(lia)) as (w & Hw & Fw). rewrite (Vo i Hi), Hv in Hw. congruence.
  Qed.

  Lemma real_between_absurd x a b i v : nan_between isnan x a b -> (a <= i < b)%nat -> real_at isnan x i v -> False.
  Proof. intros H Hi [H1 H2]. specialize (H i v Hi H1). congruence. Qed.

  (** the specification determines the value *)
  Lemma fill_at_det x i v w : FA x i v -> FA x i w -> v = w.
  Proof.
    assert (Hnth : forall j u, real_at isnan x j u -> (j < length x)%nat).
    { intros j u [H _]. apply nth_error_Some. congruence. }
    assert (Ha : forall a a' i hi hi' v v', (a < i)%nat -> (a' < i)%nat -> (i <= hi)%nat -> (i <= hi')%nat ->
       real_at isnan x a v -> real_at isnan x a' v' ->
       nan_between isnan x (S a) hi -> nan_between isnan x (S a') hi' -> a = a').
    { intros a a' i0 hi hi' u u' H1 H2 H3 H3' R1 R2 N1 N2.
      destruct (lt_eq_lt_dec a a') as [[H|H]|H]; [|exact H|]; exfalso.
      - apply (real_between_absurd x (S a) hi a' u' N1); [lia|exact R2].
      - apply (real_between_absurd x (S a') hi' a u N2); [lia|exact R1]. }
    assert (Hb : forall b b' lo lo' v v', (lo <= b)%nat -> (lo' <= b')%nat -> (lo <= b')%nat -> (lo' <= b)%nat ->
       real_at isnan x b v -> real_at isnan x b' v' ->
       nan_between isnan x lo b -> nan_between isnan x lo' b' -> b = b').
    { intros b b' lo lo' u u' H1 H2 H3 H4 R1 R2 N1 N2.
      destruct (lt_eq_lt_dec b b') as [[H|H]|H]; [|exact H|]; exfalso.
      - apply (real_between_absurd x lo' b' b u N2); [lia|exact R1].
      - apply (real_between_absurd x lo b b' u' N1); [lia|exact R2]. }
    intros F1 F2.
    destruct F1 as [v Rv|b vb Hi Rb Nb|a va Hi Ra Na|a b va vb Hi Ra Rb Nb|Hi Nn];
    destruct F2 as [v' Rv'|b' vb' Hi' Rb' Nb'|a' va' Hi' Ra' Na'|a' b' va' vb' Hi' Ra' Rb' Nb'|Hi' Nn'];
    repeat match goal with
    | H : real_at isnan x ?j ?u |- _ =>
        lazymatch goal with
        | _ : (j < length x)%nat |- _ => fail
        | _ => pose proof (Hnth j u H)
        end
    end;
    try reflexivity;
    try (match goal with
         | N : nan_between isnan x ?lo ?hi, R : real_at isnan x ?j ?u |- _ =>
             exfalso; apply (real_between_absurd x lo hi j u N); [lia|exact R]
         end).
    - destruct Rv as [E1 _], Rv' as [E2 _]. congruence.
    - assert (b = b') by (apply (Hb b b' 0%nat 0%nat vb vb'); auto; lia). subst b'.
      destruct Rb as [E1 _], Rb' as [E2 _]. congruence.
    - assert (a = a') by (apply (Ha a a' i (length x) (length x) va va'); auto; lia). subst a'.
      destruct Ra as [E1 _], Ra' as [E2 _]. congruence.
    - assert (a = a') by (apply (Ha a a' i b b' va va'); auto; lia). subst a'.
      assert (b = b') by (apply (Hb b b' (S a) (S a) vb vb'); auto; lia). subst b'.
      destruct Ra as [E1 _], Ra' as [E2 _], Rb as [E3 _], Rb' as [E4 _].
      replace va' with va by congruence. replace vb' with vb by congruence. reflexivity.
  Qed.

  (** a signal without nan is returned unchanged; hence idempotence whenever the
      first result is free of nan, and for an all-nan signal *)
  Lemma fill_no_nan x out :
    (forall v, In v x -> isnan v = false) -> length out = length x ->
    (forall i v, nth_error out i = Some v -> FA x i v) -> out = x.
  Proof.
    intros Hx Hl H.
    assert (E : forall i, nth_error out i = nth_error x i).
    { intros i. destruct (nth_error out i) as [v|] eqn:Ev.
      - assert (i < length x)%nat by (rewrite <- Hl; apply nth_error_Some; congruence).
        destruct (nth_error x i) as [w|] eqn:Ew; [|apply nth_error_None in Ew; lia].
        f_equal. apply (fill_at_det x i v w); [apply H; exact Ev|].
        apply fa_keep. split; [exact Ew|]. apply Hx. eapply nth_error_In; exact Ew.
      - apply nth_error_None in Ev. symmetry. apply nth_error_None. lia. }
    revert E. clear. revert out. induction x as [|a x IH]; intros [|b out] E.
    - reflexivity.
    - specialize (E O). discriminate.
    - specialize (E O). discriminate.
    - f_equal; [specialize (E O); cbn in E; congruence|]. apply IH. intros i. exact (E (S i)).
  Qed.
End FillProof.

(** ** exact arithmetic *)
Notation egap := (gap_value earith (fun x : ER => x) (fun x : ER => x)).

Lemma egap_Fin a b i g : g <> 0 ->
  egap (Fin a) (Fin b) i g = Fin (rline a b (IZR i) (IZR g)).
Proof.
  intros Hg. unfold gap_value. cbn [a_div a_sub a_add a_mul a_ofZ earith esub eopp eadd].
  rewrite ediv_Fin by (apply IZR_neq; exact Hg). cbn [emul eadd]. f_equal. unfold rline, Rdiv. ring.
Qed.


Lemma real_fin x i v : (forall u, In u x -> fin_or_nan u) -> real_at (isnanb ecmp) x i v -> exists r, v = Fin r.
Proof.
  intros H [H1 H2]. apply nth_error_In in H1. destruct (H v H1) as [->|Hr]; [discriminate|exact Hr].
Qed.

Lemma fill_at_eline x i v : (forall u, In u x -> fin_or_nan u) ->
  fill_at (isnanb ecmp) ENaN egap x i v -> fill_at (isnanb ecmp) ENaN eline x i v.
Proof.
  intros Hx F. destruct F as [v Rv|b vb Hi Rb Nb|a va Hi Ra Na|a b va vb Hi Ra Rb Nb|Hi Nn].
  - apply fa_keep; assumption.
  - eapply fa_before; eassumption.
  - eapply fa_after; eassumption.
  - destruct (real_fin x a va Hx Ra) as (ra & ->). destruct (real_fin x b vb Hx Rb) as (rb & ->).
    rewrite egap_Fin by lia.
    change (Fin (rline ra rb (IZR (Z.of_nat (i - a))) (IZR (Z.of_nat (b - a)))))
      with (eline (Fin ra) (Fin rb) (Z.of_nat (i - a)) (Z.of_nat (b - a))).
    apply fa_gap; assumption.
  - apply fa_all; assumption.
Qed.

Theorem fillnan1d_exact mx px sx x mo po so :
  view mx px sx x -> writable mo po so (length x) -> (forall u, In u x -> fin_or_nan u) ->
  exists mo' out,
    fillnan1d_core earith earith (fun v => v) (fun v => v) (Z.of_nat (length x)) mx px sx mo po so = Some mo' /\
    wrote mo mo' po so out /\ length out = length x /\
    (forall i v, nth_error out i = Some v -> fill_at (isnanb ecmp) ENaN eline x i v) /\
    ((exists r, In (Fin r) x) -> forall v, In v out -> exists r, v = Fin r).
Proof.
  intros V W Hx.
  destruct (fillnan1d_correct earith earith (fun v => v) (fun v => v) mx px sx x mo po so V W)
    as (mo' & out & E & Wr & Hl & H).
  exists mo', out. split; [exact E|]. split; [exact Wr|]. split; [exact Hl|].
  assert (H' : forall i v, nth_error out i = Some v -> fill_at (isnanb ecmp) ENaN eline x i v).
  { intros i v Hv. apply fill_at_eline; [exact Hx|]. apply H; exact Hv. }
  split; [exact H'|]. intros (r & Hr) v Hv. apply In_nth_error in Hv. destruct Hv as (i & Hi).
  specialize (H' i v Hi).
  destruct H' as [v Rv|b vb Hib Rb Nb|a va Hia Ra Na|a b va vb Hiab Ra Rb Nb|Hii Nn].
  - eapply real_fin; eassumption.
  - eapply real_fin; eassumption.
  - eapply real_fin; eassumption.
  - destruct (real_fin x a va Hx Ra) as (ra & ->). destruct (real_fin x b vb Hx Rb) as (rb & ->).
    eexists; reflexivity.
  - exfalso. apply In_nth_error in Hr. destruct Hr as (j & Hj).
    assert (j < length x)%nat by (apply nth_error_Some; congruence).
    specialize (Nn j (Fin r) ltac:(lia) Hj). discriminate.
Qed.

(** applying the function to its own result changes nothing *)
Theorem fillnan1d_idempotent {T L} (A : arith T) (AL : arith L) up down mx px sx x mo po so mx2 px2 sx2 mo2 po2 so2 out mo1 :
  view mx px sx x -> writable mo po so (length x) ->
  fillnan1d_core A AL up down (Z.of_nat (length x)) mx px sx mo po so = Some mo1 ->
  length out = length x -> view mo1 po so out -> (forall v, In v out -> isnanb (a_cmp A) v = false) ->
  view mx2 px2 sx2 out -> writable mo2 po2 so2 (length out) ->
  exists mo', fillnan1d_core A AL up down (Z.of_nat (length out)) mx2 px2 sx2 mo2 po2 so2 = Some mo' /\
    wrote mo2 mo' po2 so2 out.
Proof.
  intros V W E Hl Vo Hn V2 W2.
  destruct (fillnan1d_correct A AL up down mx2 px2 sx2 out mo2 po2 so2 V2 W2) as (mo' & out' & E' & Wr & Hl' & H).
  exists mo'. split; [exact E'|]. rewrite <- (fill_no_nan A AL up down out out'); assumption.
Qed.

(** ** IEEE: interpolation between finite numbers never produces a nan *)
Section FillF.
  Context (prec emax : Z) (Hp : Prec_gt_0 prec) (He : Prec_lt_emax prec emax).
  Notation F := (binary_float prec emax).
  Notation FAr := (farith prec emax Hp He).

  Lemma plus_nonan (x y : F) : is_finite x = true -> is_nan y = false -> is_nan (Bplus mode_NE x y) = false.
  Proof.
    intros Fx Ny. destruct (is_finite y) eqn:Fy.
    - destruct (is_nan (Bplus mode_NE x y)) eqn:E; [|reflexivity]. exfalso.
      apply (f2e_nan prec emax) in E. rewrite f2e_plus in E by assumption. eapply frnd_nonan in E; [exact E|assumption].
    - destruct x as [s|s| |s m e H], y as [t|t| |t m' e' H']; try discriminate; reflexivity.
  Qed.
  Lemma minus_nonan (x y : F) : is_finite x = true -> is_finite y = true -> is_nan (Bminus mode_NE x y) = false.
  Proof.
    intros Fx Fy.
    destruct (is_nan (Bminus mode_NE x y)) eqn:E; [|reflexivity]. exfalso.
    apply (f2e_nan prec emax) in E. rewrite f2e_minus in E by assumption. eapply frnd_nonan in E; [exact E|assumption].
  Qed.
  Lemma div_nonan (x y : F) : is_nan x = false -> is_finite y = true -> B2R y <> 0%R -> is_nan (Bdiv mode_NE x y) = false.
  Proof.
    intros Nx Fy Hy. destruct (is_finite x) eqn:Fx.
    - destruct (is_nan (Bdiv mode_NE x y)) eqn:E; [|reflexivity]. exfalso.
      apply (f2e_nan prec emax) in E. rewrite f2e_div in E by assumption. eapply frnd_nonan in E; [exact E|assumption].
    - destruct x as [s|s| |s m e H], y as [t|t| |t m' e' H']; try discriminate; reflexivity.
  Qed.
  Lemma mult_nonan (x y : F) : is_finite x = true -> B2R x <> 0%R -> is_nan y = false -> is_nan (Bmult mode_NE x y) = false.
  Proof.
    intros Fx Hx Ny. destruct (is_finite y) eqn:Fy.
    - destruct (is_nan (Bmult mode_NE x y)) eqn:E; [|reflexivity]. exfalso.
      apply (f2e_nan prec emax) in E. rewrite f2e_mult in E by assumption. eapply frnd_nonan in E; [exact E|assumption].
    - destruct x as [s|s| |s m e H], y as [t|t| |t m' e' H']; try discriminate; try reflexivity.
      exfalso. apply Hx. reflexivity.
  Qed.
  Lemma ofZ_pos z : (64 < emax)%Z -> (1 <= z < 2 ^ 63)%Z ->
    is_finite (a_ofZ FAr z) = true /\ B2R (a_ofZ FAr z) <> 0%R.
  Proof.
    intros Hx Hz.
    destruct (frnd_small prec emax Hp (IZR z) 63) as (E & _).
    { unfold Prec_gt_0 in Hp. lia. }
    { rewrite Rabs_pos_eq by (apply IZR_le; lia).
      change (bpow radix2 63) with (IZR (2 ^ 63)). apply IZR_le. lia. }
    rewrite <- (f2e_ofZ prec emax Hp He) in E. apply f2e_fin_finite in E. destruct E as (E1 & E2).
    split; [exact E1|]. rewrite E2. apply Rgt_not_eq. apply Rlt_le_trans with 1%R; [lra|].
    replace 1%R with (rnd prec emax 1).
    - apply rnd_le; [exact Hp|]. apply IZR_le. lia.
    - apply rnd_generic. change 1%R with (bpow radix2 0). apply generic_bpow; [exact Hp|].
      unfold Prec_gt_0 in Hp. lia.
  Qed.
End FillF.

Lemma fconv_finite {prec emax} prec' emax' Hp' He' (Hlt : (emax < emax')%Z) (x : binary_float prec emax) :
  Prec_gt_0 prec -> (3 - emax' - prec' <= emax)%Z ->
  is_finite x = true -> is_finite (fconv prec' emax' Hp' He' x) = true.
Proof.
  intros Hp Hee Fx. destruct x as [s|s| |s m e H]; try discriminate; [reflexivity|].
  unfold fconv.
  destruct (frnd_small prec' emax' Hp' (F2R (Float radix2 (cond_Zopp s (Zpos m)) e)) emax) as (E & _).
  - split; assumption.
  - change (F2R (Float radix2 (cond_Zopp s (Zpos m)) e)) with (B2R (B754_finite s m e H)).
    apply Rlt_le. apply abs_B2R_lt_emax.
  - rewrite <- (f2e_normalize prec' emax' Hp' He' _ _ s) in E. apply f2e_fin_finite in E. apply E.
Qed.

Lemma fconv_nonan {prec emax} prec' emax' Hp' He' (x : binary_float prec emax) :
  is_nan x = false -> is_nan (fconv prec' emax' Hp' He' x) = false.
Proof.
  intros Nx. destruct x as [s|s| |s m e H]; try discriminate; try reflexivity.
  clear Nx. unfold fconv.
  destruct (is_nan (binary_normalize prec' emax' Hp' He' mode_NE (SpecFloat.cond_Zopp s (Zpos m)) e s)) eqn:E;
    [|reflexivity]. exfalso.
  apply (f2e_nan prec' emax') in E. rewrite f2e_normalize in E. eapply frnd_nonan in E; [exact E|assumption].
Qed.

Section FillIEEE.
  Context (prec emax precL emaxL : Z) (Hp : Prec_gt_0 prec) (He : Prec_lt_emax prec emax)
          (HpL : Prec_gt_0 precL) (HeL : Prec_lt_emax precL emaxL).
  Notation F := (binary_float prec emax).
  Notation FL := (binary_float precL emaxL).
  Context (up : F -> FL) (down : FL -> F).

  Theorem fillnan1d_no_new_nan mx px sx (x : list F) mo po so :
    (64 < emaxL)%Z ->
    (forall v, is_finite v = true -> is_finite (up v) = true) ->
    (forall v, is_nan v = false -> is_nan (down v) = false) ->
    view mx px sx x -> writable mo po so (length x) -> (Z.of_nat (length x) < 2 ^ 63)%Z ->
    (forall v, In v x -> is_nan v = true \/ is_finite v = true) ->
    (exists v, In v x /\ is_finite v = true) ->
    exists mo' out,
      fillnan1d_core (farith prec emax Hp He) (farith precL emaxL HpL HeL) up down
        (Z.of_nat (length x)) mx px sx mo po so = Some mo' /\
      wrote mo mo' po so out /\ length out = length x /\
      (forall v, In v out -> is_nan v = false) /\
      (forall i v, nth_error x i = Some v -> is_nan v = false -> nth_error out i = Some v).
  Proof.
    intros Hx64 Hup Hdn V W Hlen Hx (w & Hw & Fw).
    destruct (fillnan1d_correct (farith prec emax Hp He) (farith precL emaxL HpL HeL) up down mx px sx x mo po so V W)
      as (mo' & out & E & Wr & Hl & H).
    exists mo', out. split; [exact E|]. split; [exact Wr|]. split; [exact Hl|].
    assert (RF : forall i v, real_at (isnanb (@Bcompare prec emax)) x i v -> is_finite v = true).
    { intros i v [H1 H2]. rewrite isnan_f in H2. apply nth_error_In in H1. destruct (Hx v H1); congruence. }
    split.
    - intros v Hv. apply In_nth_error in Hv. destruct Hv as (i & Hi). pose proof Hi as Hi'.
      apply H in Hi. cbn [a_cmp farith a_nan] in Hi.
      assert (FN : forall v : F, is_finite v = true -> is_nan v = false) by (intros [| | |]; simpl; congruence).
      destruct Hi as [v Rv|b vb Hib Rb Nb|a va Hia Ra Na|a b va vb Hiab Ra Rb Nb|Hii Nn].
      + apply FN. eapply RF; eassumption.
      + apply FN. eapply RF; eassumption.
      + apply FN. eapply RF; eassumption.
      + assert (b < length x)%nat by (destruct Rb as [Hb _]; apply nth_error_Some; congruence).
        unfold gap_value. apply Hdn. cbn [a_add a_mul a_div a_sub farith].
        destruct (ofZ_pos precL emaxL HpL HeL (Z.of_nat (i - a)) Hx64 ltac:(lia)) as (Fi & Ni).
        destruct (ofZ_pos precL emaxL HpL HeL (Z.of_nat (b - a)) Hx64 ltac:(lia)) as (Fg & Ng).
        apply plus_nonan; [apply Hup; eapply RF; eassumption|].
        apply mult_nonan; [exact Fi|exact Ni|].
        apply div_nonan; [|exact Fg|exact Ng].
        apply minus_nonan; apply Hup; eapply RF; eassumption.
      + exfalso. apply In_nth_error in Hw. destruct Hw as (j & Hj).
        assert (j < length x)%nat by (apply nth_error_Some; congruence).
        specialize (Nn j w ltac:(lia) Hj). rewrite isnan_f in Nn. destruct w; simpl in *; congruence.
    - intros i v Hi Nv. destruct (nth_error out i) as [u|] eqn:Eu.
      + f_equal. eapply fill_at_det; [apply H; exact Eu|]. apply fa_keep. split; [exact Hi|].
        cbn [a_cmp farith]. rewrite isnan_f. exact Nv.
      + apply nth_error_None in Eu. assert (i < length x)%nat by (apply nth_error_Some; congruence). lia.
  Qed.
End FillIEEE.

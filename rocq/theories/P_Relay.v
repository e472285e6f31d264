(** Proofs about hysteresis_relay, backlash and backlash_sum. *)
From Coq Require Import ZArith Reals List Bool Lia Lra.
From Flocq Require Import Core BinarySingleNaN.
From Verif Require Import CSem CSemP Num NumP NumF M_Signal S_Signal.
Import ListNotations.
Open Scope Z_scope.

Section Relay.
  Context {T : Type} (cmp : T -> T -> option comparison) (lo hi lv hv : T).

  Definition relay_g (s x : T) : T * T :=
    let y := if ltb cmp x lo then lv else if gtb cmp x hi then hv else s in (y, y).
  Definition relay_out (init : T) (x : list T) : list T := fst (mapacc relay_g init x).

  Definition relay_body (init : T) (po so : Z) (k : Z) (x : T) (m : mem T) : M (mem T) :=
    if ltb cmp x lo then set m po so k lv
    else if gtb cmp x hi then set m po so k hv
    else if k =? 0 then set m po so k init
    else y <- get m po so (k - 1) ;; set m po so k y.

  Lemma relay_liter init po so l : forall (k : nat) (m : mem T) (s : T),
    (k = O -> s = init) -> ((0 < k)%nat -> m (po + (Z.of_nat k - 1) * so) = Some s) ->
    (forall i, (i < length l)%nat -> m (po + (Z.of_nat k + Z.of_nat i) * so) <> None) ->
    liter (Z.of_nat k) l (relay_body init po so) m =
    Some (upds m po so (Z.of_nat k) (fst (mapacc relay_g s l))).
  Proof.
    induction l as [|x l IH]; intros k m s H0 H1 Ho; cbn [liter mapacc fst upds]; [reflexivity|].
    set (y := fst (relay_g s x)).
    assert (E : relay_body init po so (Z.of_nat k) x m = Some (upd m (po + Z.of_nat k * so) y)).
    { assert (Hk : m (po + Z.of_nat k * so) <> None).
      { specialize (Ho O ltac:(cbn; lia)). cbn in Ho. rewrite Z.add_0_r in Ho. exact Ho. }
      unfold relay_body, y, relay_g. cbn [fst].
      destruct (ltb cmp x lo); [apply set_upd; exact Hk|].
      destruct (gtb cmp x hi); [apply set_upd; exact Hk|].
      destruct (Z.eqb_spec (Z.of_nat k) 0) as [E0|E0].
      - rewrite H0 by lia. apply set_upd; exact Hk.
      - unfold get at 1, load. rewrite H1 by lia. cbn [bind]. apply set_upd; exact Hk. }
    rewrite E. cbn [bind].
    replace (Z.of_nat k + 1) with (Z.of_nat (S k)) by lia.
    rewrite (IH (S k) _ y).
    - change (relay_g s x) with (y, y). cbv iota.
      destruct (mapacc relay_g y l) as [ys s2]. cbn [fst upds].
      replace (Z.of_nat k + 1) with (Z.of_nat (S k)) by lia. reflexivity.
    - lia.
    - intros _. replace (Z.of_nat (S k) - 1) with (Z.of_nat k) by lia. apply upd_same.
    - intros i Hi. unfold upd. destruct (_ =? _); [discriminate|].
      specialize (Ho (S i) ltac:(cbn [length]; lia)).
      replace (Z.of_nat (S k) + Z.of_nat i) with (Z.of_nat k + Z.of_nat (S i)) by lia. exact Ho.
  Qed.

  Lemma relay_core mx px sx x init mo po so :
    view mx px sx x -> writable mo po so (length x) ->
    hysteresis_relay_core cmp (Z.of_nat (length x)) mx px sx lo hi lv hv init mo po so =
    Some (upds mo po so 0 (relay_out init x)).
  Proof.
    intros V [Ho Hs]. unfold hysteresis_relay_core.
    rewrite (for_each_view mx px sx x _ (relay_body init po so) mo V).
    - apply (relay_liter init po so x O mo init); [reflexivity|lia|].
      intros i Hi. cbn. apply Ho. exact Hi.
    - intros k s v Hk Hg. rewrite Hg. reflexivity.
  Qed.

  Lemma relay_out_length init x : length (relay_out init x) = length x.
  Proof. apply mapacc_length. Qed.

  Lemma relay_out_spec x : forall init i y,
    nth_error (relay_out init x) i = Some y -> relay_at cmp lo hi lv hv init x i y.
  Proof.
    induction x as [|x0 x IH]; intros init i y H.
    - destruct i; discriminate.
    - set (y0 := fst (relay_g init x0)).
      assert (E : relay_out init (x0 :: x) = y0 :: relay_out y0 x).
      { unfold relay_out. cbn [mapacc]. change (relay_g init x0) with (y0, y0). cbv iota.
        destruct (mapacc relay_g y0 x). reflexivity. }
      assert (H0 : (below cmp lo x0 /\ y0 = lv) \/ (above cmp lo hi x0 /\ y0 = hv) \/
                   (in_band cmp lo hi x0 /\ y0 = init)).
      { unfold y0, relay_g, in_band, above, below, ltb, gtb. cbn [fst].
        destruct (cmp x0 lo) as [[]|] eqn:E1; destruct (cmp x0 hi) as [[]|] eqn:E2;
          intuition congruence. }
      rewrite E in H. destruct i as [|i].
      + cbn in H. injection H as <-. destruct H0 as [H0|[H0|H0]].
        * left. exists O, x0. repeat split; auto; try lia.
        * left. exists O, x0. repeat split; auto; try lia.
        * right. split; [|apply H0]. intros k u Hk Hu. assert (k = O) by lia. subst k.
          cbn in Hu. injection Hu as <-. apply H0.
      + cbn [nth_error] in H. apply IH in H. destruct H as [(j & v & Hj & Hv & Hb & Hy)|(Hb & Hy)].
        * left. exists (S j), v. split; [lia|]. split; [exact Hv|]. split; [|exact Hy].
          intros k u Hk Hu. destruct k as [|k]; [lia|]. apply (Hb k u); [lia|exact Hu].
        * destruct H0 as [H0|[H0|H0]].
          -- left. exists O, x0. split; [lia|]. split; [reflexivity|]. split.
             ++ intros k u Hk Hu. destruct k as [|k]; [lia|]. apply (Hb k u); [lia|exact Hu].
             ++ left. split; [apply H0|]. rewrite Hy. apply H0.
          -- left. exists O, x0. split; [lia|]. split; [reflexivity|]. split.
             ++ intros k u Hk Hu. destruct k as [|k]; [lia|]. apply (Hb k u); [lia|exact Hu].
             ++ right. split; [apply H0|]. rewrite Hy. apply H0.
          -- right. split; [|rewrite Hy; apply H0].
             intros k u Hk Hu. destruct k as [|k].
             ++ cbn in Hu. injection Hu as <-. apply H0.
             ++ apply (Hb k u); [lia|exact Hu].
  Qed.

  Theorem hysteresis_correct mx px sx x init mo po so :
    view mx px sx x -> writable mo po so (length x) ->
    exists mo' out,
      hysteresis_relay_core cmp (Z.of_nat (length x)) mx px sx lo hi lv hv init mo po so = Some mo' /\
      wrote mo mo' po so out /\ length out = length x /\
      forall i y, nth_error out i = Some y -> relay_at cmp lo hi lv hv init x i y.
  Proof.
    intros V W. rewrite (relay_core mx px sx x init mo po so V W).
    eexists. exists (relay_out init x). split; [reflexivity|]. split.
    - apply upds_wrote. rewrite relay_out_length. apply W.
    - split; [apply relay_out_length|]. apply relay_out_spec.
  Qed.

  Lemma mapacc_relay_last s x : snd (mapacc relay_g s x) = last_or s (relay_out s x).
  Proof.
    unfold relay_out. revert s. induction x as [|a x IH]; intros s; [reflexivity|].
    cbn [mapacc]. destruct (relay_g s a) as [y s1] eqn:E.
    assert (y = s1) by (unfold relay_g in E; congruence). subst y.
    specialize (IH s1). destruct (mapacc relay_g s1 x) as [ys s2]. cbn [fst snd last_or] in *. exact IH.
  Qed.

  Lemma relay_out_app init x y :
    relay_out init (x ++ y) = relay_out init x ++ relay_out (last_or init (relay_out init x)) y.
  Proof.
    rewrite <- mapacc_relay_last. unfold relay_out. rewrite mapacc_app.
    destruct (mapacc relay_g init x) as [y1 s1]. cbn [fst snd].
    destruct (mapacc relay_g s1 y). reflexivity.
  Qed.
End Relay.

(** Running on a concatenation = running on the pieces with the state carried over. *)
Theorem hysteresis_chunks {T} (cmp : T -> T -> option comparison) lo hi lv hv init
        x y mx px sx my py sy mz pz sz o1 po1 so1 o2 po2 so2 o3 po3 so3 :
  view mx px sx x -> view my py sy y -> view mz pz sz (x ++ y) ->
  writable o1 po1 so1 (length x) -> writable o2 po2 so2 (length y) -> writable o3 po3 so3 (length (x ++ y)) ->
  exists out1 out2, length out1 = length x /\ length out2 = length y /\
    writes (hysteresis_relay_core cmp (Z.of_nat (length x)) mx px sx lo hi lv hv init o1 po1 so1) o1 po1 so1 out1 /\
    writes (hysteresis_relay_core cmp (Z.of_nat (length y)) my py sy lo hi lv hv (last_or init out1) o2 po2 so2)
           o2 po2 so2 out2 /\
    writes (hysteresis_relay_core cmp (Z.of_nat (length (x ++ y))) mz pz sz lo hi lv hv init o3 po3 so3)
           o3 po3 so3 (out1 ++ out2).
Proof.
  intros Vx Vy Vz W1 W2 W3.
  exists (relay_out cmp lo hi lv hv init x),
         (relay_out cmp lo hi lv hv (last_or init (relay_out cmp lo hi lv hv init x)) y).
  rewrite !relay_out_length. split; [reflexivity|]. split; [reflexivity|].
  rewrite !relay_core by assumption.
  split; [|split].
  - eapply writes_upds; [exact W1|apply relay_out_length].
  - eapply writes_upds; [exact W2|apply relay_out_length].
  - rewrite <- relay_out_app. eapply writes_upds; [exact W3|apply relay_out_length].
Qed.

(** ** backlash *)
Section Backlash.
  Context {T : Type} (A : arith T).

  Definition bl_g (h s x : T) : T * T := let y := backlash_step A h x s in (y, y).
  Definition bl_out (h init : T) (x : list T) : list T := fst (mapacc (bl_g h) init x).

  Lemma bl_out_length h init x : length (bl_out h init x) = length x.
  Proof. apply mapacc_length. Qed.

  Lemma bl_out_cons h init a x :
    bl_out h init (a :: x) = backlash_step A h a init :: bl_out h (backlash_step A h a init) x.
  Proof. unfold bl_out. cbn [mapacc bl_g]. destruct (mapacc (bl_g h) (backlash_step A h a init) x). reflexivity. Qed.

  Lemma bl_last h s x : snd (mapacc (bl_g h) s x) = last_or s (bl_out h s x).
  Proof.
    revert s. induction x as [|a x IH]; intros s; [reflexivity|].
    rewrite bl_out_cons. cbn [mapacc bl_g last_or]. rewrite <- IH.
    destruct (mapacc (bl_g h) (backlash_step A h a s) x). reflexivity.
  Qed.

  Lemma bl_out_app h init x y :
    bl_out h init (x ++ y) = bl_out h init x ++ bl_out h (last_or init (bl_out h init x)) y.
  Proof.
    rewrite <- bl_last. unfold bl_out. rewrite mapacc_app.
    destruct (mapacc (bl_g h) init x) as [y1 s1]. cbn [fst snd].
    destruct (mapacc (bl_g h) s1 y). reflexivity.
  Qed.

  Lemma backlash_core_eq mx px sx x w init mo po so :
    view mx px sx x -> writable mo po so (length x) ->
    backlash_core A (Z.of_nat (length x)) mx px sx w init mo po so =
    Some (upds mo po so 0 (bl_out (a_div A w (a_ofZ A 2)) init x)).
  Proof.
    intros V [Ho Hs]. unfold backlash_core. set (h := a_div A w (a_ofZ A 2)).
    rewrite (for_each_view mx px sx x _
      (fun k v st => let '(m, cy) := st in
         bind (set m po so k (fst (bl_g h cy v))) (fun m' => Some (m', snd (bl_g h cy v)))) (mo, init) V).
    - rewrite (liter_emit (bl_g h) po so x 0).
      + reflexivity.
      + reflexivity.
      + intros k Hk. cbn. apply Ho. exact Hk.
    - intros k [m cy] v Hk Hg. rewrite Hg. reflexivity.
  Qed.

  Theorem backlash_chunks w init x y mx px sx my py sy mz pz sz o1 po1 so1 o2 po2 so2 o3 po3 so3 :
    view mx px sx x -> view my py sy y -> view mz pz sz (x ++ y) ->
    writable o1 po1 so1 (length x) -> writable o2 po2 so2 (length y) -> writable o3 po3 so3 (length (x ++ y)) ->
    exists out1 out2, length out1 = length x /\ length out2 = length y /\
      writes (backlash_core A (Z.of_nat (length x)) mx px sx w init o1 po1 so1) o1 po1 so1 out1 /\
      writes (backlash_core A (Z.of_nat (length y)) my py sy w (last_or init out1) o2 po2 so2) o2 po2 so2 out2 /\
      writes (backlash_core A (Z.of_nat (length (x ++ y))) mz pz sz w init o3 po3 so3) o3 po3 so3 (out1 ++ out2).
  Proof.
    intros Vx Vy Vz W1 W2 W3. set (h := a_div A w (a_ofZ A 2)).
    exists (bl_out h init x), (bl_out h (last_or init (bl_out h init x)) y).
    rewrite !bl_out_length. split; [reflexivity|]. split; [reflexivity|].
    rewrite !backlash_core_eq by assumption. fold h.
    split; [|split].
    - eapply writes_upds; [exact W1|apply bl_out_length].
    - eapply writes_upds; [exact W2|apply bl_out_length].
    - rewrite <- bl_out_app. eapply writes_upds; [exact W3|apply bl_out_length].
  Qed.
End Backlash.

(** exact arithmetic *)
Lemma backlash_step_Fin h a s : (0 <= h)%R ->
  exists y, backlash_step earith (Fin h) (Fin a) (Fin s) = Fin y /\ nearest_in a h s y.
Proof.
  intros Hh. unfold backlash_step. cbn [a_sub a_add a_cmp earith esub eopp eadd].
  destruct (gtb ecmp (Fin (a + - h)) (Fin s)) eqn:E1.
  - apply gtb_Fin in E1. eexists; split; [reflexivity|]. split; [lra|].
    intros z Hz. rewrite !Rabs_pos_eq by lra. lra.
  - apply gtb_Fin_false in E1. destruct (ltb ecmp (Fin (a + h)) (Fin s)) eqn:E2.
    + apply ltb_Fin in E2. eexists; split; [reflexivity|]. split; [lra|].
      intros z Hz. rewrite !Rabs_left1 by lra. lra.
    + apply ltb_Fin_false in E2. eexists; split; [reflexivity|]. split; [lra|].
      intros z Hz. rewrite Rminus_diag_eq, Rabs_R0 by reflexivity. apply Rabs_pos.
Qed.

Lemma bl_out_Fin h x : (0 <= h)%R -> forall s,
  exists ys, bl_out earith (Fin h) (Fin s) (map Fin x) = map Fin ys /\ backlash_run h s x ys /\ length ys = length x.
Proof.
  intros Hh. induction x as [|a x IH]; intros s.
  - exists []. repeat split.
  - cbn [map]. rewrite bl_out_cons. destruct (backlash_step_Fin h a s Hh) as (y & Ey & Hy).
    rewrite Ey. destruct (IH y) as (ys & Eys & Hys & Hl).
    exists (y :: ys). rewrite Eys. split; [reflexivity|]. split; [exact (conj Hy Hys)|]. cbn; congruence.
Qed.

Theorem backlash_exact mx px sx x w init mo po so :
  (0 <= w)%R -> view mx px sx (map Fin x) -> writable mo po so (length x) ->
  exists ys, length ys = length x /\
    writes (backlash_core earith (Z.of_nat (length x)) mx px sx (Fin w) (Fin init) mo po so) mo po so (map Fin ys) /\
    backlash_run (w / 2) init x ys.
Proof.
  intros Hw V W.
  destruct (bl_out_Fin (w / 2) x ltac:(lra) init) as (ys & E & H & L).
  exists ys. split; [exact L|]. split; [|exact H].
  replace (length x) with (length (map Fin x)) in * by apply map_length.
  rewrite backlash_core_eq by assumption.
  cbn [a_div a_ofZ earith]. rewrite ediv_Fin by lra. rewrite E.
  eapply writes_upds; [exact W|]. rewrite !map_length in *. exact L.
Qed.

(** facts about runs *)
Lemma nearest_clamp x h p y : (0 <= h)%R -> nearest_in x h p y -> y = Rmax (x - h) (Rmin (x + h) p).
Proof.
  intros Hh [H1 H2]. set (c := Rmax (x - h) (Rmin (x + h) p)).
  assert (Hc : (x - h <= c <= x + h)%R).
  { unfold c. split; [apply Rmax_l|]. apply Rmax_lub; [lra|apply Rmin_l]. }
  specialize (H2 c Hc). unfold c in *. clear c.
  unfold Rmax, Rmin, Rabs in *.
  destruct (Rle_dec (x + h) p); repeat (destruct (Rle_dec _ _)); repeat destruct (Rcase_abs _); lra.
Qed.

(** the output moves in the direction of the input *)
Theorem backlash_monotone h prev x ys i xi xj yi yj :
  (0 <= h)%R -> backlash_run h prev x ys ->
  nth_error x i = Some xi -> nth_error x (S i) = Some xj ->
  nth_error ys i = Some yi -> nth_error ys (S i) = Some yj ->
  ((xi <= xj -> yi <= yj) /\ (xj <= xi -> yj <= yi))%R.
Proof.
  intros Hh. revert prev ys i. induction x as [|a x IH]; intros prev [|b ys] i R Hxi Hxj Hyi Hyj; try (destruct i; discriminate).
  destruct R as [N R]. destruct i as [|i].
  - cbn in Hxi, Hyi. injection Hxi as ->. injection Hyi as ->.
    destruct x as [|a' x]; [discriminate|]. destruct ys as [|b' ys]; [discriminate|].
    cbn in Hxj, Hyj. injection Hxj as ->. injection Hyj as ->. destruct R as [N' _].
    destruct N as [N1 N2]. apply nearest_clamp in N'; [|exact Hh].
    rewrite N'. split; intros Hx; unfold Rmax, Rmin; repeat destruct (Rle_dec _ _); lra.
  - cbn [nth_error] in *. eapply IH; eassumption.
Qed.

(** ** backlash in any ordered arithmetic, in particular IEEE *)
Section BacklashOrd.
  Context {T : Type} (A : arith T) (L : cmp_laws (a_cmp A)) (h : T).
  Notation le := (leb (a_cmp A)).
  Notation nan := (isnanb (a_cmp A)).

  Lemma step_bounds a s : nan s = false -> le (a_sub A a h) (a_add A a h) = true ->
    le (a_sub A a h) (backlash_step A h a s) = true /\ le (backlash_step A h a s) (a_add A a h) = true /\
    nan (backlash_step A h a s) = false.
  Proof.
    intros Hs Hb. destruct (leb_notnan _ L _ _ Hb) as [N1 N2]. unfold backlash_step.
    destruct (gtb (a_cmp A) (a_sub A a h) s) eqn:E1.
    - split; [apply (leb_refl _ L); assumption|]. split; assumption.
    - rewrite (gtb_ltb _ L) in E1. destruct (ltb (a_cmp A) (a_add A a h) s) eqn:E2.
      + split; [exact Hb|]. split; [apply (leb_refl _ L); assumption|assumption].
      + split; [apply (not_lt_le _ L); assumption|]. split; [|exact Hs].
        apply (not_lt_le _ L); assumption.
  Qed.

  Lemma step_up a a' y : nan y = false -> le y (a_add A a h) = true -> le (a_add A a h) (a_add A a' h) = true ->
    le y (backlash_step A h a' y) = true.
  Proof.
    intros Hy H1 H2. unfold backlash_step.
    destruct (gtb (a_cmp A) (a_sub A a' h) y) eqn:E1.
    - rewrite (gtb_ltb _ L) in E1. apply ltb_leb; exact E1.
    - destruct (ltb (a_cmp A) (a_add A a' h) y) eqn:E2.
      + exfalso. pose proof (leb_trans _ L _ _ _ H1 H2) as H3. apply (le_not_lt _ L) in H3. congruence.
      + apply (leb_refl _ L); exact Hy.
  Qed.

  Lemma step_down a a' y : nan y = false -> le (a_sub A a h) y = true -> le (a_sub A a' h) (a_sub A a h) = true ->
    le (backlash_step A h a' y) y = true.
  Proof.
    intros Hy H1 H2. unfold backlash_step.
    destruct (gtb (a_cmp A) (a_sub A a' h) y) eqn:E1.
    - exfalso. rewrite (gtb_ltb _ L) in E1.
      pose proof (leb_trans _ L _ _ _ H2 H1) as H3. apply (le_not_lt _ L) in H3. congruence.
    - destruct (ltb (a_cmp A) (a_add A a' h) y) eqn:E2.
      + apply ltb_leb; exact E2.
      + apply (leb_refl _ L); exact Hy.
  Qed.

  Lemma bl_out_bounds x : forall init,
    nan init = false -> (forall a, In a x -> le (a_sub A a h) (a_add A a h) = true) ->
    forall i a y, nth_error x i = Some a -> nth_error (bl_out A h init x) i = Some y ->
      nan y = false /\ le (a_sub A a h) y = true /\ le y (a_add A a h) = true.
  Proof.
    induction x as [|b x IH]; intros init Hi Hx i a y Ha Hy; [destruct i; discriminate|].
    rewrite bl_out_cons in Hy.
    destruct (step_bounds b init Hi (Hx b (or_introl eq_refl))) as (B1 & B2 & B3).
    destruct i as [|i]; cbn [nth_error] in Ha, Hy.
    - injection Ha as <-. injection Hy as <-. auto.
    - eapply (IH _ B3); [intros; apply Hx; right; assumption|eassumption|eassumption].
  Qed.

  Lemma bl_out_step x : forall init i a y y',
    nth_error x (S i) = Some a -> nth_error (bl_out A h init x) i = Some y ->
    nth_error (bl_out A h init x) (S i) = Some y' -> y' = backlash_step A h a y.
  Proof.
    induction x as [|b x IH]; intros init i a y y' Ha Hy Hy'; [destruct i; discriminate|].
    rewrite bl_out_cons in Hy, Hy'. destruct i as [|i].
    - cbn in Hy. injection Hy as <-. destruct x as [|c x]; [discriminate|]. rewrite bl_out_cons in Hy'.
      cbn in Ha, Hy'. congruence.
    - cbn [nth_error] in *. eapply IH; eassumption.
  Qed.
End BacklashOrd.

Section BacklashF.
  Context (prec emax : Z) (Hp : Prec_gt_0 prec) (He : Prec_lt_emax prec emax).
  Notation F := (binary_float prec emax).
  Notation FA := (farith prec emax Hp He).
  Notation fle := (leb (@Bcompare prec emax)).

  Lemma f_half (w : F) : (1 < emax)%Z -> is_finite w = true -> (0 <= B2R w)%R ->
    is_finite (Bdiv mode_NE w (a_ofZ FA 2)) = true /\ (0 <= B2R (Bdiv mode_NE w (a_ofZ FA 2)))%R.
  Proof.
    intros Hm Fw Hw. assert (Hp' : (0 < prec)%Z) by exact Hp. assert (He' : (prec < emax)%Z) by exact He.
    assert (E2 : f2e prec emax (a_ofZ FA 2) = Fin 2).
    { rewrite f2e_ofZ. destruct (frnd_small prec emax Hp 2 1) as (E & _).
      - lia.
      - simpl bpow. rewrite Rabs_pos_eq; simpl; lra.
      - rewrite E. f_equal. apply rnd_generic. change 2%R with (bpow radix2 1). apply generic_bpow; [exact Hp|lia]. }
    apply f2e_fin_finite in E2. destruct E2 as (F2 & V2).
    assert (E : f2e prec emax (Bdiv mode_NE w (a_ofZ FA 2)) = frnd prec emax (B2R w / 2)).
    { rewrite f2e_div; [rewrite V2; reflexivity| | |]; try assumption. rewrite V2. lra. }
    destruct (frnd_small prec emax Hp (B2R w / 2) (emax - 1)) as (E' & _).
    - lia.
    - pose proof (abs_B2R_lt_emax _ _ w) as Hb. rewrite Rabs_pos_eq in * by lra.
      unfold Zminus. rewrite bpow_plus. simpl (bpow radix2 (-(1))). lra.
    - rewrite E' in E. apply f2e_fin_finite in E. destruct E as (E1 & E3). split; [exact E1|].
      rewrite E3. rewrite <- (rnd_0 prec emax). apply rnd_le; [exact Hp|lra].
  Qed.

  (** For finite data the IEEE result stays in the rounded band and moves with the input. *)
  Theorem backlash_ieee mx px sx (x : list F) w init mo po so :
    (1 < emax)%Z -> is_finite w = true -> (0 <= B2R w)%R -> is_nan init = false ->
    (forall a, In a x -> is_finite a = true) ->
    view mx px sx x -> writable mo po so (length x) ->
    exists ys h, length ys = length x /\ h = a_div FA w (a_ofZ FA 2) /\
      writes (backlash_core FA (Z.of_nat (length x)) mx px sx w init mo po so) mo po so ys /\
      (forall i a y, nth_error x i = Some a -> nth_error ys i = Some y ->
         fle (a_sub FA a h) y = true /\ fle y (a_add FA a h) = true) /\
      (forall i a a' y y', nth_error x i = Some a -> nth_error x (S i) = Some a' ->
         nth_error ys i = Some y -> nth_error ys (S i) = Some y' ->
         (fle a a' = true -> fle y y' = true) /\ (fle a' a = true -> fle y' y = true)).
  Proof.
    intros Hm Fw Hw Ni Fx V W. set (h := a_div FA w (a_ofZ FA 2)).
    destruct (f_half w Hm Fw Hw) as (Fh & Hh). change (Bdiv mode_NE w (a_ofZ FA 2)) with h in Fh, Hh.
    exists (bl_out FA h init x), h. rewrite bl_out_length. split; [reflexivity|]. split; [reflexivity|].
    rewrite backlash_core_eq by assumption. fold h.
    split; [eapply writes_upds; [exact W|apply bl_out_length]|].
    pose proof (Bcompare_laws prec emax) as L.
    assert (Hband : forall a, In a x -> fle (a_sub FA a h) (a_add FA a h) = true).
    { intros a Ha. specialize (Fx a Ha). cbn [a_sub a_add farith]. rewrite leb_f, f2e_minus, f2e_plus by assumption.
      apply frnd_le; [exact Hp|lra]. }
    assert (Hadd : forall a a', In a x -> In a' x -> fle a a' = true ->
              fle (a_add FA a h) (a_add FA a' h) = true /\ fle (a_sub FA a h) (a_sub FA a' h) = true).
    { intros a a' Ha Ha' Hle. specialize (Fx _ Ha) as Fa. specialize (Fx _ Ha') as Fa'.
      rewrite leb_f, !f2e_finite in Hle by assumption. apply leb_Fin in Hle.
      cbn [a_sub a_add farith]. rewrite !leb_f, !f2e_minus, !f2e_plus by assumption.
      split; apply frnd_le; try exact Hp; lra. }
    assert (Hin : isnanb (a_cmp FA) init = false) by (cbn [a_cmp farith]; rewrite isnan_f; exact Ni).
    split.
    - intros i a y Ha Hy. apply (bl_out_bounds FA L h x init Hin Hband i a y Ha Hy).
    - intros i a a' y y' Ha Ha' Hy Hy'.
      destruct (bl_out_bounds FA L h x init Hin Hband i a y Ha Hy) as (Ny & B1 & B2).
      rewrite (bl_out_step FA h x init i a' y y' Ha' Hy Hy').
      pose proof (nth_error_In _ _ Ha) as Ia. pose proof (nth_error_In _ _ Ha') as Ia'.
      split; intros Hle.
      + eapply (step_up FA L h a a' y Ny B2). apply (Hadd a a' Ia Ia' Hle).
      + eapply (step_down FA L h a a' y Ny B1). apply (Hadd a' a Ia' Ia Hle).
  Qed.
End BacklashF.

(** ** backlash_sum *)
Section BacklashSum.
  Context {T : Type} (A : arith T).
  Notation half d := (a_div A d (a_ofZ A 2)).

  Definition bs_g (cx : T) (s : T) (wd : T * T) (y : T) : T * T :=
    let y' := backlash_step A (half (snd wd)) cx y in (y', a_add A s (a_mul A (fst wd) y')).
  Definition bs_step (wd : list (T * T)) (ys : list T) (cx : T) : T * list T :=
    let '(ys', tot) := mapacc (fun s '(p, y) => bs_g cx s p y) (a_ofZ A 0) (combine wd ys) in (tot, ys').

  Definition bs_new (cx : T) (q : T * T * T) : T := backlash_step A (half (snd (fst q))) cx (snd q).

  Lemma bs_mapacc cx l : forall s,
    mapacc (fun s '(p, y) => bs_g cx s p y) s l =
    (map (bs_new cx) l, fold_left (fun s q => a_add A s (a_mul A (fst (fst q)) (bs_new cx q))) l s).
  Proof.
    induction l as [|[[w d] y] l IH]; intros s; [reflexivity|].
    cbn [mapacc]. unfold bs_g at 1. cbn [fst snd]. rewrite IH. reflexivity.
  Qed.

  Lemma bs_step_eq wd ys cx :
    bs_step wd ys cx = (fold_left (fun s q => a_add A s (a_mul A (fst (fst q)) (bs_new cx q))) (combine wd ys) (a_ofZ A 0),
                        map (bs_new cx) (combine wd ys)).
  Proof. unfold bs_step. rewrite bs_mapacc. reflexivity. Qed.

  Lemma combine_new wd cx : forall ys, length ys = length wd ->
    combine wd (map (bs_new cx) (combine wd ys)) = map (fun q => (fst q, bs_new cx q)) (combine wd ys).
  Proof.
    induction wd as [|p wd IH]; intros [|y ys] H; cbn in H; try lia; [reflexivity|].
    cbn [combine map]. f_equal. apply IH. lia.
  Qed.

  Lemma bs_inner_eq mw pw sw md pd sd wl dl cx pf sf f ys :
    view mw pw sw wl -> view md pd sd dl -> length dl = length wl ->
    view f pf sf ys -> length ys = length wl -> (sf <> 0 \/ (length ys <= 1)%nat) ->
    backlash_sum_inner A (Z.of_nat (length wl)) mw pw sw md pd sd cx pf sf (f, a_ofZ A 0) =
    Some (upds f pf sf 0 (snd (bs_step (combine wl dl) ys cx)), fst (bs_step (combine wl dl) ys cx)).
  Proof.
    intros Vw Vd Ld Vf Ly Hs. unfold backlash_sum_inner.
    assert (Lc : length (combine wl dl) = length wl) by (rewrite combine_length; lia).
    rewrite <- Lc at 1.
    rewrite (for_each_list (combine wl dl) _
       (fun j p st => let '(mf, yt) := st in
          current_y <- get mf pf sf j ;;
          let y := backlash_step A (half (snd p)) cx current_y in
          mf' <- set mf pf sf j y ;;
          ret (mf', a_add A yt (a_mul A (fst p) y)))).
    - rewrite (liter_inplace (bs_g cx) pf sf (combine wl dl) ys 0).
      + unfold bs_step. destruct (mapacc _ _ _) as [ys' tot]. reflexivity.
      + lia.
      + intros k [w d] m s y Hg. rewrite Hg. reflexivity.
      + intros j Hj. cbn. apply Vf. exact Hj.
      + exact Hs.
    - intros k [mf yt] [w d] Hk. apply nth_error_combine in Hk. destruct Hk as (Hw & Hd).
      rewrite (view_get _ _ _ _ _ _ Vw Hw), (view_get _ _ _ _ _ _ Vd Hd).
      destruct (get mf pf sf (Z.of_nat k)); cbn [bind]; [|reflexivity]. cbn [fst snd]. reflexivity.
  Qed.

  Definition bs_run (wd : list (T * T)) (ys : list T) (x : list T) : list T * list T :=
    mapacc (bs_step wd) ys x.

  Lemma bs_step_len wd ys cx : length ys = length wd -> length (snd (bs_step wd ys cx)) = length wd.
  Proof. intros H. rewrite bs_step_eq. cbn [snd]. rewrite map_length, combine_length. lia. Qed.

  Lemma upds_full (f : mem T) p s l n : writable f p s n -> length l = n ->
    wrote f (upds f p s 0 l) p s l /\ writable (upds f p s 0 l) p s n.
  Proof.
    intros [Ho Hs] HL. split; [apply upds_wrote; rewrite HL; exact Hs|].
    split; [|exact Hs]. intros k Hk. apply upds_owned. apply Ho. exact Hk.
  Qed.

  Lemma bs_loop mw pw sw md pd sd wl dl pf sf po so :
    view mw pw sw wl -> view md pd sd dl -> length dl = length wl ->
    forall x k o f ys,
      view f pf sf ys -> length ys = length wl -> writable f pf sf (length wl) ->
      (forall i, (i < length x)%nat -> o (po + (Z.of_nat k + Z.of_nat i) * so) <> None) ->
      exists f', liter (Z.of_nat k) x
        (fun k cx (st : mem T * mem T) => let '(o, f) := st in
           '(f', y_total) <- backlash_sum_inner A (Z.of_nat (length wl)) mw pw sw md pd sd cx pf sf (f, a_ofZ A 0) ;;
           o' <- set o po so k y_total ;;
           ret (o', f')) (o, f) =
        Some (upds o po so (Z.of_nat k) (fst (bs_run (combine wl dl) ys x)), f') /\
        view f' pf sf (snd (bs_run (combine wl dl) ys x)) /\
        length (snd (bs_run (combine wl dl) ys x)) = length wl /\
        (forall a, outside pf sf (length wl) a -> f' a = f a).
  Proof.
    intros Vw Vd Ld. set (wd := combine wl dl).
    assert (Lwd : length wd = length wl) by (unfold wd; rewrite combine_length; lia).
    induction x as [|cx x IH]; intros k o f ys Vf Ly Wf Ho.
    - exists f. cbn. split; [reflexivity|]. split; [exact Vf|]. split; [exact Ly|auto].
    - cbn [liter]. rewrite (bs_inner_eq mw pw sw md pd sd wl dl cx pf sf f ys Vw Vd Ld Vf Ly).
      2:{ rewrite Ly. apply Wf. }
      fold wd. cbn [bind].
      destruct (bs_step wd ys cx) as [tot ys1] eqn:Es. cbn [fst snd].
      assert (L1 : length ys1 = length wl).
      { pose proof (bs_step_len wd ys cx ltac:(lia)) as H. rewrite Es in H. cbn in H. lia. }
      destruct (upds_full f pf sf ys1 (length wl) Wf L1) as ((V1 & F1) & W1).
      rewrite set_upd.
      2:{ specialize (Ho O ltac:(cbn; lia)). cbn in Ho. rewrite Z.add_0_r in Ho. exact Ho. }
      cbn [bind ret]. unfold ret; cbn [bind].
      destruct (IH (S k) (upd o (po + Z.of_nat k * so) tot) (upds f pf sf 0 ys1) ys1 V1 L1 W1) as (f' & E & V' & L' & F').
      { intros i Hi. unfold upd. destruct (_ =? _); [discriminate|].
        specialize (Ho (S i) ltac:(cbn [length]; lia)).
        replace (Z.of_nat (S k) + Z.of_nat i) with (Z.of_nat k + Z.of_nat (S i)) by lia. exact Ho. }
      exists f'. unfold bs_run in *. cbn [mapacc]. rewrite Es.
      destruct (mapacc (bs_step wd) ys1 x) as [outs ysf]. cbn [fst snd upds] in *.
      split; [|split; [exact V'|split; [exact L'|]]].
      + replace (Z.of_nat k + 1) with (Z.of_nat (S k)) by lia. exact E.
      + intros a Ha. rewrite F' by exact Ha. apply F1. rewrite L1. exact Ha.
  Qed.

  Lemma bs_core_eq mx px sx x mw pw sw wl md pd sd dl mi pi si il mo po so mf pf sf :
    view mx px sx x -> view mw pw sw wl -> view md pd sd dl -> view mi pi si il ->
    length dl = length wl -> length il = length wl ->
    writable mo po so (length x) -> writable mf pf sf (length wl) ->
    exists mf', backlash_sum_core A (Z.of_nat (length x)) (Z.of_nat (length wl)) mx px sx mw pw sw md pd sd mi pi si
      mo po so mf pf sf = Some (upds mo po so 0 (fst (bs_run (combine wl dl) il x)), mf') /\
      wrote mf mf' pf sf (snd (bs_run (combine wl dl) il x)) /\
      length (snd (bs_run (combine wl dl) il x)) = length wl.
  Proof.
    intros Vx Vw Vd Vi Ld Li Wo Wf. unfold backlash_sum_core.
    assert (E0 : for_each 0 (Z.of_nat (length wl)) (fun j f => v <- get mi pi si j ;; set f pf sf j v) mf =
                 Some (upds mf pf sf 0 il)).
    { replace (length wl) with (length il) by exact Li. rewrite (for_each_view mi pi si il _ (fun j v f => set f pf sf j v) mf Vi).
      2:{ intros k s v _ Hg. rewrite Hg. reflexivity. }
      destruct Wf as [Hof _]. rewrite <- Li in Hof. clear -Hof.
      assert (G : forall l k (m : mem T), (forall i, (i < length l)%nat -> m (pf + (k + Z.of_nat i) * sf) <> None) ->
         liter k l (fun j v f => set f pf sf j v) m = Some (upds m pf sf k l)).
      { induction l as [|a l IH]; intros k m Ho; [reflexivity|]. cbn [liter upds].
        rewrite set_upd.
        2:{ specialize (Ho O ltac:(cbn; lia)). cbn in Ho. rewrite Z.add_0_r in Ho. exact Ho. }
        cbn [bind]. apply IH. intros i Hi. unfold upd. destruct (_ =? _); [discriminate|].
        specialize (Ho (S i) ltac:(cbn [length]; lia)).
        replace (k + 1 + Z.of_nat i) with (k + Z.of_nat (S i)) by lia. exact Ho. }
      apply G. intros i Hi. cbn. apply Hof. exact Hi. }
    rewrite E0. cbn [bind].
    destruct (upds_full mf pf sf il (length wl) Wf Li) as ((V1 & F1) & W1).
    destruct (bs_loop mw pw sw md pd sd wl dl pf sf po so Vw Vd Ld x O mo (upds mf pf sf 0 il) il V1 Li W1)
      as (f' & E & V' & L' & F').
    { intros i Hi. cbn. apply Wo. exact Hi. }
    exists f'. split; [|split; [split; [exact V'|]|exact L']].
    - rewrite (for_each_view mx px sx x _
        (fun k cx (st : mem T * mem T) => let '(o, f) := st in
           '(f', y_total) <- backlash_sum_inner A (Z.of_nat (length wl)) mw pw sw md pd sd cx pf sf (f, a_ofZ A 0) ;;
           o' <- set o po so k y_total ;;
           ret (o', f')) (mo, upds mf pf sf 0 il) Vx).
      + exact E.
      + intros k [o f] v _ Hg. rewrite Hg. reflexivity.
    - intros a Ha. rewrite L' in Ha. rewrite F' by exact Ha. apply F1. rewrite Li. exact Ha.
  Qed.

  (** the columns *)
  Lemma bs_run_final wd x : forall ys, length ys = length wd ->
    snd (bs_run wd ys x) = map (fun q => last_or (snd q) (bl_out A (half (snd (fst q))) (snd q) x)) (combine wd ys).
  Proof.
    unfold bs_run. induction x as [|cx x IH]; intros ys Hl.
    - cbn [mapacc snd bl_out fst last_or]. revert ys Hl. induction wd as [|p wd IHw]; intros [|y ys] Hl; cbn in Hl; try lia; [reflexivity|].
      cbn [combine map snd]. f_equal. apply IHw. lia.
    - cbn [mapacc]. rewrite bs_step_eq.
      specialize (IH (map (bs_new cx) (combine wd ys)) ltac:(rewrite map_length, combine_length; lia)).
      destruct (mapacc (bs_step wd) (map (bs_new cx) (combine wd ys)) x) as [o f]. cbn [snd] in *.
      rewrite IH. rewrite combine_new by exact Hl. rewrite map_map. apply map_ext. intros [[w d] y].
      cbn [fst snd]. rewrite bl_out_cons. reflexivity.
  Qed.

  Lemma fold_left_map {X Y Z'} (f : Z' -> Y -> Z') (g : X -> Y) l : forall z,
    fold_left f (map g l) z = fold_left (fun a x => f a (g x)) l z.
  Proof. induction l as [|a l IH]; intros z; [reflexivity|]. cbn. apply IH. Qed.

  Lemma fold_left_ext_in {X Y} (f g : Y -> X -> Y) l : (forall a x, In x l -> f a x = g a x) -> forall z,
    fold_left f l z = fold_left g l z.
  Proof.
    induction l as [|a l IH]; intros H z; [reflexivity|]. cbn. rewrite H by (left; reflexivity).
    apply IH. intros; apply H; right; assumption.
  Qed.

  Lemma bs_run_out wd x dflt : forall ys i y, length ys = length wd ->
    nth_error (fst (bs_run wd ys x)) i = Some y ->
    y = fold_left (fun s q => a_add A s (a_mul A (fst (fst q)) (nth i (bl_out A (half (snd (fst q))) (snd q) x) dflt)))
          (combine wd ys) (a_ofZ A 0).
  Proof.
    unfold bs_run. induction x as [|cx x IH]; intros ys i y Hl H; [destruct i; discriminate|].
    cbn [mapacc] in H. rewrite bs_step_eq in H.
    specialize (IH (map (bs_new cx) (combine wd ys))).
    destruct (mapacc (bs_step wd) (map (bs_new cx) (combine wd ys)) x) as [o f]. cbn [fst] in *.
    destruct i as [|i]; cbn [nth_error] in H.
    - injection H as <-. apply fold_left_ext_in. intros a [[w d] y] _. rewrite bl_out_cons. reflexivity.
    - apply IH in H; [|rewrite map_length, combine_length; lia]. rewrite H, combine_new by exact Hl.
      rewrite fold_left_map. apply fold_left_ext_in. intros a [[w d] y'] _. cbn [fst snd].
      rewrite bl_out_cons. reflexivity.
  Qed.

  Lemma bs_run_out_length wd ys x : length (fst (bs_run wd ys x)) = length x.
  Proof. apply mapacc_length. Qed.

  Lemma fold_cols (F : list T -> T) : forall wl dl il (x : list T), length dl = length wl -> length il = length wl -> forall z,
    fold_left (fun s (q : T * T * T) => a_add A s (a_mul A (fst (fst q)) (F (bl_out A (half (snd (fst q))) (snd q) x))))
      (combine (combine wl dl) il) z =
    fold_left (fun s q => a_add A s (a_mul A (fst q) (F (snd q))))
      (combine wl (map (fun q : T * T * T => bl_out A (half (snd (fst q))) (snd q) x) (combine (combine wl dl) il))) z.
  Proof.
    induction wl as [|w wl IH]; intros [|d dl] [|y il] x H1 H2 z; cbn in H1, H2; try lia; [reflexivity|].
    cbn [combine map fold_left fst snd]. apply IH; lia.
  Qed.

  (** backlash_sum is the weighted sum of the backlash outputs; final is the last
      output of each operator. *)
  Theorem backlash_sum_correct mx px sx x mw pw sw wl md pd sd dl mi pi si il mo po so mf pf sf :
    view mx px sx x -> view mw pw sw wl -> view md pd sd dl -> view mi pi si il ->
    length dl = length wl -> length il = length wl ->
    writable mo po so (length x) -> writable mf pf sf (length wl) ->
    exists mo' mf' out fin (B : list (list T)),
      backlash_sum_core A (Z.of_nat (length x)) (Z.of_nat (length wl)) mx px sx mw pw sw md pd sd mi pi si
        mo po so mf pf sf = Some (mo', mf') /\
      wrote mo mo' po so out /\ length out = length x /\
      wrote mf mf' pf sf fin /\ length fin = length wl /\
      length B = length wl /\
      (forall j d y b, nth_error dl j = Some d -> nth_error il j = Some y -> nth_error B j = Some b ->
         length b = length x /\
         writes (backlash_core A (Z.of_nat (length x)) mx px sx d y mo po so) mo po so b /\
         nth_error fin j = Some (last_or y b)) /\
      (forall i y dflt, nth_error out i = Some y ->
         y = fold_left (fun s q => a_add A s (a_mul A (fst q) (nth i (snd q) dflt))) (combine wl B) (a_ofZ A 0)).
  Proof.
    intros Vx Vw Vd Vi Ld Li Wo Wf.
    destruct (bs_core_eq mx px sx x mw pw sw wl md pd sd dl mi pi si il mo po so mf pf sf Vx Vw Vd Vi Ld Li Wo Wf)
      as (mf' & E & Wr & Lf).
    set (wd := combine wl dl) in *.
    assert (Lwd : length wd = length wl) by (unfold wd; rewrite combine_length; lia).
    set (B := map (fun q => bl_out A (half (snd (fst q))) (snd q) x) (combine wd il)).
    exists (upds mo po so 0 (fst (bs_run wd il x))), mf', (fst (bs_run wd il x)), (snd (bs_run wd il x)), B.
    split; [exact E|].
    split; [apply upds_wrote; rewrite bs_run_out_length; apply Wo|].
    split; [apply bs_run_out_length|]. split; [exact Wr|]. split; [exact Lf|].
    split; [unfold B; rewrite map_length, combine_length; lia|].
    split.
    - intros j d y b Hd Hy Hb.
      assert (Hj : (j < length wl)%nat) by (rewrite <- Ld; apply nth_error_Some; congruence).
      destruct (nth_error wl j) as [w|] eqn:Hw; [|apply nth_error_None in Hw; lia].
      assert (Hc : nth_error (combine wd il) j = Some ((w, d), y)).
      { unfold wd. clear -Hw Hd Hy. revert dl il j Hw Hd Hy.
        induction wl as [|w0 wl IH]; intros [|d0 dl] [|y0 il] [|j] Hw Hd Hy; cbn in *; try discriminate.
        - congruence.
        - apply IH; assumption. }
      unfold B in Hb. rewrite nth_error_map, Hc in Hb. cbn in Hb. injection Hb as <-.
      split; [apply bl_out_length|]. split.
      + rewrite backlash_core_eq by assumption. eapply writes_upds; [exact Wo|apply bl_out_length].
      + rewrite bs_run_final by lia. rewrite nth_error_map, Hc. reflexivity.
    - intros i y dflt Hy. apply (bs_run_out wd x dflt) in Hy; [|lia]. rewrite Hy. unfold B, wd.
      apply (fold_cols (fun b => nth i b dflt)); assumption.
  Qed.

  Lemma bs_run_app wd ys x1 x2 :
    bs_run wd ys (x1 ++ x2) =
    (fst (bs_run wd ys x1) ++ fst (bs_run wd (snd (bs_run wd ys x1)) x2), snd (bs_run wd (snd (bs_run wd ys x1)) x2)).
  Proof.
    unfold bs_run. rewrite mapacc_app. destruct (mapacc (bs_step wd) ys x1) as [y1 s1]. cbn [fst snd].
    destruct (mapacc (bs_step wd) s1 x2). reflexivity.
  Qed.

  (** feeding final back as initial continues the computation *)
  Theorem backlash_sum_chunks x y wl dl il mx px sx my py sy mz pz sz mw pw sw md pd sd mi pi si
          o1 po1 so1 f1 pf1 sf1 o2 po2 so2 f2 pf2 sf2 o3 po3 so3 f3 pf3 sf3 :
    view mx px sx x -> view my py sy y -> view mz pz sz (x ++ y) ->
    view mw pw sw wl -> view md pd sd dl -> view mi pi si il -> length dl = length wl -> length il = length wl ->
    writable o1 po1 so1 (length x) -> writable o2 po2 so2 (length y) -> writable o3 po3 so3 (length (x ++ y)) ->
    writable f1 pf1 sf1 (length wl) -> writable f2 pf2 sf2 (length wl) -> writable f3 pf3 sf3 (length wl) ->
    exists m1 g1 m2 g2 m3 g3 out1 out2 fin,
      backlash_sum_core A (Z.of_nat (length x)) (Z.of_nat (length wl)) mx px sx mw pw sw md pd sd mi pi si
        o1 po1 so1 f1 pf1 sf1 = Some (m1, g1) /\
      backlash_sum_core A (Z.of_nat (length y)) (Z.of_nat (length wl)) my py sy mw pw sw md pd sd g1 pf1 sf1
        o2 po2 so2 f2 pf2 sf2 = Some (m2, g2) /\
      backlash_sum_core A (Z.of_nat (length (x ++ y))) (Z.of_nat (length wl)) mz pz sz mw pw sw md pd sd mi pi si
        o3 po3 so3 f3 pf3 sf3 = Some (m3, g3) /\
      length out1 = length x /\ length out2 = length y /\ length fin = length wl /\
      wrote o1 m1 po1 so1 out1 /\ wrote o2 m2 po2 so2 out2 /\ wrote o3 m3 po3 so3 (out1 ++ out2) /\
      wrote f2 g2 pf2 sf2 fin /\ wrote f3 g3 pf3 sf3 fin.
  Proof.
    intros Vx Vy Vz Vw Vd Vi Ld Li W1 W2 W3 F1 F2 F3.
    destruct (bs_core_eq mx px sx x mw pw sw wl md pd sd dl mi pi si il o1 po1 so1 f1 pf1 sf1 Vx Vw Vd Vi Ld Li W1 F1)
      as (g1 & E1 & Wr1 & L1).
    destruct (bs_core_eq my py sy y mw pw sw wl md pd sd dl g1 pf1 sf1 _ o2 po2 so2 f2 pf2 sf2 Vy Vw Vd (proj1 Wr1) Ld L1 W2 F2)
      as (g2 & E2 & Wr2 & L2).
    destruct (bs_core_eq mz pz sz (x ++ y) mw pw sw wl md pd sd dl mi pi si il o3 po3 so3 f3 pf3 sf3 Vz Vw Vd Vi Ld Li W3 F3)
      as (g3 & E3 & Wr3 & L3).
    rewrite bs_run_app in E3, Wr3. cbn [fst snd] in E3, Wr3.
    do 6 eexists. exists (fst (bs_run (combine wl dl) il x)).
    exists (fst (bs_run (combine wl dl) (snd (bs_run (combine wl dl) il x)) y)).
    exists (snd (bs_run (combine wl dl) (snd (bs_run (combine wl dl) il x)) y)).
    split; [exact E1|]. split; [exact E2|]. split; [exact E3|].
    split; [apply bs_run_out_length|]. split; [apply bs_run_out_length|]. split; [exact L2|].
    split; [apply upds_wrote; rewrite bs_run_out_length; apply W1|].
    split; [apply upds_wrote; rewrite bs_run_out_length; apply W2|].
    split; [apply upds_wrote; rewrite app_length, !bs_run_out_length, <- app_length; apply W3|].
    split; [exact Wr2|exact Wr3].
  Qed.
End BacklashSum.

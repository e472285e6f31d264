(** Proofs about unwrap. *)
From Coq Require Import ZArith Reals List Bool Lia Lra.
From Flocq Require Import Core BinarySingleNaN.
From Verif Require Import CSem CSemP Num NumP NumF M_Signal S_Signal.
Import ListNotations.
Open Scope Z_scope.

Section Gen.
  Context {T D : Type} (A : arith T) (AD : arith D) (up : T -> D)
          (signbit : D -> bool) (trunc : D -> option Z).
  Notation u1 := (unwrap1 A AD up signbit trunc).
  Notation fin := (isfinite A).

  Fixpoint urun (P prev : T) (l : list T) : M (list T) :=
    match l with
    | [] => Some []
    | x1 :: l' =>
        if fin x1 then
          y <- u1 prev x1 P ;; ys <- urun P y l' ;; Some (y :: ys)
        else Some (repeat (a_nan A) (length l))
    end.

  Lemma urun_length P l : forall prev ys, urun P prev l = Some ys -> length ys = length l.
  Proof.
    induction l as [|x1 l IH]; intros prev ys H; cbn [urun] in H.
    - injection H as <-. reflexivity.
    - destruct (fin x1).
      + destruct (u1 prev x1 P) as [y|]; cbn [bind] in H; [|discriminate].
        destruct (urun P y l) as [ys'|] eqn:E; cbn [bind] in H; [|discriminate].
        injection H as <-. cbn. f_equal. eapply IH; exact E.
      + injection H as <-. cbn. rewrite repeat_length. reflexivity.
  Qed.

  Lemma nan_fill po so q : forall k (m : mem T),
    (forall i, (i < q)%nat -> m (po + (k + Z.of_nat i) * so) <> None) ->
    iter_from q k (fun k1 m => set m po so k1 (a_nan A)) m = Some (upds m po so k (repeat (a_nan A) q)).
  Proof.
    induction q as [|q IH]; intros k m Ho; cbn [iter_from repeat upds]; [reflexivity|].
    rewrite set_upd.
    2:{ specialize (Ho O ltac:(lia)). rewrite Z.add_0_r in Ho. exact Ho. }
    cbn [bind]. apply IH. intros i Hi. unfold upd. destruct (_ =? _); [discriminate|].
    specialize (Ho (S i) ltac:(lia)). replace (k + 1 + Z.of_nat i) with (k + Z.of_nat (S i)) by lia. exact Ho.
  Qed.

  Lemma unwrap_core_eq mx px sx x0 l P mo po so :
    view mx px sx (x0 :: l) -> writable mo po so (length (x0 :: l)) ->
    unwrap_core A AD up signbit trunc (Z.of_nat (length (x0 :: l))) mx px sx P mo po so =
    (ys <- urun P x0 l ;; Some (upds mo po so 0 (x0 :: ys))).
  Proof.
    intros V [Ho Hs]. unfold unwrap_core.
    replace (Z.of_nat (length (x0 :: l)) <? 1) with false by (symmetry; apply Z.ltb_ge; cbn [length]; lia).
    rewrite (view_load mx px sx x0 l V). cbn [bind].
    assert (E0 : store mo po x0 = Some (upd mo po x0)).
    { unfold store, upd. specialize (Ho O ltac:(cbn; lia)). cbn in Ho. rewrite Z.add_0_r in Ho.
      destruct (mo po); [reflexivity|congruence]. }
    rewrite E0. cbn [bind].
    rewrite (for_loop_tail mx px sx x0 l _
      (fun k x1 (st : mem T * T) => let '(m, x0) := st in
           if negb (fin x1) then
             m' <- for_each k (Z.of_nat (length (x0 :: l))) (fun k1 m => set m po so k1 (a_nan A)) m ;;
             ret (Brk (m', x0))
           else
             x1prime <- u1 x0 x1 P ;;
             m' <- set m po so k x1prime ;;
             ret (@Next (mem T * T) (mem T * T) (m', x1prime))) (upd mo po x0, x0) V).
    2:{ intros k [m p] v Hg. rewrite Hg. reflexivity. }
    set (n := Z.of_nat (length (x0 :: l))).
    assert (G : forall l' (k : nat) m p, Z.of_nat k + Z.of_nat (length l') = n ->
      (forall i, (i < length l')%nat -> m (po + (Z.of_nat k + Z.of_nat i) * so) <> None) ->
      match urun P p l' with
      | None => lloop (Z.of_nat k) l'
      (fun k x1 (st : mem T * T) => let '(m, x0) := st in
           if negb (fin x1) then
             m' <- for_each k n (fun k1 m => set m po so k1 (a_nan A)) m ;;
             ret (Brk (m', x0))
           else
             x1prime <- u1 x0 x1 P ;;
             m' <- set m po so k x1prime ;;
             ret (@Next (mem T * T) (mem T * T) (m', x1prime))) (m, p) = None
      | Some ys => exists q, lloop (Z.of_nat k) l'
      (fun k x1 (st : mem T * T) => let '(m, x0) := st in
           if negb (fin x1) then
             m' <- for_each k n (fun k1 m => set m po so k1 (a_nan A)) m ;;
             ret (Brk (m', x0))
           else
             x1prime <- u1 x0 x1 P ;;
             m' <- set m po so k x1prime ;;
             ret (@Next (mem T * T) (mem T * T) (m', x1prime))) (m, p) = Some (inl (upds m po so (Z.of_nat k) ys, q))
      end).
    { induction l' as [|x1 l' IH]; intros k m p Hk Hm.
      - cbn. exists p. reflexivity.
      - cbn [urun lloop]. destruct (fin x1) eqn:Ef; cbn [negb].
        + destruct (u1 p x1 P) as [y|] eqn:Eu; cbn [bind]; [|reflexivity].
          rewrite set_upd.
          2:{ specialize (Hm O ltac:(cbn; lia)). cbn in Hm. rewrite Z.add_0_r in Hm. exact Hm. }
          cbn [bind ret]. unfold ret.
          specialize (IH (S k) (upd m (po + Z.of_nat k * so) y) y ltac:(cbn [length] in Hk; lia)).
          assert (Hm' : forall i, (i < length l')%nat -> upd m (po + Z.of_nat k * so) y (po + (Z.of_nat (S k) + Z.of_nat i) * so) <> None).
          { intros i Hi. unfold upd. destruct (_ =? _); [discriminate|].
            specialize (Hm (S i) ltac:(cbn [length]; lia)).
            replace (Z.of_nat (S k) + Z.of_nat i) with (Z.of_nat k + Z.of_nat (S i)) by lia. exact Hm. }
          specialize (IH Hm'). replace (Z.of_nat k + 1) with (Z.of_nat (S k)) by lia.
          destruct (urun P y l') as [ys|]; cbn [bind].
          * destruct IH as (q & E). exists q. cbn [upds].
            replace (Z.of_nat k + 1) with (Z.of_nat (S k)) by lia. exact E.
          * exact IH.
        + exists p. unfold for_each.
          replace (Z.to_nat (n - Z.of_nat k)) with (length (x1 :: l')) by lia.
          rewrite nan_fill by exact Hm. reflexivity. }
    specialize (G l 1%nat (upd mo po x0) x0 ltac:(unfold n; cbn [length]; lia)).
    assert (Hm : forall i, (i < length l)%nat -> upd mo po x0 (po + (Z.of_nat 1 + Z.of_nat i) * so) <> None).
    { intros i Hi. unfold upd. destruct (_ =? _); [discriminate|].
      specialize (Ho (S i) ltac:(cbn [length]; lia)). replace (Z.of_nat 1 + Z.of_nat i) with (Z.of_nat (S i)) by lia. exact Ho. }
    specialize (G Hm). change (Z.of_nat 1) with 1 in G. fold n.
    destruct (urun P x0 l) as [ys|]; cbn [bind].
    - destruct G as (q & E). cbn [upds]. rewrite Z.mul_0_l, Z.add_0_r.
      change (0 + 1) with 1. eapply eq_trans; [apply (f_equal (fun z => bind z _) E)|]. reflexivity.
    - eapply eq_trans; [apply (f_equal (fun z => bind z _) G)|]. reflexivity.
  Qed.

  (** every stored value is x - q*period for an int q (any arithmetic) *)
  Lemma urun_shift P l : forall prev ys, (forall v, In v l -> fin v = true) -> urun P prev l = Some ys ->
    forall i x y, nth_error l i = Some x -> nth_error ys i = Some y ->
      exists q, (- 2 ^ 31 <= q < 2 ^ 31) /\ y = a_sub A x (a_mul A (a_ofZ A q) P).
  Proof.
    induction l as [|x1 l IH]; intros prev ys Hf H i x y Hx Hy; [destruct i; discriminate|].
    cbn [urun] in H. rewrite (Hf x1 (or_introl eq_refl)) in H.
    destruct (u1 prev x1 P) as [y1|] eqn:E1; cbn [bind] in H; [|discriminate].
    destruct (urun P y1 l) as [ys'|] eqn:E2; cbn [bind] in H; [|discriminate]. injection H as <-.
    destruct i as [|i]; cbn [nth_error] in Hx, Hy.
    - injection Hx as <-. injection Hy as <-. unfold unwrap1, cast_int in E1.
      destruct (trunc _) as [q|]; cbn [bind] in E1; [|discriminate].
      destruct ((- 2 ^ 31 <=? q) && (q <? 2 ^ 31)) eqn:Er; cbn [bind ret ub] in E1; [|discriminate].
      unfold ret in E1. cbn [bind] in E1. injection E1 as <-. exists q. split; [|reflexivity].
      apply andb_true_iff in Er. destruct Er as [Er1 Er2]. apply Z.leb_le in Er1. apply Z.ltb_lt in Er2. lia.
    - eapply IH; try eassumption. intros v Hv. apply Hf. right. exact Hv.
  Qed.

  Theorem unwrap_any_type mx px sx x0 l P mo po so mo' :
    view mx px sx (x0 :: l) -> writable mo po so (length (x0 :: l)) ->
    (forall v, In v l -> isnanb (a_cmp A) v = false /\ a_isinf A v = false) ->
    unwrap_core A AD up signbit trunc (Z.of_nat (length (x0 :: l))) mx px sx P mo po so = Some mo' ->
    exists ys, length ys = length l /\ wrote mo mo' po so (x0 :: ys) /\
      forall i x y, nth_error l i = Some x -> nth_error ys i = Some y ->
        exists q, (- 2 ^ 31 <= q < 2 ^ 31) /\ y = a_sub A x (a_mul A (a_ofZ A q) P).
  Proof.
    intros V W Hf E. rewrite unwrap_core_eq in E by assumption.
    destruct (urun P x0 l) as [ys|] eqn:Eu; cbn [bind] in E; [|discriminate].
    assert (E' : mo' = upds mo po so 0 (x0 :: ys)) by congruence. subst mo'. clear E.
    exists ys. pose proof (urun_length _ _ _ _ Eu) as HL. split; [exact HL|]. split.
    - apply upds_wrote. cbn [length] in *. rewrite HL. apply W.
    - apply (urun_shift P l x0 ys); [|exact Eu]. intros v Hv. unfold isfinite.
      destruct (Hf v Hv) as [-> ->]. reflexivity.
  Qed.
End Gen.

(** ** exact arithmetic *)
Notation eunwrap_core := (unwrap_core earith earith (fun v : ER => v) esignbit etrunc).
Notation eurun := (urun earith earith (fun v : ER => v) esignbit etrunc).
Notation eu1 := (unwrap1 earith earith (fun v : ER => v) esignbit etrunc).

Definition qshift (P prev x : R) : R := (* the argument of the cast *)
  if Rlt_bool (x - prev) 0 then ((x - prev) / P - /2)%R else ((x - prev) / P + /2)%R.

Lemma eu1_Fin P a b : (0 < P)%R ->
  eu1 (Fin a) (Fin b) (Fin P) =
  (if (- 2 ^ 31 <=? Ztrunc (qshift P a b)) && (Ztrunc (qshift P a b) <? 2 ^ 31)
   then Some (Fin (b - IZR (Ztrunc (qshift P a b)) * P)) else None).
Proof.
  intros HP. unfold unwrap1, copysign_half. cbn [a_sub a_div a_add a_ofZ a_mul a_opp earith esub eopp eadd].
  rewrite !ediv_Fin by lra. cbn [esignbit eopp].
  assert (E : eadd (Fin ((b + - a) / P)) (if Rlt_bool (b + - a) 0 then Fin (- (1 / 2)) else Fin (1 / 2)) =
              Fin (qshift P a b)).
  { unfold qshift. unfold Rminus. destruct (Rlt_bool (b + - a) 0); cbn [eadd]; f_equal; lra. }
  rewrite E. unfold cast_int. cbn [etrunc bind].
  destruct ((_ <=? _) && (_ <? _)); reflexivity.
Qed.

Lemma qshift_spec P a b : (0 < P)%R ->
  let q := Ztrunc (qshift P a b) in
  (Rabs (b - IZR q * P - a) <= P / 2)%R /\
  (Rabs (IZR q) <= Rabs (b - a) / P + / 2)%R /\
  (Rabs (b - a) < P / 2 -> q = 0%Z)%R.
Proof.
  intros HP. set (d := (b - a)%R). set (r := (d / P)%R).
  assert (Ed : d = (r * P)%R) by (unfold r; field; lra).
  assert (Ea : (b = a + r * P)%R) by (rewrite <- Ed; unfold d; ring).
  intros q. unfold q, qshift. fold d. fold r.
  destruct (Rlt_bool_spec d 0) as [Hd|Hd].
  - assert (Hr : (r < 0)%R).
    { destruct (Rlt_or_le r 0) as [H|H]; [exact H|exfalso]. assert (0 <= r * P)%R by (apply Rmult_le_pos; lra). lra. }
    rewrite Ztrunc_ceil by lra. set (z := Zceil (r - / 2)).
    assert (H1 : (r - / 2 <= IZR z)%R) by apply Zceil_ub.
    assert (H2 : (IZR z < r - / 2 + 1)%R).
    { unfold z. pose proof (Zceil_lb (r - / 2)). lra. }
    split; [|split].
    + replace (b - IZR z * P - a)%R with ((r - IZR z) * P)%R by (rewrite Ea; ring).
      rewrite Rabs_mult, (Rabs_pos_eq P) by lra.
      assert (Rabs (r - IZR z) <= / 2)%R by (apply Rabs_le; lra).
      apply Rle_trans with (/ 2 * P)%R; [apply Rmult_le_compat_r; lra|lra].
    + assert (IZR z <= 0)%R. { apply IZR_le. apply Zceil_glb. lra. }
      rewrite (Rabs_left1 (IZR z)), (Rabs_left d) by lra.
      replace (- d / P)%R with (- r)%R by (unfold r; field; lra). lra.
    + intros Hs. rewrite Rabs_left in Hs by lra.
      assert (- / 2 < r)%R.
      { apply Rmult_lt_reg_r with P; [lra|]. rewrite <- Ed. lra. }
      unfold z. apply Zceil_imp. simpl. lra.
  - assert (Hr : (0 <= r)%R) by (unfold r; apply Rmult_le_pos; [lra|left; apply Rinv_0_lt_compat; lra]).
    rewrite Ztrunc_floor by lra. set (z := Zfloor (r + / 2)).
    assert (H1 : (IZR z <= r + / 2)%R) by apply Zfloor_lb.
    assert (H2 : (r + / 2 < IZR z + 1)%R) by apply Zfloor_ub.
    split; [|split].
    + replace (b - IZR z * P - a)%R with ((r - IZR z) * P)%R by (rewrite Ea; ring).
      rewrite Rabs_mult, (Rabs_pos_eq P) by lra.
      assert (Rabs (r - IZR z) <= / 2)%R by (apply Rabs_le; lra).
      apply Rle_trans with (/ 2 * P)%R; [apply Rmult_le_compat_r; lra|lra].
    + assert (0 <= IZR z)%R. { apply IZR_le. apply Zfloor_lub. simpl. lra. }
      rewrite (Rabs_pos_eq (IZR z)), (Rabs_pos_eq d) by lra. fold r. lra.
    + intros Hs. rewrite Rabs_pos_eq in Hs by lra.
      assert (r < / 2)%R.
      { apply Rmult_lt_reg_r with P; [lra|]. rewrite <- Ed. lra. }
      unfold z. apply Zfloor_imp. simpl. lra.
Qed.

Lemma eurun_spec P l : (0 < P)%R -> forall prev ys,
  eurun (Fin P) (Fin prev) (map Fin l) = Some ys ->
  exists rs, ys = map Fin rs /\ unwrap_run P prev l rs.
Proof.
  intros HP. induction l as [|b l IH]; intros prev ys H; cbn [map urun] in H.
  - injection H as <-. exists []. split; reflexivity.
  - change (isfinite earith (Fin b)) with true in H. cbv iota in H. rewrite eu1_Fin in H by exact HP.
    destruct ((_ <=? _) && (_ <? _)); cbn [bind] in H; [|discriminate].
    destruct (eurun (Fin P) (Fin (b - IZR (Ztrunc (qshift P prev b)) * P)) (map Fin l)) as [ys'|] eqn:E; cbn [bind] in H; [|discriminate].
    injection H as <-. destruct (IH _ _ E) as (rs & -> & R).
    exists ((b - IZR (Ztrunc (qshift P prev b)) * P)%R :: rs). split; [reflexivity|].
    split; [|exact R]. split; [eexists; reflexivity|].
    apply (qshift_spec P prev b HP).
Qed.

Lemma in_int_range q (c : R) : (Rabs (IZR q) <= c)%R -> (c < 2147483648)%R ->
  (- 2 ^ 31 <=? q) && (q <? 2 ^ 31) = true.
Proof.
  intros H1 H2. assert (H : (Rabs (IZR q) < 2147483648)%R) by lra.
  apply Rabs_def2 in H. destruct H as [Ha Hb].
  assert (q < 2147483648) by (apply lt_IZR; lra).
  assert (- 2147483648 < q) by (apply lt_IZR; lra).
  apply andb_true_iff. split; [apply Z.leb_le; lia|apply Z.ltb_lt; lia].
Qed.

Lemma eurun_defined P B l : (0 < P)%R -> forall (k : nat) prev,
  (Rabs prev <= B + INR k * (P / 2))%R -> (forall v, In v l -> Rabs v <= B)%R ->
  (2 * B / P + INR (k + length l) / 2 + / 2 < 2147483648)%R ->
  exists ys, eurun (Fin P) (Fin prev) (map Fin l) = Some ys.
Proof.
  intros HP. induction l as [|b l IH]; intros k prev Hp Hl Hr.
  - exists []. reflexivity.
  - cbn [map urun]. change (isfinite earith (Fin b)) with true. cbv iota. rewrite eu1_Fin by exact HP.
    destruct (qshift_spec P prev b HP) as (Q1 & Q2 & _).
    set (q := Ztrunc (qshift P prev b)) in *.
    assert (Hb : (Rabs b <= B)%R) by (apply Hl; left; reflexivity).
    assert (Hd : (Rabs (b - prev) / P <= 2 * B / P + INR k / 2)%R).
    { apply Rle_trans with ((2 * B + INR k * (P / 2)) / P)%R.
      - apply Rmult_le_compat_r; [left; apply Rinv_0_lt_compat; lra|].
        pose proof (Rabs_triang b (- prev)) as Ht. rewrite Rabs_Ropp in Ht. unfold Rminus. lra.
      - right. field. lra. }
    assert (Hk : (INR k <= INR (k + length (b :: l)))%R) by (apply le_INR; lia).
    rewrite (in_int_range q (Rabs (b - prev) / P + / 2)); [|exact Q2|lra].
    cbn [bind].
    destruct (IH (S k) (b - IZR q * P)%R) as (ys & E).
    + rewrite S_INR. pose proof (Rabs_triang (b - IZR q * P - prev) prev) as Ht.
      replace (b - IZR q * P - prev + prev)%R with (b - IZR q * P)%R in Ht by ring. lra.
    + intros v Hv. apply Hl. right. exact Hv.
    + replace (S k + length l)%nat with (k + length (b :: l))%nat by (cbn [length]; lia). exact Hr.
    + rewrite E. cbn [bind]. eexists. reflexivity.
Qed.

Theorem unwrap_exact mx px sx x0 l P B mo po so :
  (0 < P)%R -> (forall v, In v (x0 :: l) -> Rabs v <= B)%R ->
  (2 * B / P + INR (length l) / 2 + / 2 < 2147483648)%R ->
  view mx px sx (map Fin (x0 :: l)) -> writable mo po so (length (x0 :: l)) ->
  exists ys, length ys = length l /\
    writes (eunwrap_core (Z.of_nat (length (x0 :: l))) mx px sx (Fin P) mo po so) mo po so (map Fin (x0 :: ys)) /\
    unwrap_run P x0 l ys.
Proof.
  intros HP HB Hr V W.
  destruct (eurun_defined P B l HP O x0) as (ys & E).
  - cbn. rewrite Rmult_0_l, Rplus_0_r. apply HB. left; reflexivity.
  - intros v Hv. apply HB. right; exact Hv.
  - exact Hr.
  - destruct (eurun_spec P l HP _ _ E) as (rs & -> & R).
    pose proof (urun_length _ _ _ _ _ _ _ _ _ E) as HL. rewrite !map_length in HL.
    exists rs. split; [exact HL|]. split; [|exact R].
    replace (length (x0 :: l)) with (length (Fin x0 :: map Fin l)) in * by (cbn [length]; rewrite map_length; reflexivity).
    rewrite unwrap_core_eq by assumption. rewrite E. cbn [bind].
    eapply writes_upds; [exact W|]. cbn [map length]. rewrite !map_length. congruence.
Qed.

(** small steps: nothing to do *)
Lemma eurun_small P l : (0 < P)%R -> forall prev, small_steps P prev l ->
  eurun (Fin P) (Fin prev) (map Fin l) = Some (map Fin l).
Proof.
  intros HP. induction l as [|b l IH]; intros prev H.
  - reflexivity.
  - destruct H as [H1 H2]. cbn [map urun]. change (isfinite earith (Fin b)) with true. cbv iota.
    rewrite eu1_Fin by exact HP. destruct (qshift_spec P prev b HP) as (_ & _ & Q). rewrite (Q H1).
    change ((- 2 ^ 31 <=? 0) && (0 <? 2 ^ 31)) with true. cbv iota. cbn [bind].
    replace (b - IZR 0 * P)%R with b by (simpl; ring). rewrite IH by exact H2. reflexivity.
Qed.

Theorem unwrap_unchanged mx px sx x0 l P mo po so :
  (0 < P)%R -> small_steps P x0 l ->
  view mx px sx (map Fin (x0 :: l)) -> writable mo po so (length (x0 :: l)) ->
  writes (eunwrap_core (Z.of_nat (length (x0 :: l))) mx px sx (Fin P) mo po so) mo po so (map Fin (x0 :: l)).
Proof.
  intros HP Hs V W.
  replace (length (x0 :: l)) with (length (Fin x0 :: map Fin l)) in * by (cbn [length]; rewrite map_length; reflexivity).
  rewrite unwrap_core_eq by assumption. rewrite eurun_small by assumption. cbn [bind].
  eapply writes_upds; [exact W|]. reflexivity.
Qed.

(** a non-finite sample after the first: everything from there on is nan *)
Lemma urun_app_bad {T D} (A : arith T) (AD : arith D) up sb tr P l bad rest : isfinite A bad = false ->
  forall prev ys, (forall v, In v l -> isfinite A v = true) ->
  urun A AD up sb tr P prev l = Some ys ->
  urun A AD up sb tr P prev (l ++ bad :: rest) = Some (ys ++ repeat (a_nan A) (S (length rest))).
Proof.
  intros Hbad. induction l as [|b l IH]; intros prev ys Hf H; cbn [app urun] in *.
  - injection H as <-. rewrite Hbad. reflexivity.
  - rewrite (Hf b (or_introl eq_refl)) in *.
    destruct (unwrap1 A AD up sb tr prev b P) as [y|]; cbn [bind] in *; [|discriminate].
    destruct (urun A AD up sb tr P y l) as [ys'|] eqn:E; cbn [bind] in *; [|discriminate].
    injection H as <-. rewrite (IH y ys'); [reflexivity| |exact E].
    intros v Hv. apply Hf. right; exact Hv.
Qed.

Theorem unwrap_nonfinite {T D} (A : arith T) (AD : arith D) up sb tr x0 l bad rest P
        mx px sx my py sy mo po so m1 o2 po2 so2 ys :
  (forall v, In v l -> isnanb (a_cmp A) v = false /\ a_isinf A v = false) ->
  (isnanb (a_cmp A) bad = true \/ a_isinf A bad = true) ->
  view mx px sx (x0 :: l) -> writable mo po so (length (x0 :: l)) ->
  view my py sy (x0 :: l ++ bad :: rest) -> writable o2 po2 so2 (length (x0 :: l ++ bad :: rest)) ->
  unwrap_core A AD up sb tr (Z.of_nat (length (x0 :: l))) mx px sx P mo po so = Some m1 ->
  view m1 po so ys -> length ys = length (x0 :: l) ->
  writes (unwrap_core A AD up sb tr (Z.of_nat (length (x0 :: l ++ bad :: rest))) my py sy P o2 po2 so2)
    o2 po2 so2 (ys ++ repeat (a_nan A) (S (length rest))).
Proof.
  intros Hf Hb Vx W1 Vy W2 E1 V1 L1.
  rewrite unwrap_core_eq in E1 by assumption. rewrite unwrap_core_eq by assumption.
  destruct (urun A AD up sb tr P x0 l) as [us|] eqn:Eu; cbn [bind] in E1; [|discriminate].
  assert (E' : m1 = upds mo po so 0 (x0 :: us)) by congruence. subst m1. clear E1.
  assert (ys = x0 :: us).
  { eapply view_uniq; [|exact V1|].
    - rewrite L1. cbn. f_equal. symmetry. eapply urun_length; exact Eu.
    - apply upds_wrote. cbn [length]. rewrite (urun_length _ _ _ _ _ _ _ _ _ Eu). apply W1. }
  subst ys.
  rewrite (urun_app_bad A AD up sb tr P l bad rest) with (ys := us).
  - cbn [bind]. eapply writes_upds; [exact W2|]. cbn [length app]. f_equal.
    rewrite !app_length, repeat_length. rewrite (urun_length _ _ _ _ _ _ _ _ _ Eu). reflexivity.
  - unfold isfinite. destruct Hb as [->| ->]; [reflexivity|apply andb_false_r].
  - intros v Hv. unfold isfinite. destruct (Hf v Hv) as [-> ->]. reflexivity.
  - exact Eu.
Qed.

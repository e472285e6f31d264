(** Proofs about wjaccard, softmax and multivariate_logbeta. *)
From Coq Require Import ZArith Reals List Bool Lia Lra Permutation.
From Flocq Require Import Core BinarySingleNaN.
From Verif Require Import CSem CSemP FoldP Num NumP NumF NumX M_Stat S_Stat P_Kbn P_MeanVar P_Mad P_Vnorm P_Corr.
Import ListNotations.
Open Scope R_scope.

(** ** wjaccard *)
Lemma for_loop_tail2 {T T' S R} (m : mem T) p st x0 l (m' : mem T') p' st' y0 l' (body : Z -> S -> M (ctl S R)) f s :
  view m p st (x0 :: l) -> view m' p' st' (y0 :: l') -> length l' = length l ->
  (forall k s x y, get m p st k = Some x -> get m' p' st' k = Some y -> body k s = f k (x, y) s) ->
  for_loop 1 (Z.of_nat (length (x0 :: l))) body s = lloop 1 (combine l l') f s.
Proof.
  intros V V' E H.
  assert (EL : length (combine l l') = length l) by (rewrite combine_length, E; apply Nat.min_id).
  unfold for_loop. replace (Z.to_nat (Z.of_nat (length (x0 :: l)) - 1)) with (length (combine l l')) by (cbn [length]; lia).
  assert (G : forall c j s, (forall i q, nth_error c i = Some q ->
       get m p st (j + Z.of_nat i) = Some (fst q) /\ get m' p' st' (j + Z.of_nat i) = Some (snd q)) ->
     loop_from (length c) j body s = lloop j c f s).
  { induction c as [|[x y] c IH]; intros j s0 Hc; [reflexivity|]. cbn [length loop_from lloop].
    destruct (Hc 0%nat (x, y) eq_refl) as [E1 E2]. rewrite Z.add_0_r in E1, E2. cbn [fst snd] in *.
    rewrite (H j s0 x y E1 E2). destruct (f j (x, y) s0) as [[s'|s'|r]|]; try reflexivity.
    apply IH. intros i q Hq. replace (j + 1 + Z.of_nat i)%Z with (j + Z.of_nat (Datatypes.S i))%Z by lia. apply Hc. exact Hq. }
  apply G. intros i [x y] Hi. destruct (nth_error_combine l l' i x y Hi) as [Ea Eb]. cbn [fst snd].
  replace (1 + Z.of_nat i)%Z with (Z.of_nat (Datatypes.S i)) by lia. split.
  - exact (view_get m p st (x0 :: l) (Datatypes.S i) x V Ea).
  - exact (view_get m' p' st' (y0 :: l') (Datatypes.S i) y V' Eb).
Qed.

Section WjAny.
  Context {T U : Type} (A : arith U) (up : T -> U) (cmpT : T -> T -> option comparison).
  Notation nanT := (isnanb cmpT).
  Definition wstep (st : U * U) (q : T * T) : U * U :=
    (a_add A (fst st) (up (tmin cmpT (fst q) (snd q))), a_add A (snd st) (up (tmax cmpT (fst q) (snd q)))).
  Definition wfinish (st : U * U) : U :=
    if eqb (a_cmp A) (snd st) (a_ofZ A 0) then
      if eqb (a_cmp A) (fst st) (a_ofZ A 0) then a_nan A else a_opp A (a_inf A)
    else a_div A (fst st) (snd st).

  Lemma wj_lloop : forall l k st,
    lloop k l (fun _ q st => if nanT (fst q) || nanT (snd q) then Some (Ret (a_nan A)) else Some (Next (wstep st q))) st
    = if existsb (fun q => nanT (fst q) || nanT (snd q)) l then Some (inr (a_nan A)) else Some (inl (fold_left wstep l st)).
  Proof.
    induction l as [|q l IH]; intros k st; [reflexivity|]. cbn [lloop existsb fold_left].
    destruct (nanT (fst q) || nanT (snd q)); [reflexivity|]. cbn [orb]. apply IH.
  Qed.

  Lemma wj_fold mx px sx my py sy x0 y0 x y :
    view mx px sx (x0 :: x) -> view my py sy (y0 :: y) -> length y = length x ->
    wjaccard_core A up cmpT (Z.of_nat (length (x0 :: x))) mx px sx my py sy =
      Some (if existsb (fun q => nanT (fst q) || nanT (snd q)) (combine (x0 :: x) (y0 :: y)) then a_nan A
            else wfinish (fold_left wstep (combine x y) (up (tmin cmpT x0 y0), up (tmax cmpT x0 y0)))).
  Proof.
    intros Vx Vy EL. unfold wjaccard_core. rewrite (view_load mx px sx x0 x Vx), (view_load my py sy y0 y Vy). cbn [bind].
    cbn [combine existsb fst snd]. destruct (nanT x0 || nanT y0); [reflexivity|]. cbn [orb].
    rewrite (for_loop_tail2 mx px sx x0 x my py sy y0 y _
      (fun _ q st => if nanT (fst q) || nanT (snd q) then Some (Ret (a_nan A)) else Some (Next (wstep st q))) _ Vx Vy EL).
    - rewrite wj_lloop. destruct (existsb _ _); [reflexivity|]. cbn [bind].
      destruct (fold_left _ _ _) as [nu de]. reflexivity.
    - intros k [nu de] a b Ha Hb. rewrite Ha, Hb. cbn [bind fst snd]. destruct (nanT a || nanT b); reflexivity.
  Qed.

  Theorem wjaccard_nan mx px sx my py sy x y :
    view mx px sx x -> view my py sy y -> length y = length x ->
    (exists t, In t (x ++ y) /\ nanT t = true) ->
    wjaccard_core A up cmpT (Z.of_nat (length x)) mx px sx my py sy = Some (a_nan A).
  Proof.
    intros Vx Vy EL (t & Ht & Nt). destruct x as [|x0 x]; [destruct y; [destruct Ht|discriminate]|].
    destruct y as [|y0 y]; [discriminate|]. rewrite (wj_fold mx px sx my py sy x0 y0 x y Vx Vy) by (cbn in EL; lia).
    replace (existsb _ _) with true; [reflexivity|]. symmetry. apply existsb_exists.
    apply in_app_or in Ht. destruct Ht as [Ht|Ht].
    - rewrite <- (map_fst_combine (x0 :: x) (y0 :: y) EL) in Ht. apply in_map_iff in Ht. destruct Ht as (q & <- & Hq).
      exists q. split; [exact Hq|]. rewrite Nt. reflexivity.
    - rewrite <- (map_snd_combine (x0 :: x) (y0 :: y) EL) in Ht. apply in_map_iff in Ht. destruct Ht as (q & <- & Hq).
      exists q. split; [exact Hq|]. rewrite Nt. apply orb_true_r.
  Qed.
End WjAny.

Section WjExact.
  Context {T : Type} (up : T -> ER) (cmpT : T -> T -> option comparison) (rf : T -> R).
  Context (Hup : forall t, up t = Fin (rf t)) (Hcmp : forall s t, cmpT s t = Some (Rcompare (rf s) (rf t))).

  Lemma rf_tmin a b : rf (tmin cmpT a b) = Rmin (rf a) (rf b).
  Proof.
    unfold tmin, ltb. rewrite Hcmp. destruct (Rcompare_spec (rf b) (rf a)).
    - rewrite Rmin_right by lra. reflexivity.
    - rewrite Rmin_left by lra. reflexivity.
    - rewrite Rmin_left by lra. reflexivity.
  Qed.
  Lemma rf_tmax a b : rf (tmax cmpT a b) = Rmax (rf a) (rf b).
  Proof.
    unfold tmax, ltb. rewrite Hcmp. destruct (Rcompare_spec (rf a) (rf b)).
    - rewrite Rmax_right by lra. reflexivity.
    - rewrite Rmax_left by lra. reflexivity.
    - rewrite Rmax_left by lra. reflexivity.
  Qed.

  Lemma combine_map_rf : forall x y : list T, combine (map rf x) (map rf y) = map (fun q => (rf (fst q), rf (snd q))) (combine x y).
  Proof. induction x as [|a x IH]; intros [|b y]; try reflexivity. cbn. rewrite IH. reflexivity. Qed.

  Lemma wfold_exact : forall l a b,
    fold_left (wstep earith up cmpT) l (Fin a, Fin b) =
      (Fin (a + rsum (map (fun q => Rmin (rf (fst q)) (rf (snd q))) l)),
       Fin (b + rsum (map (fun q => Rmax (rf (fst q)) (rf (snd q))) l))).
  Proof.
    induction l as [|q l IH]; intros a b; cbn [fold_left map rsum].
    - apply f_equal2; f_equal; ring.
    - unfold wstep at 2. cbn [fst snd a_add earith]. rewrite !Hup, rf_tmin, rf_tmax. cbn [eadd]. rewrite IH.
      apply f_equal2; f_equal; ring.
  Qed.

  Theorem wjaccard_exact mx px sx my py sy x y :
    view mx px sx x -> view my py sy y -> length y = length x -> x <> [] ->
    let nu := rmins (map rf x) (map rf y) in let de := rmaxs (map rf x) (map rf y) in
    wjaccard_core earith up cmpT (Z.of_nat (length x)) mx px sx my py sy =
      Some (if Req_EM_T de 0 then if Req_EM_T nu 0 then ENaN else NInf else Fin (nu / de)).
  Proof.
    intros Vx Vy EL Hx nu de. destruct x as [|x0 x]; [congruence|]. destruct y as [|y0 y]; [discriminate|].
    rewrite (wj_fold earith up cmpT mx px sx my py sy x0 y0 x y Vx Vy) by (cbn in EL; lia).
    assert (NN : forall t, isnanb cmpT t = false) by (intros t; unfold isnanb; rewrite Hcmp; reflexivity).
    assert (EX : existsb (fun q => isnanb cmpT (fst q) || isnanb cmpT (snd q)) (combine (x0 :: x) (y0 :: y)) = false).
    { generalize (combine (x0 :: x) (y0 :: y)). induction l as [|q l IH]; [reflexivity|]. cbn [existsb]. rewrite !NN. exact IH. }
    rewrite EX. f_equal. rewrite !Hup, rf_tmin, rf_tmax, wfold_exact.
    replace (Rmin (rf x0) (rf y0) + rsum (map (fun q => Rmin (rf (fst q)) (rf (snd q))) (combine x y))) with nu
      by (unfold nu, rmins; rewrite combine_map_rf, map_map; reflexivity).
    replace (Rmax (rf x0) (rf y0) + rsum (map (fun q => Rmax (rf (fst q)) (rf (snd q))) (combine x y))) with de
      by (unfold de, rmaxs; rewrite combine_map_rf, map_map; reflexivity).
    unfold wfinish. cbn [fst snd a_cmp a_ofZ a_nan a_opp a_inf a_div earith].
    destruct (Req_EM_T de 0) as [E|E].
    - rewrite (proj2 (eqb_Fin de 0) E). destruct (Req_EM_T nu 0) as [E'|E'].
      + rewrite (proj2 (eqb_Fin nu 0) E'). reflexivity.
      + rewrite (proj2 (eqb_Fin_false nu 0) E'). reflexivity.
    - rewrite (proj2 (eqb_Fin_false de 0) E). apply ediv_Fin, E.
  Qed.
End WjExact.

Lemma rmins_sym : forall x y, rmins x y = rmins y x.
Proof. unfold rmins. induction x as [|a x IH]; intros [|b y]; try reflexivity. cbn [combine map rsum fst snd]. rewrite IH, Rmin_comm. reflexivity. Qed.
Lemma rmaxs_sym : forall x y, rmaxs x y = rmaxs y x.
Proof. unfold rmaxs. induction x as [|a x IH]; intros [|b y]; try reflexivity. cbn [combine map rsum fst snd]. rewrite IH, Rmax_comm. reflexivity. Qed.

Lemma rmins_le : forall x y, length y = length x -> rmins x y <= rmaxs x y /\ (rmins x y = rmaxs x y <-> x = y).
Proof.
  unfold rmins, rmaxs. induction x as [|a x IH]; intros [|b y] E; try discriminate.
  - cbn. split; [lra|split; reflexivity].
  - cbn [combine map rsum fst snd]. destruct (IH y) as [I1 I2]; [cbn in E; lia|].
    pose proof (Rmin_l a b). pose proof (Rmin_r a b). pose proof (Rmax_l a b). pose proof (Rmax_r a b).
    split; [lra|]. split.
    + intros Q. assert (Q1 : Rmin a b = Rmax a b) by lra. assert (a = b) by lra. subst b. f_equal. apply I2. lra.
    + intros Q. injection Q as -> ->. rewrite (proj2 I2 eq_refl). unfold Rmin, Rmax. destruct (Rle_dec b b); reflexivity.
Qed.
Lemma rmins_nonneg : forall x y, (forall a, In a (x ++ y) -> 0 <= a) -> 0 <= rmins x y.
Proof.
  unfold rmins. induction x as [|a x IH]; intros [|b y] H; cbn [combine map rsum fst snd]; try lra.
  assert (0 <= a) by (apply H; left; reflexivity).
  assert (0 <= b) by (apply H; apply in_or_app; right; left; reflexivity).
  assert (0 <= rsum (map (fun q => Rmin (fst q) (snd q)) (combine x y))).
  { apply IH. intros c Hc. apply H. apply in_app_or in Hc. destruct Hc; [right; apply in_or_app; left; assumption|].
    right. apply in_or_app. right. right. assumption. }
  pose proof (Rmin_glb a b 0). lra.
Qed.
Lemma rmaxs_pos : forall x y, length y = length x -> (forall a, In a (x ++ y) -> 0 <= a) -> (exists a, In a (x ++ y) /\ a <> 0) -> 0 < rmaxs x y.
Proof.
  intros x y EL H (a & Ha & Na).
  assert (NN : forall q, In q (combine x y) -> 0 <= fst q /\ 0 <= snd q).
  { intros [u v] Hq. split; apply H; apply in_or_app; [left; exact (in_combine_l _ _ _ _ Hq)|right; exact (in_combine_r _ _ _ _ Hq)]. }
  assert (NM : forall b, In b (map (fun q => Rmax (fst q) (snd q)) (combine x y)) -> 0 <= b).
  { intros b Hb. apply in_map_iff in Hb. destruct Hb as (q & <- & Hq). destruct (NN q Hq). pose proof (Rmax_l (fst q) (snd q)). lra. }
  unfold rmaxs. destruct (rsum_nonneg _ NM) as [G|G]; [exact G|]. exfalso.
  assert (K : forall q, In q (combine x y) -> Rmax (fst q) (snd q) = 0).
  { intros q Hq. apply (rsum_zero _ NM (eq_sym G)). apply in_map_iff. exists q. split; [reflexivity|exact Hq]. }
  apply Na. apply in_app_or in Ha. destruct Ha as [Ha|Ha].
  - rewrite <- (map_fst_combine x y EL) in Ha. apply in_map_iff in Ha. destruct Ha as (q & <- & Hq).
    pose proof (K q Hq). destruct (NN q Hq). pose proof (Rmax_l (fst q) (snd q)). lra.
  - rewrite <- (map_snd_combine x y EL) in Ha. apply in_map_iff in Ha. destruct Ha as (q & <- & Hq).
    pose proof (K q Hq). destruct (NN q Hq). pose proof (Rmax_r (fst q) (snd q)). lra.
Qed.

Section WjProps.
  Context {T : Type} (up : T -> ER) (cmpT : T -> T -> option comparison) (rf : T -> R).
  Context (Hup : forall t, up t = Fin (rf t)) (Hcmp : forall s t, cmpT s t = Some (Rcompare (rf s) (rf t))).
  Theorem wjaccard_range mx px sx my py sy x y :
    view mx px sx x -> view my py sy y -> length y = length x ->
    (forall t, In t (x ++ y) -> 0 <= rf t) -> (exists t, In t (x ++ y) /\ rf t <> 0) ->
    exists r, wjaccard_core earith up cmpT (Z.of_nat (length x)) mx px sx my py sy = Some (Fin r) /\
      r = rmins (map rf x) (map rf y) / rmaxs (map rf x) (map rf y) /\
      0 <= r <= 1 /\ (r = 1 <-> map rf x = map rf y).
  Proof.
    intros Vx Vy EL H (t & Ht & Nt).
    assert (Hx : x <> []) by (destruct x, y; try discriminate; destruct Ht).
    rewrite (wjaccard_exact up cmpT rf Hup Hcmp mx px sx my py sy x y Vx Vy EL Hx).
    assert (EL' : length (map rf y) = length (map rf x)) by (rewrite !map_length; exact EL).
    assert (H' : forall a, In a (map rf x ++ map rf y) -> 0 <= a).
    { intros a Ha. rewrite <- map_app in Ha. apply in_map_iff in Ha. destruct Ha as (u & <- & Hu). apply H, Hu. }
    assert (D : 0 < rmaxs (map rf x) (map rf y)).
    { apply rmaxs_pos; [exact EL'|exact H'|]. exists (rf t). split; [|exact Nt]. rewrite <- map_app. apply in_map, Ht. }
    pose proof (rmins_nonneg _ _ H') as N. destruct (rmins_le (map rf x) (map rf y) EL') as [L1 L2].
    set (nu := rmins _ _) in *. set (de := rmaxs _ _) in *.
    destruct (Req_EM_T de 0) as [E|E]; [lra|]. exists (nu / de). split; [reflexivity|]. split; [reflexivity|].
    split; [split|].
    - apply Rmult_le_pos; [exact N|]. left. apply Rinv_0_lt_compat, D.
    - apply (Rmult_le_reg_r de); [exact D|]. unfold Rdiv. rewrite Rmult_assoc, Rinv_l by exact E. lra.
    - rewrite <- L2. split.
      + intros Q. apply (f_equal (fun r => r * de)) in Q. unfold Rdiv in Q. rewrite Rmult_assoc, Rinv_l in Q by exact E. lra.
      + intros ->. field. exact E.
  Qed.
  Theorem wjaccard_sym mx px sx my py sy x y :
    view mx px sx x -> view my py sy y -> length y = length x -> x <> [] ->
    wjaccard_core earith up cmpT (Z.of_nat (length x)) mx px sx my py sy =
    wjaccard_core earith up cmpT (Z.of_nat (length x)) my py sy mx px sx.
  Proof.
    intros Vx Vy EL Hx. rewrite (wjaccard_exact up cmpT rf Hup Hcmp mx px sx my py sy x y Vx Vy EL Hx).
    assert (Hy : y <> []) by (destruct x, y; try discriminate; congruence).
    rewrite <- EL. rewrite (wjaccard_exact up cmpT rf Hup Hcmp my py sy mx px sx y x Vy Vx (eq_sym EL) Hy).
    rewrite (rmins_sym (map rf y)), (rmaxs_sym (map rf y)). reflexivity.
  Qed.
End WjProps.

(** ** multivariate_logbeta *)
Section Logbeta.
  Context {T : Type} (A : arith T) (lgamma : T -> T).
  Lemma logbeta_fold sz mx px sx x : view mx px sx x -> x <> [] ->
    multivariate_logbeta_core A lgamma sz (Z.of_nat (length x)) mx px sx
      = Some (a_sub A (fsum A (map lgamma x)) (lgamma (fsum A x))).
  Proof.
    intros V Hx. unfold multivariate_logbeta_core.
    destruct (Z.eqb_spec (Z.of_nat (length x)) 0) as [E|_]; [destruct x; [congruence|cbn in E; lia]|].
    assert (G : logbeta_loop A lgamma (Z.of_nat (length x)) mx px sx = Some (a_sub A (fsum A (map lgamma x)) (lgamma (fsum A x)))).
    { unfold logbeta_loop. rewrite (for_each_fold mx px sx x _ (fun (st : T * T) t => (a_add A (fst st) (lgamma t), a_add A (snd st) t)) _ V).
      - assert (F : forall l s, fold_left (fun (st : T * T) t => (a_add A (fst st) (lgamma t), a_add A (snd st) t)) l s
            = (fold_left (a_add A) (map lgamma l) (fst s), fold_left (a_add A) l (snd s))).
        { induction l as [|t l IH]; intros [u v]; [reflexivity|]. cbn [fold_left map fst snd]. rewrite IH. reflexivity. }
        rewrite F. reflexivity.
      - intros k [u v] t _ Hg. unfold get in Hg. rewrite Hg. reflexivity. }
    destruct (Z.eqb_spec sx sz) as [->|]; exact G.
  Qed.
  Theorem logbeta_empty sz mx px sx : multivariate_logbeta_core A lgamma sz 0 mx px sx = Some (a_nan A).
  Proof. reflexivity. Qed.
End Logbeta.

Lemma fsum_exact l : fsum earith (map Fin l) = Fin (rsum l).
Proof.
  unfold fsum. cbn [a_add a_ofZ earith].
  assert (G : forall l a, fold_left eadd (map Fin l) (Fin a) = Fin (a + rsum l)).
  { clear. induction l as [|x l IH]; intros a; cbn [map fold_left rsum]; [f_equal; ring|]. cbn [eadd]. rewrite IH. f_equal. ring. }
  rewrite G. f_equal. ring.
Qed.

Section LogbetaExact.
  Context (lgamma : ER -> ER) (lg : R -> R).
  Theorem logbeta_exact sz mx px sx x :
    view mx px sx (map Fin x) -> x <> [] -> (forall a, In a (rsum x :: x) -> lgamma (Fin a) = Fin (lg a)) ->
    multivariate_logbeta_core earith lgamma sz (Z.of_nat (length x)) mx px sx = Some (Fin (rsum (map lg x) - lg (rsum x))).
  Proof.
    intros V Hx H. rewrite <- (map_length Fin x).
    rewrite logbeta_fold; [|exact V|destruct x; [congruence|discriminate]]. f_equal.
    rewrite fsum_exact, H by (left; reflexivity).
    replace (map lgamma (map Fin x)) with (map Fin (map lg x)).
    - rewrite fsum_exact. reflexivity.
    - rewrite !map_map. apply map_ext_in. intros a Ha. symmetry. apply H. right; exact Ha.
  Qed.
End LogbetaExact.

(** ** softmax *)
Section SoftScan.
  Context {T : Type} (A : arith T) (L : cmp_laws (a_cmp A)).
  Notation nan := (isnanb (a_cmp A)).
  Notation pinf := (posinf A).

  Definition sstep (k : Z) (x : T) (st : Z * Z * bool * T) : M (ctl (Z * Z * bool * T) (Z * Z * bool * T)) :=
    let '(np, idx, hn, xmax) := st in
    if nan x then Some (Brk (np, idx, true, xmax))
    else let '(np', idx') := if pinf x then (np + 1, k)%Z else (np, idx) in
         Some (Next (np', idx', hn, if (k =? 0)%Z || gtb (a_cmp A) x xmax then x else xmax)).

  Lemma scan_lloop mx px sx x : view mx px sx x ->
    softmax_scan A (Z.of_nat (length x)) mx px sx =
      bind (lloop 0 x sstep (0, 0, false, a_ofZ A 0)%Z) (fun r => Some (match r with inl st => st | inr st => st end)).
  Proof.
    intros V. unfold softmax_scan. rewrite (for_loop_view mx px sx x _ sstep _ V); [reflexivity|].
    intros k [[[np idx] hn] xm] t Hk Hg. rewrite Hg. cbn [bind]. unfold sstep, posinf.
    destruct (nan t); [reflexivity|]. destruct (a_isinf A t && _); reflexivity.
  Qed.

  Lemma scan_nan : forall l k st, (exists t, In t l /\ nan t = true) ->
    exists np idx xm, lloop k l sstep st = Some (inl (np, idx, true, xm)).
  Proof.
    induction l as [|x l IH]; intros k st (t & Ht & Nt); [destruct Ht|]. cbn [lloop].
    destruct st as [[[np idx] hn] xm]. unfold sstep at 1. destruct (nan x) eqn:Nx; [eexists _, _, _; reflexivity|].
    destruct Ht as [->|Ht]; [congruence|]. destruct (if pinf x then _ else _) as [np' idx'].
    apply IH. exists t. split; assumption.
  Qed.

  Fixpoint npinf (l : list T) : Z := match l with [] => 0 | x :: l' => (if pinf x then 1 else 0) + npinf l' end.
  (** index of the last +inf *)
  Fixpoint lastpinf (k : Z) (l : list T) (d : Z) : Z :=
    match l with [] => d | x :: l' => lastpinf (k + 1) l' (if pinf x then k else d) end.

  Lemma scan_nonan : forall l k np idx hn xm, (0 < k)%Z -> (forall t, In t l -> nan t = false) ->
    lloop k l sstep (np, idx, hn, xm) =
      Some (inl (np + npinf l, lastpinf k l idx, hn, fold_left (fun m x => if gtb (a_cmp A) x m then x else m) l xm))%Z.
  Proof.
    induction l as [|x l IH]; intros k np idx hn xm Hk H; cbn [lloop npinf lastpinf fold_left].
    - rewrite Z.add_0_r. reflexivity.
    - unfold sstep at 1. rewrite (H x (or_introl eq_refl)).
      replace (k =? 0)%Z with false by (symmetry; apply Z.eqb_neq; lia). cbn [orb].
      destruct (pinf x); rewrite IH by (try lia; intros t Ht; apply H; right; exact Ht); do 3 f_equal; f_equal; f_equal; lia.
  Qed.

  Lemma scan_nonan0 x0 l : (forall t, In t (x0 :: l) -> nan t = false) ->
    lloop 0 (x0 :: l) sstep (0, 0, false, a_ofZ A 0)%Z =
      Some (inl (npinf (x0 :: l), lastpinf 0 (x0 :: l) 0, false, fold_left (fun m x => if gtb (a_cmp A) x m then x else m) l x0))%Z.
  Proof.
    intros H. cbn [lloop npinf lastpinf]. unfold sstep at 1. rewrite (H x0 (or_introl eq_refl)).
    change (0 =? 0)%Z with true. cbn [orb].
    destruct (pinf x0); rewrite scan_nonan by (try lia; intros t Ht; apply H; right; exact Ht); do 3 f_equal; f_equal; f_equal; lia.
  Qed.

  (** the running maximum *)
  Lemma rmax_spec : forall l m, nan m = false -> (forall t, In t l -> nan t = false) ->
    let m' := fold_left (fun m x => if gtb (a_cmp A) x m then x else m) l m in
    nan m' = false /\ In m' (m :: l) /\ forall t, In t (m :: l) -> leb (a_cmp A) t m' = true.
  Proof.
    induction l as [|x l IH]; intros m Hm H m'.
    - cbn in m'. subst m'. split; [exact Hm|]. split; [left; reflexivity|]. intros t [<-|[]]. apply (leb_refl _ L), Hm.
    - cbn [fold_left] in m'. pose proof (H x (or_introl eq_refl)) as Hx.
      assert (Hl : forall t, In t l -> nan t = false) by (intros t Ht; apply H; right; exact Ht).
      unfold m'. destruct (gtb (a_cmp A) x m) eqn:E.
      + destruct (IH x Hx Hl) as (I1 & I2 & I3). split; [exact I1|]. split; [right; exact I2|].
        intros t [<-|Ht]; [|apply I3, Ht]. apply (leb_trans _ L m x); [|apply I3; left; reflexivity].
        rewrite gtb_ltb in E by exact L. apply ltb_leb, E.
      + destruct (IH m Hm Hl) as (I1 & I2 & I3). split; [exact I1|].
        split; [destruct I2 as [I2|I2]; [left; exact I2|right; right; exact I2]|].
        intros t [<-|[<-|Ht]]; [apply I3; left; reflexivity| |apply I3; right; exact Ht].
        apply (leb_trans _ L x m); [|apply I3; left; reflexivity].
        rewrite gtb_ltb in E by exact L. apply (not_lt_le _ L); assumption.
  Qed.
End SoftScan.

(** writing one value per element *)
Lemma for_each_write {T} (mo : mem T) po so (vals : list T) (body : Z -> mem T -> M (mem T)) :
  (forall i, (i < length vals)%nat -> mo (po + Z.of_nat i * so)%Z <> None) ->
  (forall k v m, nth_error vals k = Some v -> body (Z.of_nat k) m = set m po so (Z.of_nat k) v) ->
  for_each 0 (Z.of_nat (length vals)) body mo = Some (upds mo po so 0 vals).
Proof.
  intros W1 H.
  rewrite (for_each_list vals body (fun k v m => set m po so k v) mo) by (intros k s x Hx; apply H, Hx).
  assert (G : forall (l : list T) k (m : mem T), (forall i, (i < length l)%nat -> m (po + (k + Z.of_nat i) * so)%Z <> None) ->
    liter k l (fun k v m => set m po so k v) m = Some (upds m po so k l)).
  { clear. induction l as [|v l IH]; intros k m Hm; [reflexivity|]. cbn [liter upds].
    rewrite set_upd by (specialize (Hm 0%nat ltac:(cbn; lia)); rewrite Z.add_0_r in Hm; exact Hm).
    cbn [bind]. apply IH. intros i Hi. unfold upd. destruct (Z.eqb _ _); [discriminate|].
    replace (k + 1 + Z.of_nat i)%Z with (k + Z.of_nat (S i))%Z by lia. apply Hm. cbn; lia. }
  apply G. intros i Hi. apply W1, Hi.
Qed.

Section SoftAny.
  Context {T : Type} (A : arith T) (L : cmp_laws (a_cmp A)) (TR : transc T).
  Notation nan := (isnanb (a_cmp A)).
  Notation pinf := (posinf A).

  Lemma for_each_const (mo : mem T) po so n v : writable mo po so n ->
    for_each 0 (Z.of_nat n) (fun k m => set m po so k v) mo = Some (upds mo po so 0 (repeat v n)).
  Proof.
    intros W. rewrite <- (repeat_length v n) at 1. apply for_each_write; [rewrite repeat_length; apply W|].
    intros k w m Hk. replace w with v; [reflexivity|]. apply nth_error_In in Hk. apply repeat_spec in Hk. congruence.
  Qed.
  Lemma write_const (mo : mem T) po so n v : writable mo po so n ->
    writes (for_each 0 (Z.of_nat n) (fun k m => set m po so k v) mo) mo po so (repeat v n).
  Proof. intros W. rewrite (for_each_const mo po so n v W). apply (writes_upds mo po so _ n W), repeat_length. Qed.

  Theorem softmax_nan mx px sx x mo po so : view mx px sx x -> writable mo po so (length x) ->
    (exists t, In t x /\ nan t = true) ->
    writes (softmax_core A TR (Z.of_nat (length x)) mx px sx mo po so) mo po so (repeat (a_nan A) (length x)).
  Proof.
    intros V W H. unfold softmax_core. rewrite (scan_lloop A mx px sx x V).
    destruct (scan_nan A x 0 (0, 0, false, a_ofZ A 0)%Z H) as (np & idx & xm & E). rewrite E. cbn [bind orb].
    apply write_const, W.
  Qed.

  Lemma npinf_nonneg l : (0 <= npinf A l)%Z.
  Proof. induction l as [|x l IH]; cbn [npinf]; [lia|]. destruct (pinf x); lia. Qed.
  Lemma npinf_app l1 l2 : npinf A (l1 ++ l2) = (npinf A l1 + npinf A l2)%Z.
  Proof. induction l1 as [|x l1 IH]; cbn [app npinf]; [lia|]. rewrite IH. lia. Qed.
  Lemma npinf_0 l : npinf A l = 0%Z <-> forall t, In t l -> pinf t = false.
  Proof.
    induction l as [|x l IH]; cbn [npinf]; [split; [intros _ t []|reflexivity]|].
    pose proof (npinf_nonneg l). split.
    - intros E t [<-|Ht]; [destruct (pinf x); [lia|reflexivity]|]. apply IH; [destruct (pinf x); lia|exact Ht].
    - intros H0. rewrite (H0 x (or_introl eq_refl)), (proj2 IH); [reflexivity|]. intros t Ht. apply H0. right; exact Ht.
  Qed.
  Lemma lastpinf_none : forall l k d, (forall t, In t l -> pinf t = false) -> lastpinf A k l d = d.
  Proof.
    induction l as [|x l IH]; intros k d H; [reflexivity|]. cbn [lastpinf]. rewrite (H x (or_introl eq_refl)).
    apply IH. intros t Ht. apply H. right; exact Ht.
  Qed.
  Lemma lastpinf_app : forall l1 l2 k d, lastpinf A k (l1 ++ l2) d = lastpinf A (k + Z.of_nat (length l1)) l2 (lastpinf A k l1 d).
  Proof.
    induction l1 as [|x l1 IH]; intros l2 k d; cbn [app lastpinf length]; [f_equal; lia|].
    rewrite IH. f_equal. lia.
  Qed.

  Theorem softmax_many_inf mx px sx l1 a l2 b l3 mo po so :
    let x := l1 ++ a :: l2 ++ b :: l3 in
    view mx px sx x -> writable mo po so (length x) -> pinf a = true -> pinf b = true ->
    writes (softmax_core A TR (Z.of_nat (length x)) mx px sx mo po so) mo po so (repeat (a_nan A) (length x)).
  Proof.
    intros x V W Ha Hb.
    assert (H : (1 < npinf A x)%Z).
    { unfold x. rewrite npinf_app. cbn [npinf]. rewrite npinf_app. cbn [npinf]. rewrite Ha, Hb.
      pose proof (npinf_nonneg l1). pose proof (npinf_nonneg l2). pose proof (npinf_nonneg l3). lia. }
    clearbody x. destruct (existsb nan x) eqn:EN.
    - apply existsb_exists in EN. apply softmax_nan; assumption.
    - assert (HN : forall t, In t x -> nan t = false).
      { intros t Ht. destruct (nan t) eqn:Nt; [|reflexivity]. exfalso.
        assert (existsb nan x = true) by (apply existsb_exists; exists t; split; assumption). congruence. }
      unfold softmax_core. rewrite (scan_lloop A mx px sx x V). destruct x as [|x0 x]; [cbn in H; lia|].
      rewrite (scan_nonan0 A x0 x HN). cbn [bind].
      replace (1 <? npinf A (x0 :: x))%Z with true by (symmetry; apply Z.ltb_lt; exact H). cbn [orb].
      apply write_const, W.
  Qed.

  (** without NaN the scan finds the largest element *)
  Lemma scan_max mx px sx x : view mx px sx x -> x <> [] -> (forall t, In t x -> nan t = false) ->
    exists m, In m x /\ (forall t, In t x -> leb (a_cmp A) t m = true) /\
      softmax_scan A (Z.of_nat (length x)) mx px sx = Some (npinf A x, lastpinf A 0 x 0, false, m).
  Proof.
    intros V Hx HN. rewrite (scan_lloop A mx px sx x V). destruct x as [|x0 l]; [congruence|].
    rewrite (scan_nonan0 A x0 l HN). destruct (rmax_spec A L l x0) as (_ & K1 & K2).
    - apply HN. left; reflexivity.
    - intros t Ht. apply HN. right; exact Ht.
    - eexists. split; [exact K1|]. split; [exact K2|reflexivity].
  Qed.

  Lemma upds_middle (m : mem T) p s l1 (a b : T) l2 :
    (s <> 0%Z \/ (length (l1 ++ a :: l2) <= 1)%nat) ->
    forall q, upd (upds m p s 0 (l1 ++ a :: l2)) (p + Z.of_nat (length l1) * s) b q = upds m p s 0 (l1 ++ b :: l2) q.
  Proof.
    intros Hs q.
    assert (EL : length (l1 ++ a :: l2) = length (l1 ++ b :: l2)) by (rewrite !app_length; reflexivity).
    destruct (upds_wrote (l1 ++ a :: l2) m p s Hs) as [Va Fa].
    destruct (upds_wrote (l1 ++ b :: l2) m p s) as [Vb Fb]; [rewrite <- EL; exact Hs|].
    set (N := length (l1 ++ b :: l2)) in *.
    assert (D : (exists k, (k < N)%nat /\ q = p + Z.of_nat k * s)%Z \/ outside p s N q).
    { destruct (Exists_dec (fun k => q = p + Z.of_nat k * s)%Z (seq 0 N)) as [E|E]; [intros k; apply Z.eq_dec| |].
      - left. apply Exists_exists in E. destruct E as (k & Hk & E). apply in_seq in Hk. exists k. split; [lia|exact E].
      - right. intros k Hk E'. apply E. apply Exists_exists. exists k. split; [apply in_seq; lia|exact E']. }
    destruct D as [(k & Hk & ->)|D].
    - rewrite (Vb k Hk). unfold upd. destruct (Z.eqb_spec (p + Z.of_nat k * s) (p + Z.of_nat (length l1) * s)) as [E|E].
      + assert (k = length l1).
        { destruct Hs as [Hs|Hs]; [nia|]. unfold N in Hk. rewrite app_length in Hs, Hk. cbn in Hs, Hk. lia. }
        subst k. rewrite nth_error_app2 by lia. rewrite Nat.sub_diag. reflexivity.
      + rewrite (Va k) by (rewrite EL; exact Hk). destruct (Nat.lt_total k (length l1)) as [Q|[Q|Q]].
        * rewrite !nth_error_app1 by exact Q. reflexivity.
        * subst k. congruence.
        * rewrite !nth_error_app2 by lia. destruct (k - length l1)%nat eqn:Q2; [lia|reflexivity].
    - rewrite (Fb q D). unfold upd. destruct (Z.eqb_spec q (p + Z.of_nat (length l1) * s)) as [E|E].
      + exfalso. apply (D (length l1)); [unfold N; rewrite app_length; cbn; lia|exact E].
      + apply Fa. rewrite EL. exact D.
  Qed.

  (** exactly one +inf: a one-hot output *)
  Theorem softmax_one_inf mx px sx pre w post mo po so :
    let x := pre ++ w :: post in
    view mx px sx x -> writable mo po so (length x) ->
    (forall t, In t x -> nan t = false) -> pinf w = true ->
    (forall t, In t (pre ++ post) -> pinf t = false) ->
    ltb (a_cmp A) (a_opp A (a_inf A)) (a_ofZ A 0) = true ->
    writes (softmax_core A TR (Z.of_nat (length x)) mx px sx mo po so) mo po so
      (repeat (a_ofZ A 0) (length pre) ++ a_ofZ A 1 :: repeat (a_ofZ A 0) (length post)).
  Proof.
    intros x V W HN Hw HP Hneg.
    assert (P1 : forall t, In t pre -> pinf t = false) by (intros t Ht; apply HP; apply in_or_app; left; exact Ht).
    assert (P2 : forall t, In t post -> pinf t = false) by (intros t Ht; apply HP; apply in_or_app; right; exact Ht).
    assert (NP : npinf A x = 1%Z).
    { unfold x. rewrite npinf_app. cbn [npinf]. rewrite Hw, (proj2 (npinf_0 pre) P1), (proj2 (npinf_0 post) P2). reflexivity. }
    assert (LP : lastpinf A 0 x 0 = Z.of_nat (length pre)).
    { unfold x. rewrite lastpinf_app. cbn [lastpinf]. rewrite Hw, (lastpinf_none post) by exact P2. lia. }
    assert (Hx : x <> []) by (unfold x; destruct pre; discriminate).
    destruct (scan_max mx px sx x V Hx HN) as (m & Hm & Mm & Es).
    unfold softmax_core. rewrite Es, NP, LP. cbn [bind orb]. change (1 <? 1)%Z with false. cbn [orb].
    assert (Em : eqb (a_cmp A) m (a_opp A (a_inf A)) = false).
    { destruct (eqb (a_cmp A) m (a_opp A (a_inf A))) eqn:E; [|reflexivity]. exfalso.
      assert (K1 : ltb (a_cmp A) m (a_ofZ A 0) = true).
      { apply (le_lt_trans _ L m (a_opp A (a_inf A))); [apply eqb_leb; exact E|exact Hneg]. }
      assert (K2 : ltb (a_cmp A) (a_ofZ A 0) m = true).
      { apply (lt_le_trans _ L _ w); [|apply Mm; unfold x; apply in_or_app; right; left; reflexivity].
        unfold posinf in Hw. apply andb_prop in Hw. destruct Hw as [_ Hw]. rewrite gtb_ltb in Hw by exact L. exact Hw. }
      pose proof (ltb_trans _ L _ _ _ K1 K2) as K. rewrite (ltb_irrefl _ L) in K. discriminate. }
    rewrite Em. change (1 =? 1)%Z with true. cbv iota.
    rewrite (for_each_const mo po so (length x) (a_ofZ A 0) W). cbn [bind].
    assert (Ln : length x = (length pre + S (length post))%nat) by (unfold x; rewrite app_length; reflexivity).
    rewrite set_upd by (apply upds_owned; apply W; lia).
    assert (Ex : repeat (a_ofZ A 0) (length x) = repeat (a_ofZ A 0) (length pre) ++ a_ofZ A 0 :: repeat (a_ofZ A 0) (length post)).
    { rewrite Ln, repeat_app. reflexivity. }
    set (out := _ ++ a_ofZ A 1 :: _). assert (Lo : length out = length x) by (unfold out; rewrite app_length; cbn [length]; rewrite !repeat_length; lia).
    destruct W as [W1 W2].
    assert (EQ : forall q, upd (upds mo po so 0 (repeat (a_ofZ A 0) (length x))) (po + Z.of_nat (length pre) * so)%Z (a_ofZ A 1) q = upds mo po so 0 out q).
    { intros q. rewrite Ex. rewrite <- (repeat_length (a_ofZ A 0) (length pre)) at 2. apply upds_middle.
      rewrite <- Ex, repeat_length. exact W2. }
    eexists. split; [reflexivity|]. destruct (upds_wrote out mo po so) as [Vo Fo]; [rewrite Lo; exact W2|].
    split.
    - intros k Hk. rewrite EQ. apply Vo, Hk.
    - intros q Hq. rewrite EQ. apply Fo, Hq.
  Qed.

  (** only -inf: NaN *)
  Theorem softmax_all_neginf mx px sx x mo po so : view mx px sx x -> writable mo po so (length x) ->
    (forall t, In t x -> eqb (a_cmp A) t (a_opp A (a_inf A)) = true) ->
    writes (softmax_core A TR (Z.of_nat (length x)) mx px sx mo po so) mo po so (repeat (a_nan A) (length x)).
  Proof.
    intros V W H. destruct x as [|x0 l] eqn:Ex.
    - unfold softmax_core. rewrite (scan_lloop A mx px sx [] V). cbn [lloop bind orb length Z.of_nat].
      change (1 <? 0)%Z with false. change (0 =? 1)%Z with false. cbn [orb]. 
      destruct (eqb _ _ _); (exists mo; split; [reflexivity|]; split; [intros k Hk; cbn in Hk; lia|reflexivity]).
    - rewrite <- Ex in *. assert (Hx : x <> []) by (rewrite Ex; discriminate). clear Ex x0 l.
      destruct (scan_max mx px sx x V Hx) as (m & Hm & _ & Es).
      + intros t Ht. apply (eqb_notnan _ L _ _ (H t Ht)).
      + unfold softmax_core. rewrite Es. cbn [bind]. rewrite (H m Hm), orb_true_r. apply write_const, W.
  Qed.

  (** the ordinary case *)
  Definition softvals (m : T) (x : list T) : list T :=
    let e t := t_exp TR (a_sub A t m) in map (fun t => a_div A (e t) (fsum A (map e x))) x.

  Lemma softmax_run mx px sx x mo po so : view mx px sx x -> writable mo po so (length x) -> x <> [] ->
    (forall t, In t x -> nan t = false /\ pinf t = false) ->
    (exists t, In t x /\ ltb (a_cmp A) (a_opp A (a_inf A)) t = true) ->
    exists m, In m x /\ (forall t, In t x -> leb (a_cmp A) t m = true) /\ ltb (a_cmp A) (a_opp A (a_inf A)) m = true /\
    writes (softmax_core A TR (Z.of_nat (length x)) mx px sx mo po so) mo po so (softvals m x).
  Proof.
    intros V W Hx H (t0 & Ht0 & Lt0).
    destruct (scan_max mx px sx x V Hx) as (m & Hm & Mm & Es); [intros t Ht; apply H, Ht|].
    assert (Lm : ltb (a_cmp A) (a_opp A (a_inf A)) m = true) by (apply (lt_le_trans _ L _ t0); [exact Lt0|apply Mm, Ht0]).
    exists m. split; [exact Hm|]. split; [exact Mm|]. split; [exact Lm|].
    unfold softmax_core. rewrite Es, (proj2 (npinf_0 x)) by (intros t Ht; apply H, Ht). cbn [bind].
    change (1 <? 0)%Z with false. change (0 =? 1)%Z with false. cbn [orb].
    replace (eqb (a_cmp A) m (a_opp A (a_inf A))) with false.
    2:{ symmetry. destruct (eqb _ m _) eqn:E; [|reflexivity]. apply eqb_leb in E.
        apply (le_not_lt _ L) in E. congruence. }
    set (e := fun t => t_exp TR (a_sub A t m)).
    rewrite (for_each_fold mx px sx x _ (fun s t => a_add A s (e t)) _ V) by (intros k s t _ Hg; rewrite Hg; reflexivity).
    cbn [bind].
    assert (ES : fold_left (fun s t => a_add A s (e t)) x (a_ofZ A 0) = fsum A (map e x)).
    { unfold fsum. generalize (a_ofZ A 0). induction x as [|t x' IH] in |- *; intros s; [reflexivity|]. cbn [fold_left map]. apply IH. }
    rewrite ES. change (softvals m x) with (map (fun t => a_div A (e t) (fsum A (map e x))) x).
    set (vals := map (fun t => a_div A (e t) (fsum A (map e x))) x).
    assert (LV : length x = length vals) by (unfold vals; symmetry; apply map_length). rewrite LV.
    rewrite (for_each_write mo po so vals).
    - apply (writes_upds mo po so vals (length x) W). unfold vals. apply map_length.
    - unfold vals. rewrite map_length. apply W.
    - intros k v mm Hk. unfold vals in Hk. rewrite nth_error_map in Hk. destruct (nth_error x k) as [t|] eqn:E; [|discriminate].
      injection Hk as <-. rewrite (view_get mx px sx x k t V E). reflexivity.
  Qed.
End SoftAny.

(** ** softmax over the reals *)
Lemma rexp_nonneg a : 0 <= rexp a.
Proof. destruct a; cbn; try lra. left; apply exp_pos. Qed.
Lemma rexp_sum_pos x : (exists a, In (Fin a) x) -> 0 < rsum (map rexp x).
Proof.
  intros (a & Ha). apply in_split in Ha. destruct Ha as (l1 & l2 & ->). rewrite map_app, rsum_app. cbn [map rsum rexp].
  assert (N : forall l, 0 <= rsum (map rexp l)).
  { intros l. apply rsum_nonneg. intros b Hb. apply in_map_iff in Hb. destruct Hb as (c & <- & _). apply rexp_nonneg. }
  pose proof (N l1). pose proof (N l2). pose proof (exp_pos a). lra.
Qed.

Theorem softmax_exact mx px sx x mo po so : view mx px sx x -> writable mo po so (length x) ->
  (forall t, In t x -> t = NInf \/ exists a, t = Fin a) -> (exists a, In (Fin a) x) ->
  writes (softmax_core earith etransc (Z.of_nat (length x)) mx px sx mo po so) mo po so (map Fin (rsoftmax x)).
Proof.
  intros V W H HF.
  assert (Hx : x <> []) by (destruct HF as (a & Ha); destruct x; [destruct Ha|discriminate]).
  destruct (softmax_run earith ecmp_laws etransc mx px sx x mo po so V W Hx) as (m & Hm & _ & Lm & Wr).
  - intros t Ht. destruct (H t Ht) as [->|(a & ->)]; split; try reflexivity; apply isnanb_Fin.
  - destruct HF as (a & Ha). exists (Fin a). split; [exact Ha|reflexivity].
  - assert (Em : exists b, m = Fin b) by (destruct (H m Hm) as [->|E]; [discriminate|exact E]).
    destruct Em as (b & ->).
    replace (map Fin (rsoftmax x)) with (softvals earith etransc (Fin b) x); [exact Wr|].
    assert (E1 : forall t, In t x -> t_exp etransc (a_sub earith t (Fin b)) = Fin (rexp t / exp b)).
    { intros t Ht. destruct (H t Ht) as [->|(a & ->)]; cbn.
      - f_equal. unfold Rdiv. ring.
      - f_equal. unfold Rminus, Rdiv. rewrite exp_plus, exp_Ropp. reflexivity. }
    pose proof (rexp_sum_pos x HF) as SP. pose proof (exp_pos b) as BP.
    unfold softvals. cbn zeta.
    replace (map (fun t => t_exp etransc (a_sub earith t (Fin b))) x) with (map Fin (map (fun t => rexp t / exp b) x))
      by (rewrite map_map; apply map_ext_in; intros t Ht; symmetry; apply E1, Ht).
    rewrite fsum_exact. unfold rsoftmax. rewrite map_map. apply map_ext_in. intros t Ht. rewrite (E1 t Ht).
    replace (rsum (map (fun t0 => rexp t0 / exp b) x)) with (rsum (map rexp x) / exp b).
    + cbn [a_div earith]. rewrite ediv_Fin by (apply Rmult_integral_contrapositive_currified; [lra|apply Rinv_neq_0_compat; lra]).
      f_equal. field. split; lra.
    + clear. induction x as [|t x IH]; cbn [map rsum]; [unfold Rdiv; ring|]. rewrite <- IH. unfold Rdiv. ring.
Qed.

(** properties of the exact result *)
Theorem rsoftmax_sum x : (exists a, In (Fin a) x) -> rsum (rsoftmax x) = 1.
Proof.
  intros HF. pose proof (rexp_sum_pos x HF) as SP. unfold rsoftmax.
  assert (G : forall s l, rsum (map (fun a => rexp a / s) l) = rsum (map rexp l) / s).
  { clear. intros s l. induction l as [|t l IH]; cbn [map rsum]; [unfold Rdiv; ring|]. rewrite IH. unfold Rdiv. ring. }
  rewrite G. apply Rinv_r. lra.
Qed.
Theorem rsoftmax_range x k a : (exists a, In (Fin a) x) -> nth_error x k = Some a ->
  exists y, nth_error (rsoftmax x) k = Some y /\ 0 <= y <= 1 /\ (forall r, a = Fin r -> 0 < y) /\ (a = NInf -> y = 0).
Proof.
  intros HF Hk. pose proof (rexp_sum_pos x HF) as SP. exists (rexp a / rsum (map rexp x)).
  split; [unfold rsoftmax; rewrite nth_error_map, Hk; reflexivity|].
  pose proof (rexp_nonneg a) as NA. assert (IP := Rinv_0_lt_compat _ SP).
  split; [split|split].
  - apply Rmult_le_pos; lra.
  - apply (Rmult_le_reg_r (rsum (map rexp x))); [exact SP|]. unfold Rdiv. rewrite Rmult_assoc, Rinv_l, Rmult_1_r, Rmult_1_l by lra.
    apply nth_error_In in Hk. apply in_split in Hk. destruct Hk as (l1 & l2 & ->). rewrite map_app, rsum_app. cbn [map rsum].
    assert (N : forall l, 0 <= rsum (map rexp l)).
    { intros l. apply rsum_nonneg. intros b Hb. apply in_map_iff in Hb. destruct Hb as (c & <- & _). apply rexp_nonneg. }
    pose proof (N l1). pose proof (N l2). lra.
  - intros r ->. apply Rmult_lt_0_compat; [apply exp_pos|exact IP].
  - intros ->. cbn. unfold Rdiv. ring.
Qed.
Theorem rsoftmax_shift x c : rsoftmax (map (fun t => eadd t (Fin c)) x) = rsoftmax x.
Proof.
  assert (E : forall t, rexp (eadd t (Fin c)) = rexp t * exp c).
  { intros [a| | |]; cbn; try ring. apply exp_plus. }
  unfold rsoftmax. rewrite !map_map. apply map_ext. intros t. rewrite E.
  replace (rsum (map (fun t0 => rexp (eadd t0 (Fin c))) x)) with (rsum (map rexp x) * exp c).
  - pose proof (exp_pos c). destruct (Req_dec (rsum (map rexp x)) 0) as [Z|Z].
    + rewrite Z, Rmult_0_l. unfold Rdiv. rewrite Rinv_0. ring.
    + field. split; lra.
  - clear - E. induction x as [|t x IH]; cbn [map rsum]; [ring|]. rewrite <- IH, E. ring.
Qed.
Theorem rsoftmax_order x i j a b u v : (exists a, In (Fin a) x) ->
  nth_error x i = Some (Fin a) -> nth_error x j = Some (Fin b) ->
  nth_error (rsoftmax x) i = Some u -> nth_error (rsoftmax x) j = Some v -> (u < v <-> a < b).
Proof.
  intros HF Ha Hb Hu Hv. pose proof (rexp_sum_pos x HF) as SP. assert (IP := Rinv_0_lt_compat _ SP).
  unfold rsoftmax in Hu, Hv. rewrite nth_error_map, Ha in Hu. rewrite nth_error_map, Hb in Hv.
  injection Hu as <-. injection Hv as <-. cbn [rexp]. unfold Rdiv. split.
  - intros Q. apply exp_lt_inv. apply (Rmult_lt_reg_r _ _ _ IP Q).
  - intros Q. apply Rmult_lt_compat_r; [exact IP|]. apply exp_increasing, Q.
Qed.

(** ** softmax in IEEE arithmetic: entries stay in [0,1] and keep the order of the inputs,
    for any exp that maps nonpositive arguments into [0,1] monotonically and 0 to 1 *)
Section SoftIeee.
  Context (prec emax : Z) (Hp : Prec_gt_0 prec) (He : Prec_lt_emax prec emax).
  Notation F := (binary_float prec emax).
  Notation FA := (farith prec emax Hp He).
  Notation f2e := (f2e prec emax).
  Notation le := (leb ecmp).
  Context (TR : transc F).
  Context (Hexp0 : forall v : F, f2e v = Fin 0 -> f2e (t_exp TR v) = Fin 1).
  Context (Hexp1 : forall v : F, le (f2e v) (Fin 0) = true -> le (Fin 0) (f2e (t_exp TR v)) = true /\ le (f2e (t_exp TR v)) (Fin 1) = true).
  Context (Hexpm : forall u v : F, le (f2e u) (f2e v) = true -> le (f2e v) (Fin 0) = true -> le (f2e (t_exp TR u)) (f2e (t_exp TR v)) = true).

  Lemma le_inv (a : ER) b : le a (Fin b) = true -> a = NInf \/ exists r, a = Fin r /\ r <= b.
  Proof. destruct a; intros H; try discriminate; [right; eexists; split; [reflexivity|]; apply leb_Fin, H|left; reflexivity]. Qed.
  Lemma ge_inv (a : ER) b : le (Fin b) a = true -> a = PInf \/ exists r, a = Fin r /\ b <= r.
  Proof. destruct a; intros H; try discriminate; [right; eexists; split; [reflexivity|]; apply leb_Fin, H|left; reflexivity]. Qed.
  Lemma le_Pinf (a : ER) b : le (Fin b) a = true -> le a PInf = true.
  Proof. destruct a; intros H; try discriminate; reflexivity. Qed.

  Lemma sub_case (t m : F) : is_finite m = true -> leb (@Bcompare prec emax) t m = true ->
    (f2e t = NInf /\ f2e (Bminus mode_NE t m) = NInf) \/
    (exists r, f2e t = Fin r /\ r <= B2R m /\ f2e (Bminus mode_NE t m) = frnd prec emax (r - B2R m)).
  Proof.
    intros Fm Hle. rewrite leb_f, (f2e_finite _ _ m Fm) in Hle. apply le_inv in Hle. destruct Hle as [E|(r & E & Hr)].
    - left. split; [exact E|]. destruct t as [s|s| |s mm e h]; try discriminate. destruct s; [|discriminate].
      destruct m as [s'|s'| |s' mm' e' h']; try discriminate; reflexivity.
    - right. exists r. split; [exact E|]. split; [exact Hr|]. destruct (fin_of prec emax t r E) as [Ft <-].
      apply f2e_minus; assumption.
  Qed.
  Lemma frnd0_le r : r <= 0 -> le (frnd prec emax r) (Fin 0) = true.
  Proof. intros H. rewrite <- (frnd_0 prec emax). apply frnd_le; assumption. Qed.
  Lemma sub_le0 (t m : F) : is_finite m = true -> leb (@Bcompare prec emax) t m = true -> le (f2e (Bminus mode_NE t m)) (Fin 0) = true.
  Proof. intros Fm H. destruct (sub_case t m Fm H) as [[_ ->]|(r & _ & Hr & ->)]; [reflexivity|]. apply frnd0_le. lra. Qed.
  Lemma NInf_le (a : ER) : a <> ENaN -> le NInf a = true.
  Proof. destruct a; intros H; try reflexivity. congruence. Qed.
  Lemma sub_mono (t u m : F) : is_finite m = true -> leb (@Bcompare prec emax) t u = true -> leb (@Bcompare prec emax) u m = true ->
    le (f2e (Bminus mode_NE t m)) (f2e (Bminus mode_NE u m)) = true.
  Proof.
    intros Fm H1 H2. pose proof (leb_trans _ (Bcompare_laws prec emax) _ _ _ H1 H2) as H3.
    destruct (sub_case t m Fm H3) as [[_ ->]|(r & Er & Hr & ->)].
    - apply NInf_le. pose proof (sub_le0 u m Fm H2) as K. intros E. rewrite E in K. discriminate.
    - destruct (sub_case u m Fm H2) as [[Eu _]|(q & Eq & Hq & ->)].
      + rewrite leb_f, Er, Eu in H1. discriminate.
      + rewrite leb_f, Er, Eq in H1. apply leb_Fin in H1. apply frnd_le; [assumption|lra].
  Qed.

  Lemma add_ge (s e : F) : le (Fin 0) (f2e s) = true -> le (Fin 0) (f2e e) = true -> le (f2e e) (Fin 1) = true ->
    le (f2e s) (f2e (Bplus mode_NE s e)) = true /\ le (f2e e) (f2e (Bplus mode_NE s e)) = true.
  Proof.
    intros Hs H0 H1. apply ge_inv in H0. destruct H0 as [E|(r & Er & Hr)]; [rewrite E in H1; discriminate|].
    destruct (fin_of prec emax e r Er) as [Fe Re]. apply ge_inv in Hs. destruct Hs as [E|(q & Eq & Hq)].
    - assert (K : Bplus mode_NE s e = s).
      { destruct s as [s|s| |s mm ee h]; try discriminate. destruct e; try discriminate; reflexivity. }
      rewrite K, E, Er. split; reflexivity.
    - destruct (fin_of prec emax s q Eq) as [Fs Rs]. rewrite (f2e_plus prec emax Hp He s e Fs Fe).
      rewrite (f2e_finite _ _ s Fs), (f2e_finite _ _ e Fe). rewrite <- !(f2e_finite _ _ _ Fs), <- !(f2e_finite _ _ _ Fe).
      split; apply frnd_ge_B2R; try assumption; lra.
  Qed.

  Lemma fold_sum_ge : forall (l : list F) s, le (Fin 0) (f2e s) = true ->
    (forall e, In e l -> le (Fin 0) (f2e e) = true /\ le (f2e e) (Fin 1) = true) ->
    le (f2e s) (f2e (fold_left (@Bplus prec emax Hp He mode_NE) l s)) = true /\
    forall e, In e l -> le (f2e e) (f2e (fold_left (@Bplus prec emax Hp He mode_NE) l s)) = true.
  Proof.
    induction l as [|e l IH]; intros s Hs H; cbn [fold_left].
    - split; [|intros e []]. apply (leb_refl _ ecmp_laws). destruct (f2e s); try reflexivity; try discriminate; apply isnanb_Fin.
    - destruct (H e (or_introl eq_refl)) as [H0 H1]. destruct (add_ge s e Hs H0 H1) as [A1 A2].
      destruct (IH (Bplus mode_NE s e)) as [I1 I2].
      + apply (leb_trans _ ecmp_laws _ (f2e s)); assumption.
      + intros e' He'. apply H. right; exact He'.
      + split; [apply (leb_trans _ ecmp_laws _ _ _ A1 I1)|]. intros e' [<-|He']; [apply (leb_trans _ ecmp_laws _ _ _ A2 I1)|apply I2, He'].
  Qed.

  Lemma div_case (e s : F) : le (Fin 0) (f2e e) = true -> le (f2e e) (Fin 1) = true -> le (Fin 1) (f2e s) = true ->
    (f2e s = PInf /\ f2e (Bdiv mode_NE e s) = Fin 0) \/
    (exists r q, f2e e = Fin r /\ f2e s = Fin q /\ 0 <= r /\ 1 <= q /\ f2e (Bdiv mode_NE e s) = frnd prec emax (r / q)).
  Proof.
    intros H0 H1 Hs. apply ge_inv in H0. destruct H0 as [E|(r & Er & Hr)]; [rewrite E in H1; discriminate|].
    destruct (fin_of prec emax e r Er) as [Fe Re]. apply ge_inv in Hs. destruct Hs as [E|(q & Eq & Hq)].
    - left. split; [exact E|]. destruct s as [s|s| |s mm ee h]; try discriminate. destruct e as [s'|s'| |s' mm ee h]; try discriminate; destruct s'; reflexivity.
    - right. exists r, q. destruct (fin_of prec emax s q Eq) as [Fs Rs]. repeat split; try assumption.
      rewrite (f2e_div prec emax Hp He e s Fe Fs) by lra. rewrite Re, Rs. reflexivity.
  Qed.

  Theorem softmax_ieee mx px sx x mo po so : view mx px sx x -> writable mo po so (length x) ->
    (forall t, In t x -> is_nan t = false /\ f2e t <> PInf) -> (exists t, In t x /\ is_finite t = true) ->
    exists out, writes (softmax_core FA TR (Z.of_nat (length x)) mx px sx mo po so) mo po so out /\
      length out = length x /\
      (forall y, In y out -> exists r, f2e y = Fin r /\ 0 <= r <= 1) /\
      (forall i j a b u v, nth_error x i = Some a -> nth_error x j = Some b -> nth_error out i = Some u -> nth_error out j = Some v ->
         leb (a_cmp FA) a b = true -> leb (a_cmp FA) u v = true).
  Proof.
    intros V W H (t0 & Ht0 & Ft0).
    assert (Hx : x <> []) by (destruct x; [destruct Ht0|discriminate]).
    destruct (softmax_run FA (Bcompare_laws prec emax) TR mx px sx x mo po so V W Hx) as (m & Hm & Mm & Lm & Wr).
    - intros t Ht. destruct (H t Ht) as [N P]. split; [cbn; rewrite isnan_f; exact N|].
      unfold posinf. destruct (a_isinf FA t) eqn:E; [|reflexivity]. cbn [andb a_cmp farith].
      destruct t as [s|s| |s mm e h]; try discriminate. destruct s; [reflexivity|]. destruct (P eq_refl).
    - exists t0. split; [exact Ht0|]. cbn [a_cmp a_opp a_inf farith]. rewrite ltb_f, (f2e_finite _ _ t0 Ft0). reflexivity.
    - assert (Fm : is_finite m = true).
      { destruct (H m Hm) as [N P]. destruct m as [s|s| |s mm e h]; try reflexivity; try discriminate.
        destruct s; [discriminate|]. destruct (P eq_refl). }
      exists (softvals FA TR m x). split; [exact Wr|]. split; [apply map_length|].
      set (e := fun t => t_exp TR (a_sub FA t m)).
      assert (He0 : forall t, In t x -> le (Fin 0) (f2e (e t)) = true /\ le (f2e (e t)) (Fin 1) = true).
      { intros t Ht. apply Hexp1. apply sub_le0; [exact Fm|]. apply Mm, Ht. }
      set (s := fsum FA (map e x)).
      assert (S0 : le (Fin 0) (f2e (a_ofZ FA 0)) = true) by (rewrite (ofZ_0 prec emax Hp He); apply leb_Fin; lra).
      destruct (fold_sum_ge (map e x) (a_ofZ FA 0) S0) as [_ S1].
      { intros y Hy. apply in_map_iff in Hy. destruct Hy as (t & <- & Ht). apply He0, Ht. }
      change (fold_left (Bplus mode_NE) (map e x) (a_ofZ FA 0)) with s in S1.
      assert (Sge : le (Fin 1) (f2e s) = true).
      { replace (Fin 1) with (f2e (e m)); [apply S1; apply in_map, Hm|]. apply Hexp0. apply (sub_same prec emax Hp He m m (B2R m)); apply f2e_finite; exact Fm. }
      change (softvals FA TR m x) with (map (fun t => a_div FA (e t) s) x).
      split.
      + intros y Hy. apply in_map_iff in Hy. destruct Hy as (t & <- & Ht). destruct (He0 t Ht) as [E0 E1].
        pose proof (S1 (e t) (in_map e x t Ht)) as ES.
        destruct (div_case (e t) s E0 E1 Sge) as [[_ D]|(r & q & Er & Eq & Hr & Hq & D)]; cbn [a_div farith]; rewrite D.
        * exists 0. split; [reflexivity|lra].
        * rewrite Er, Eq in ES. apply leb_Fin in ES.
          assert (R0 : 0 <= r / q <= 1).
          { split; [apply Rmult_le_pos; [exact Hr|left; apply Rinv_0_lt_compat; lra]|].
            apply (Rmult_le_reg_r q); [lra|]. unfold Rdiv. rewrite Rmult_assoc, Rinv_l by lra. lra. }
          pose proof (frnd_le prec emax Hp 0 (r / q) (proj1 R0)) as K0. pose proof (frnd_le prec emax Hp (r / q) 1 (proj2 R0)) as K1.
          rewrite (frnd_0 prec emax) in K0. rewrite (frnd_1 prec emax Hp He) in K1.
          apply ge_inv in K0. destruct K0 as [E|(z & Ez & Hz)]; [rewrite E in K1; discriminate|].
          rewrite Ez in K1. apply leb_Fin in K1. exists z. split; [exact Ez|lra].
      + intros i j a b u v Hi Hj Hu Hv Hab. rewrite nth_error_map, Hi in Hu. rewrite nth_error_map, Hj in Hv.
        injection Hu as <-. injection Hv as <-. apply nth_error_In in Hi, Hj.
        destruct (He0 a Hi) as [A0 A1]. destruct (He0 b Hj) as [B0 B1].
        assert (EM : le (f2e (e a)) (f2e (e b)) = true).
        { apply Hexpm; [apply sub_mono; [exact Fm|exact Hab|apply Mm, Hj]|]. apply sub_le0; [exact Fm|apply Mm, Hj]. }
        cbn [a_cmp a_div farith]. rewrite leb_f.
        destruct (div_case (e a) s A0 A1 Sge) as [[P1 D1]|(r & q & Er & Eq & Hr & Hq & D1)];
          destruct (div_case (e b) s B0 B1 Sge) as [[P2 D2]|(r2 & q2 & Er2 & Eq2 & Hr2 & Hq2 & D2)].
        * rewrite D1, D2. apply leb_Fin. lra.
        * congruence.
        * congruence.
        * rewrite D1, D2. assert (q2 = q) by congruence. subst q2. rewrite Er, Er2 in EM. apply leb_Fin in EM.
          apply frnd_le; [exact Hp|]. apply Rmult_le_compat_r; [left; apply Rinv_0_lt_compat; lra|exact EM].
  Qed.

  (** multivariate_logbeta of one element is zero whenever lgamma of it is finite *)
  Theorem logbeta_single (lgamma : F -> F) sz mx px sx (a : F) r : view mx px sx [a] ->
    f2e (lgamma a) = Fin r -> is_finite a = true -> B2R a <> 0 ->
    exists z, multivariate_logbeta_core FA lgamma sz 1 mx px sx = Some z /\ f2e z = Fin 0.
  Proof.
    intros V Hl Fa Na. pose proof (logbeta_fold FA lgamma sz mx px sx [a] V) as E. cbn [length Z.of_nat] in E.
    change (Z.pos (Pos.of_succ_nat 0)) with 1%Z in E. rewrite E by discriminate. eexists. split; [reflexivity|].
    unfold fsum. cbn [map fold_left]. cbn [a_add a_sub farith].
    assert (EA : Bplus mode_NE (a_ofZ FA 0) a = a).
    { destruct a as [s|s| |s mm e h]; try discriminate; try reflexivity. cbn in Na. lra. }
    rewrite EA. apply (sub_same prec emax Hp He _ _ r); [|exact Hl]. apply add_zero_l; [apply ofZ_0|exact Hl].
  Qed.
End SoftIeee.

(** The means in exact arithmetic. *)
From Coq Require Import ZArith Reals List Bool Lia Lra Permutation.
From Flocq Require Import Core BinarySingleNaN.
From Verif Require Import CSem CSemP FoldP Num NumP M_Means S_Stat S_Means P_Kbn P_MeanVar P_Vnorm P_Corr P_Means.
Import ListNotations.
Open Scope R_scope.

Lemma elog_Fin a : 0 < a -> elog (Fin a) = Fin (ln a).
Proof. intros H. unfold elog. rewrite (Rcompare_Gt a 0 H). reflexivity. Qed.
Lemma eeq_zero a : a <> 0 -> eqb ecmp (Fin a) (Fin 0) = false.
Proof. intros H. apply eqb_Fin_false. exact H. Qed.
Lemma combine_map_fst {E X Y} (f : E -> X) (g : E -> Y) l : combine (map f l) (map g l) = map (fun e => (f e, g e)) l.
Proof. induction l as [|e l IH]; [reflexivity|]. cbn [map combine]. rewrite IH. reflexivity. Qed.
Lemma fin_good a : 0 <= a -> gbad earith (Fin a) = false.
Proof.
  intros H. unfold gbad. cbn [earith a_cmp a_isinf eisinf negb andb a_ofZ]. rewrite isnanb_Fin. cbn [orb].
  apply ltb_Fin_false. exact H.
Qed.

Section Pos.
  Context {E E' S : Type} (emb : E -> E') (xr wr : E -> R) (xv : E' -> ER) (add : E' -> ER -> ER -> ER) (h : S -> E' -> S).
  Context (Hx : forall e, xv (emb e) = Fin (xr e))
          (Ha : forall e s l, add (emb e) (Fin s) (Fin l) = Fin (s + wr e * l)).
  Lemma gl_pos : forall l k same prev sl s, (0 < k)%Z -> (forall e, In e l -> 0 < xr e) ->
    exists same' prev', lloop k (map emb l) (gl earith etransc xv add h) (mkG false false false false same (Fin prev) (Fin sl), s)
      = Some (inl (mkG false false false false same' (Fin prev') (Fin (sl + rsum (map (fun e => wr e * ln (xr e)) l))), fold_left h (map emb l) s))
      /\ (same' = true <-> same = true /\ forall e, In e l -> xr e = prev) /\ (same' = true -> prev' = prev).
  Proof.
    induction l as [|e l IH]; intros k same prev sl s Hk Hp; cbn [map lloop rsum fold_left].
    - exists same, prev. rewrite Rplus_0_r. split; [reflexivity|]. split; [|reflexivity].
      split; [intros ->; split; [reflexivity|intros e []]|intros [-> _]; reflexivity].
    - pose proof (Hp e (or_introl eq_refl)) as P. unfold gl at 1. cbn [fst snd].
      rewrite (g_step_good earith etransc) by (rewrite Hx; apply fin_good; lra).
      rewrite Hx. cbn [g_zero g_neg g_nan g_inf g_same g_prev g_sumlog].
      unfold gzero, gpos. cbn [earith a_isinf eisinf a_cmp a_ofZ negb andb orb]. rewrite eeq_zero by lra. cbn [negb].
      destruct (Z.eqb_spec k 0) as [->|_]; [lia|].
      change (t_log etransc (Fin (xr e))) with (elog (Fin (xr e))). rewrite elog_Fin by lra. rewrite Ha.
      edestruct (IH (k + 1)%Z (same && eqb ecmp (Fin prev) (Fin (xr e))) (xr e)) as (same' & prev' & E1 & E2 & E3);
        [lia|intros e' He'; apply Hp; right; exact He'|].
      exists same', prev'. split; [rewrite E1, Rplus_assoc; reflexivity|]. split.
      + rewrite E2. rewrite andb_true_iff, eqb_Fin. split.
        * intros [[-> ->] H]. split; [reflexivity|]. intros e' [<-|He']; [reflexivity|apply H, He'].
        * intros [-> H]. pose proof (H e (or_introl eq_refl)) as Q. rewrite Q. repeat split. intros e' He'. apply H. right. exact He'.
      + intros Hs. rewrite (E3 Hs). rewrite E2, andb_true_iff, eqb_Fin in Hs. destruct Hs as [[_ ->] _]. reflexivity.
  Qed.
  Lemma gl_pos0 l s : (forall e, In e l -> 0 < xr e) -> l <> [] ->
    exists same' c, lloop 0 (map emb l) (gl earith etransc xv add h) (g0 earith, s)
      = Some (inl (mkG false false false false same' (Fin c) (Fin (rsum (map (fun e => wr e * ln (xr e)) l))), fold_left h (map emb l) s))
      /\ (same' = true <-> exists c, forall e, In e l -> xr e = c) /\ (same' = true -> forall e, In e l -> xr e = c).
  Proof.
    destruct l as [|e l]; intros Hp Hn; [congruence|]. cbn [map lloop fold_left rsum]. unfold gl at 1, g0. cbn [fst snd].
    pose proof (Hp e (or_introl eq_refl)) as P.
    rewrite (g_step_good earith etransc) by (rewrite Hx; apply fin_good; lra).
    rewrite Hx. cbn [g_zero g_neg g_nan g_inf g_same g_prev g_sumlog].
    unfold gzero, gpos. cbn [earith a_isinf eisinf a_cmp a_ofZ negb andb orb]. rewrite eeq_zero by lra. cbn [negb Z.eqb].
    change (t_log etransc (Fin (xr e))) with (elog (Fin (xr e))). rewrite elog_Fin by lra. rewrite Ha.
    assert (Q : eqb ecmp (Fin (xr e)) (Fin (xr e)) = true) by (apply eqb_Fin; reflexivity). rewrite Q.
    destruct (gl_pos l (0 + 1)%Z true (xr e) (0 + wr e * ln (xr e)) (h s (emb e))) as (same' & prev' & E1 & E2 & E3);
      [lia|intros e' He'; apply Hp; right; exact He'|].
    exists same', prev'. split; [etransitivity; [exact E1|]; rewrite Rplus_0_l; reflexivity|]. split.
    - rewrite E2. split; [intros [_ H]; exists (xr e); intros e' [<-|He']; [reflexivity|apply H, He']|].
      intros [c H]. split; [reflexivity|]. intros e' He'. rewrite (H e' (or_intror He')), (H e (or_introl eq_refl)). reflexivity.
    - intros Hs. rewrite (E3 Hs). apply E2 in Hs. destruct Hs as [_ H]. intros e' [<-|He']; [reflexivity|apply H, He'].
  Qed.
End Pos.

Lemma ravg_const f x c : x <> [] -> (forall a, In a x -> f a = c) -> ravg f x = c.
Proof.
  intros Hn H. unfold ravg. rewrite (rsum_ext2 f (fun _ => c) x H), rsum_const. pose proof (INR_len_pos x Hn). field. lra.
Qed.
Lemma IZR_len {X} (l : list X) : IZR (Z.of_nat (length l)) = INR (length l).
Proof. rewrite INR_IZR_INZ. reflexivity. Qed.

Theorem gmean_exact mx px sx x : view mx px sx (map Fin x) -> x <> [] -> (forall a, In a x -> 0 < a) ->
  xgmean (Z.of_nat (length x)) mx px sx = Some (Fin (exp (ravg ln x))).
Proof.
  intros V Hn Hp. unfold xgmean. pose proof (gmean_eq earith etransc _ _ _ _ V) as G. rewrite map_length in G. rewrite G.
  edestruct (gl_pos0 (S := unit) Fin (fun a => a) (fun _ => 1) (fun t : ER => t) (fun _ => a_add earith) (fun _ _ => tt))
    as (same' & c & -> & E2 & E3); [reflexivity|intros; cbn; f_equal; ring|exact Hp|exact Hn|].
  cbn [bind fst snd]. unfold gfin. cbn [g_zero g_neg g_nan g_inf g_same g_prev g_sumlog orb andb].
  destruct same'.
  - specialize (E3 eq_refl). rewrite (ravg_const ln x (ln c) Hn) by (intros a Ha; rewrite (E3 a Ha); reflexivity).
    rewrite exp_ln; [reflexivity|]. destruct x as [|a x]; [congruence|]. rewrite <- (E3 a (or_introl eq_refl)). apply Hp. left. reflexivity.
  - cbn [earith etransc a_div a_ofZ t_exp]. rewrite IZR_len. pose proof (INR_len_pos x Hn). rewrite ediv_Fin by lra.
    cbn [eexp]. unfold ravg. do 4 f_equal. apply rsum_ext2. intros a _. ring.
Qed.

Lemma wsum_fold (q : list (R * R)) s : fold_left (fun (s : ER) (e : ER * ER) => a_add earith s (snd e)) (map (fun e => (Fin (fst e), Fin (snd e))) q) (Fin s)
  = Fin (s + rsum (map snd q)).
Proof.
  revert s. induction q as [|e q IH]; intros s; cbn [map fold_left rsum]; [rewrite Rplus_0_r; reflexivity|].
  cbn [snd earith a_add eadd]. rewrite IH, Rplus_assoc. reflexivity.
Qed.

Lemma gmeanw_run mx px sx mw pw sw q : view mx px sx (map Fin (map fst q)) -> view mw pw sw (map Fin (map snd q)) ->
  q <> [] -> (forall e, In e q -> 0 < fst e) ->
  exists same c, xgmeanw (Z.of_nat (length q)) mx px sx mw pw sw = Some (if same : bool then Fin c else
      if eqb ecmp (Fin (rsum (map snd q))) (Fin 0) then ENaN else eexp (ediv (Fin (rsum (map (fun e => snd e * ln (fst e)) q))) (Fin (rsum (map snd q)))))
    /\ (same = true <-> exists c, forall e, In e q -> fst e = c) /\ (same = true -> forall e, In e q -> fst e = c).
Proof.
  intros V W Hn Hp. unfold xgmeanw. pose proof (gmeanw_eq earith etransc _ _ _ _ _ _ _ _ V W) as G.
  rewrite !map_length in G. rewrite (G eq_refl). rewrite !map_map, combine_map_fst.
  edestruct (gl_pos0 (S := ER) (fun e : R * R => (Fin (fst e), Fin (snd e))) fst snd (fst : ER * ER -> ER)
     (fun q sl lx => a_add earith sl (a_mul earith (snd q) lx)) (fun s q => a_add earith s (snd q)))
    as (same' & c & -> & E2 & E3); [reflexivity|intros; cbn; f_equal; ring|exact Hp|exact Hn|].
  exists same', c. split; [|split; assumption].
  change (a_ofZ earith 0) with (Fin 0). rewrite wsum_fold, Rplus_0_l. cbn [bind fst snd]. unfold gfin.
  cbn [g_zero g_neg g_nan g_inf g_same g_prev g_sumlog orb andb]. destruct same'; reflexivity.
Qed.

Theorem gmeanw_exact mx px sx mw pw sw q : view mx px sx (map Fin (map fst q)) -> view mw pw sw (map Fin (map snd q)) ->
  (forall e, In e q -> 0 < fst e) -> rsum (map snd q) <> 0 ->
  xgmeanw (Z.of_nat (length q)) mx px sx mw pw sw = Some (Fin (exp (wavg ln q))).
Proof.
  intros V W Hp Hs. assert (Hn : q <> []) by (intros ->; apply Hs; reflexivity).
  destruct (gmeanw_run mx px sx mw pw sw q V W Hn Hp) as (same & c & -> & _ & E3). destruct same.
  - specialize (E3 eq_refl). rewrite (wavg_const ln q (ln c)); [|exact Hs|intros e He; rewrite (E3 e He); reflexivity].
    rewrite exp_ln; [reflexivity|]. destruct q as [|a x]; [congruence|]. rewrite <- (E3 a (or_introl eq_refl)). apply Hp. left. reflexivity.
  - rewrite eeq_zero by exact Hs. rewrite ediv_Fin by exact Hs. reflexivity.
Qed.
Theorem gmeanw_zero_weight mx px sx mw pw sw q : view mx px sx (map Fin (map fst q)) -> view mw pw sw (map Fin (map snd q)) ->
  q <> [] -> (forall e, In e q -> 0 < fst e) -> rsum (map snd q) = 0 ->
  xgmeanw (Z.of_nat (length q)) mx px sx mw pw sw = Some ENaN \/ exists c, (forall e, In e q -> fst e = c) /\
   xgmeanw (Z.of_nat (length q)) mx px sx mw pw sw = Some (Fin c).
Proof.
  intros V W Hn Hp Hs. destruct (gmeanw_run mx px sx mw pw sw q V W Hn Hp) as (same & c & -> & _ & E3). destruct same.
  - right. exists c. split; [exact (E3 eq_refl)|reflexivity].
  - left. rewrite Hs. assert (Q : eqb ecmp (Fin 0) (Fin 0) = true) by (apply eqb_Fin; reflexivity). rewrite Q. reflexivity.
Qed.

(** the geometric mean to the power n is the product *)
Lemma gm_prod x : x <> [] -> (forall a, In a x -> 0 < a) -> (exp (ravg ln x)) ^ (length x) = rprod x.
Proof.
  intros Hn Hp. pose proof (INR_len_pos x Hn) as L. rewrite <- Rpower_pow by apply exp_pos. unfold Rpower. rewrite ln_exp.
  unfold ravg. replace (INR (length x) * (rsum (map ln x) / INR (length x))) with (rsum (map ln x)) by (field; lra).
  clear Hn L. induction x as [|a x IH]; cbn [map rsum rprod]; [apply exp_0|].
  rewrite exp_plus, exp_ln by (apply Hp; left; reflexivity). rewrite IH by (intros b Hb; apply Hp; right; exact Hb). reflexivity.
Qed.

(** ** harmonic mean *)
Lemma lloop_never {T S R} (f : Z -> T -> S -> M (ctl S R)) (g : S -> T -> S) : forall l k s,
  (forall k s t, In t l -> f k t s = Some (Next (g s t))) -> lloop k l f s = Some (inl (fold_left g l s)).
Proof.
  induction l as [|t l IH]; intros k s H; [reflexivity|]. cbn [lloop fold_left]. rewrite H by (left; reflexivity).
  apply IH. intros k' s' t' Ht. apply H. right. exact Ht.
Qed.
Lemma fold_fin {E} (g : ER -> E -> ER) (f : E -> R) : forall l s, (forall s e, In e l -> g (Fin s) e = Fin (s + f e)) ->
  fold_left g l (Fin s) = Fin (s + rsum (map f l)).
Proof.
  induction l as [|e l IH]; intros s H; cbn [fold_left map rsum]; [rewrite Rplus_0_r; reflexivity|].
  rewrite H by (left; reflexivity). rewrite IH by (intros s' e' He'; apply H; right; exact He'). rewrite Rplus_assoc. reflexivity.
Qed.
Theorem hmean_exact mx px sx x : view mx px sx (map Fin x) -> x <> [] -> (forall a, In a x -> a <> 0) -> rsum (map Rinv x) <> 0 ->
  xhmean (Z.of_nat (length x)) mx px sx = Some (Fin (/ ravg Rinv x)).
Proof.
  intros V Hn Hp Hs. unfold xhmean, hmean_row.
  pose proof (for_loop_view mx px sx (map Fin x)
    (fun k sumrecip => x0 <- get mx px sx k ;;
         ret (if eqb (a_cmp earith) x0 (a_ofZ earith 0) then @Brk ER ER (a_inf earith)
              else Next (a_add earith sumrecip (a_div earith (a_ofZ earith 1) x0))))
    (fun k x0 sumrecip => Some (if eqb ecmp x0 (Fin 0) then @Brk ER ER PInf else Next (eadd sumrecip (ediv (Fin 1) x0)))) (Fin 0) V) as FL.
  rewrite map_length in FL. cbn beta. change (a_ofZ earith 0) with (Fin 0) in *. rewrite FL; clear FL.
  2: { intros k s t Hk Hg. rewrite Hg. reflexivity. }
  rewrite (lloop_never _ (fun s t => eadd s (ediv (Fin 1) t))).
  2: { intros k s t Ht. apply in_map_iff in Ht. destruct Ht as (a & <- & Ha). rewrite eeq_zero by (apply Hp, Ha). reflexivity. }
  assert (F : fold_left (fun s t => eadd s (ediv (Fin 1) t)) (map Fin x) (Fin 0) = Fin (rsum (map Rinv x))).
  { assert (K : forall l s, (forall a, In a l -> a <> 0) -> fold_left (fun s t => eadd s (ediv (Fin 1) t)) (map Fin l) (Fin s) = Fin (s + rsum (map Rinv l))).
    { induction l as [|a l IH]; intros s H; cbn [map fold_left rsum]; [rewrite Rplus_0_r; reflexivity|].
      rewrite ediv_Fin by (apply H; left; reflexivity). cbn [eadd]. rewrite IH by (intros b Hb; apply H; right; exact Hb).
      f_equal. unfold Rdiv. ring. }
    rewrite K by exact Hp. rewrite Rplus_0_l. reflexivity. }
  rewrite F. cbn [bind earith a_div a_ofZ]. rewrite IZR_len, ediv_Fin by exact Hs. unfold ret. do 2 f_equal. unfold ravg.
  pose proof (INR_len_pos x Hn). field. split; lra.
Qed.
Lemma rinv_sum_pos x : x <> [] -> (forall a, In a x -> 0 < a) -> 0 < rsum (map Rinv x).
Proof.
  intros Hn Hp. destruct x as [|a x]; [congruence|]. cbn [map rsum].
  assert (0 < / a) by (apply Rinv_0_lt_compat, Hp; left; reflexivity).
  assert (0 <= rsum (map Rinv x)); [|lra]. apply rsum_nonneg. intros b Hb. apply in_map_iff in Hb. destruct Hb as (c & <- & Hc).
  left. apply Rinv_0_lt_compat, Hp. right. exact Hc.
Qed.
Theorem hmean_zero mx px sx x : view mx px sx x -> In (Fin 0) x -> 
  xhmean (Z.of_nat (length x)) mx px sx = Some (Fin 0).
Proof.
  intros V H0. unfold xhmean, hmean_row.
  rewrite (for_loop_view mx px sx x _
    (fun k x0 sumrecip => Some (if eqb ecmp x0 (Fin 0) then @Brk ER ER PInf else Next (eadd sumrecip (ediv (Fin 1) x0)))) _ V)
    by (intros k s t Hk Hg; rewrite Hg; reflexivity).
  assert (K : forall l k s, In (Fin 0) l -> lloop k l
    (fun k x0 sumrecip => Some (if eqb ecmp x0 (Fin 0) then @Brk ER ER PInf else Next (eadd sumrecip (ediv (Fin 1) x0)))) s = Some (inl PInf)).
  { induction l as [|t l IH]; intros k s H; [destruct H|]. cbn [lloop]. destruct (eqb ecmp t (Fin 0)) eqn:Et; [reflexivity|].
    apply IH. destruct H as [->|H]; [|exact H]. exfalso. assert (eqb ecmp (Fin 0) (Fin 0) = true) by (apply eqb_Fin; reflexivity). congruence. }
  rewrite K by exact H0. reflexivity.
Qed.

Theorem hmeanw_exact mx px sx mw pw sw q : view mx px sx (map Fin (map fst q)) -> view mw pw sw (map Fin (map snd q)) ->
  (forall e, In e q -> fst e <> 0) -> rsum (map snd q) <> 0 -> wavg Rinv q <> 0 ->
  xhmeanw (Z.of_nat (length q)) mx px sx mw pw sw = Some (Fin (/ wavg Rinv q)).
Proof.
  intros V W Hp Hs Hd. unfold xhmeanw, hmeanw_1d.
  pose proof (for_loop_two mx px sx (map Fin (map fst q)) mw pw sw (map Fin (map snd q))
     (fun k st => let '(sumw, sumrecip) := st in
         x <- get mx px sx k ;; w <- get mw pw sw k ;;
         ret (if eqb ecmp x (Fin 0) then @Brk (ER * ER) ER (sumw, PInf)
              else Next (eadd sumw w, eadd sumrecip (ediv w x))))
     (fun k e st => Some (if eqb ecmp (fst e) (Fin 0) then @Brk (ER * ER) ER (fst st, PInf)
              else Next (eadd (fst st) (snd e), eadd (snd st) (ediv (snd e) (fst e))))) (Fin 0, Fin 0) V W) as FL.
  rewrite !map_length in FL. cbn [earith a_cmp a_ofZ a_add a_div a_inf]. rewrite FL; clear FL; [|reflexivity|].
  2: { intros k [s1 s2] a b Ha Hb. rewrite Ha, Hb. reflexivity. }
  rewrite !map_map, combine_map_fst.
  rewrite (lloop_never _ (fun st e => (eadd (fst st) (snd e), eadd (snd st) (ediv (snd e) (fst e))))).
  2: { intros k s t Ht. apply in_map_iff in Ht. destruct Ht as (e & <- & He). cbn [fst snd]. rewrite eeq_zero by (apply Hp, He). reflexivity. }
  assert (K : forall l s1 s2, (forall e, In e l -> fst e <> 0) ->
     fold_left (fun (st : ER * ER) (e : ER * ER) => (eadd (fst st) (snd e), eadd (snd st) (ediv (snd e) (fst e)))) (map (fun e => (Fin (fst e), Fin (snd e))) l) (Fin s1, Fin s2)
     = (Fin (s1 + rsum (map snd l)), Fin (s2 + rsum (map (fun e => snd e * / fst e) l)))).
  { induction l as [|e l IH]; intros s1 s2 H; cbn [map fold_left rsum fst snd]; [rewrite !Rplus_0_r; reflexivity|].
    rewrite ediv_Fin by (apply H; left; reflexivity). cbn [eadd]. rewrite IH by (intros b Hb; apply H; right; exact Hb).
    f_equal; f_equal; unfold Rdiv; ring. }
  rewrite K by exact Hp. cbn [bind]. unfold ret. rewrite !Rplus_0_l. 
  assert (Hd' : rsum (map (fun e => snd e * / fst e) q) <> 0) by (intros E0; apply Hd; unfold wavg; rewrite E0; unfold Rdiv; ring).
  rewrite ediv_Fin by exact Hd'. do 2 f_equal. unfold wavg. field. split; assumption.
Qed.

(** Consequences for the means: the power-mean inequality, equal weights, bounds,
    the row loop, counterexamples. *)
From Coq Require Import ZArith Reals List Bool Lia Lra Permutation.
From Flocq Require Import Core BinarySingleNaN.
From Verif Require Import CSem CSemP FoldP Num NumP M_Means S_Stat S_Means P_Kbn P_MeanVar P_Vnorm P_Corr P_Soft P_Means P_MeansX P_Pmean.
Import ListNotations.
Open Scope R_scope.

Lemma Rpower_pos a p : 0 < Rpower a p.
Proof. apply exp_pos. Qed.
Lemma wavg_ext f g q : (forall e, In e q -> f (fst e) = g (fst e)) -> wavg f q = wavg g q.
Proof. intros H. unfold wavg. rewrite (rsum_ext2 _ (fun p => snd p * g (fst p)) q); [reflexivity|]. intros e He. rewrite H by exact He. reflexivity. Qed.
Lemma wavg_map f g q : wavg f (map (fun e => (g (fst e), snd e)) q) = wavg (fun a => f (g a)) q.
Proof. unfold wavg. rewrite !map_map. reflexivity. Qed.
Lemma wavg_scal f c q : wavg (fun a => c * f a) q = c * wavg f q.
Proof.
  unfold wavg. rewrite (rsum_ext2 _ (fun e => c * (snd e * f (fst e))) q) by (intros; ring). rewrite rsum_scal2. unfold Rdiv. ring.
Qed.

(** Bernoulli's inequality for real exponents *)
Lemma bernoulli u t : 0 < u -> 1 <= t -> 1 + t * (u - 1) <= Rpower u t.
Proof.
  intros Hu Ht.
  assert (K : u <= / t * Rpower u t + (1 - / t)).
  { assert (It : 0 < / t) by (apply Rinv_0_lt_compat; lra). assert (It1 : / t <= 1) by (rewrite <- Rinv_1; apply Rinv_le_contravar; lra).
    pose proof (gm_am [(Rpower u t, / t); (1, 1 - / t)]) as G. unfold wavg in G. cbn [map rsum fst snd] in G.
    assert (LR : ln (Rpower u t) = t * ln u) by (unfold Rpower; apply ln_exp). rewrite ln_1, LR in G.
    replace ((/ t * (t * ln u) + ((1 - / t) * 0 + 0)) / (/ t + (1 - / t + 0))) with (ln u) in G by (field; lra).
    rewrite exp_ln in G by exact Hu.
    replace ((/ t * Rpower u t + ((1 - / t) * 1 + 0)) / (/ t + (1 - / t + 0))) with (/ t * Rpower u t + (1 - / t)) in G by (field; lra).
    apply G; [|lra|].
    - intros p [<-|[<-|[]]]; cbn; lra.
    - intros p [<-|[<-|[]]]; cbn; [apply Rpower_pos|lra]. }
  apply (Rmult_le_compat_l t) in K; [|lra]. replace (t * (/ t * Rpower u t + (1 - / t))) with (Rpower u t + t - 1) in K by (field; lra). lra.
Qed.

Section PM.
  Context (q : list (R * R)) (Hw : forall e, In e q -> 0 <= snd e) (Sw : 0 < rsum (map snd q)) .
  Lemma jensen f t : 1 <= t -> (forall e, In e q -> 0 < f (fst e)) ->
    Rpower (wavg f q) t <= wavg (fun a => Rpower (f a) t) q.
  Proof.
    intros Ht Hf. pose proof (wavg_pos f q Hw Sw Hf) as Ap. set (A := wavg f q) in *.
    assert (K : Rpower A t * wavg (fun a => 1 + t * (f a / A - 1)) q <= wavg (fun a => Rpower (f a) t) q).
    { rewrite <- wavg_scal. unfold wavg. apply Rmult_le_compat_r; [left; apply Rinv_0_lt_compat, Sw|]. apply rsum_le2.
      intros e He. apply Rmult_le_compat_l; [apply Hw, He|]. pose proof (Hf e He) as P.
      replace (f (fst e)) with (A * (f (fst e) / A)) at 2 by (field; lra).
      assert (0 < f (fst e) / A) by (apply Rdiv_lt_0_compat; assumption).
      rewrite <- Rpower_mult_distr by assumption.
      apply Rmult_le_compat_l; [left; apply Rpower_pos|]. apply bernoulli; [assumption|exact Ht]. }
    assert (E : wavg (fun a => 1 + t * (f a / A - 1)) q = 1).
    { unfold wavg. rewrite (rsum_ext2 _ (fun e => (1 - t) * snd e + (t / A) * (snd e * f (fst e)))) by (intros e He; unfold Rdiv; ring).
      rewrite rsum_add2, !rsum_scal2.
      replace (rsum (map (fun e => snd e * f (fst e)) q)) with (A * rsum (map snd q)) by (unfold A, wavg; field; lra). field. lra. }
    rewrite E in K. lra.
  Qed.
  Lemma Rpower_le_l a b p : 0 < p -> 0 < a <= b -> Rpower a p <= Rpower b p.
  Proof. intros Hp H. apply Rle_Rpower_l; lra. Qed.
  Lemma gm_pm p : (forall e, In e q -> 0 < fst e) -> 0 < p -> exp (wavg ln q) <= Rpower (wavg (fun a => Rpower a p) q) (/ p).
  Proof.
    intros Hx Hp. assert (IP : 0 < / p) by (apply Rinv_0_lt_compat, Hp).
    pose proof (gm_am (map (fun e => (Rpower (fst e) p, snd e)) q)) as G.
    rewrite (wavg_map ln (fun a => Rpower a p)), (wavg_map (fun a => a) (fun a => Rpower a p)) in G. rewrite map_map in G. cbn [snd] in G.
    assert (K : exp (wavg (fun a => ln (Rpower a p)) q) <= wavg (fun a => Rpower a p) q).
    { apply G; [|exact Sw|].
      - intros e He. apply in_map_iff in He. destruct He as (e' & <- & He'). exact (Hw e' He').
      - intros e He. apply in_map_iff in He. destruct He as (e' & <- & He'). apply Rpower_pos. }
    rewrite (wavg_ext _ (fun a => p * ln a)) in K by (intros; unfold Rpower; apply ln_exp). rewrite wavg_scal in K.
    replace (exp (wavg ln q)) with (Rpower (exp (p * wavg ln q)) (/ p)).
    - apply Rpower_le_l; [exact IP|]. split; [apply exp_pos|exact K].
    - unfold Rpower. rewrite ln_exp. f_equal. field. lra.
  Qed.
  Lemma pm_mono_pos p r : (forall e, In e q -> 0 < fst e) -> 0 < p -> p <= r ->
    Rpower (wavg (fun a => Rpower a p) q) (/ p) <= Rpower (wavg (fun a => Rpower a r) q) (/ r).
  Proof.
    intros Hx Hp Hr. assert (Ap : 0 < wavg (fun a => Rpower a p) q) by (apply wavg_pos; [exact Hw|exact Sw|intros; apply Rpower_pos]).
    pose proof (jensen (fun a => Rpower a p) (r / p)) as J.
    assert (T1 : 1 <= r / p). { apply (Rmult_le_reg_r p); [exact Hp|]. unfold Rdiv. rewrite Rmult_assoc, Rinv_l by lra. lra. }
    specialize (J T1 ltac:(intros; apply Rpower_pos)).
    rewrite (wavg_ext (fun a => Rpower (Rpower a p) (r / p)) (fun a => Rpower a r)) in J
      by (intros; rewrite Rpower_mult; f_equal; field; lra).
    replace (Rpower (wavg (fun a => Rpower a p) q) (/ p)) with (Rpower (Rpower (wavg (fun a => Rpower a p) q) (r / p)) (/ r))
      by (rewrite Rpower_mult; f_equal; field; lra).
    apply Rpower_le_l; [apply Rinv_0_lt_compat; lra|]. split; [apply Rpower_pos|exact J].
  Qed.
End PM.

(** order -p of the data is the reciprocal of order p of the reciprocals *)
Lemma pm_recip q p : (forall e, In e q -> 0 < fst e) -> (forall e, In e q -> 0 <= snd e) -> 0 < rsum (map snd q) ->
  pm (- p) q = / pm p (map (fun e => (/ fst e, snd e)) q).
Proof.
  intros Hx Hw Sw. unfold pm. destruct (Req_EM_T p 0) as [->|Np].
  - destruct (Req_EM_T (- 0) 0) as [_|N]; [|exfalso; apply N; ring].
    rewrite (wavg_map ln Rinv). rewrite (wavg_ext (fun a => ln (/ a)) (fun a => (-1) * ln a)) by (intros e He; rewrite ln_Rinv by (apply Hx, He); ring).
    rewrite wavg_scal. rewrite <- exp_Ropp. f_equal. ring.
  - destruct (Req_EM_T (- p) 0) as [N|_]; [exfalso; apply Np; lra|].
    rewrite (wavg_map (fun a => Rpower a p) Rinv).
    rewrite (wavg_ext (fun a => Rpower (/ a) p) (fun a => Rpower a (- p))).
    + rewrite <- Rpower_Ropp. f_equal. field. exact Np.
    + intros e He. unfold Rpower. rewrite ln_Rinv by (apply Hx, He). f_equal. ring.
Qed.

Theorem pm_mono q p r : (forall e, In e q -> 0 < fst e) -> (forall e, In e q -> 0 <= snd e) -> 0 < rsum (map snd q) ->
  p <= r -> pm p q <= pm r q.
Proof.
  intros Hx Hw Sw Hr.
  assert (G : forall q p r, (forall e, In e q -> 0 < fst e) -> (forall e, In e q -> 0 <= snd e) -> 0 < rsum (map snd q) ->
    0 <= p -> p <= r -> 0 < pm p q /\ pm p q <= pm r q).
  { clear. intros q p r Hx Hw Sw Hp Hr. unfold pm. destruct (Req_EM_T p 0) as [->|Np].
    - split; [apply exp_pos|]. destruct (Req_EM_T r 0) as [_|Nr]; [lra|]. apply gm_pm; try assumption. lra.
    - split; [apply Rpower_pos|]. destruct (Req_EM_T r 0) as [->|_]; [exfalso; apply Np; lra|]. apply pm_mono_pos; try assumption. lra. }
  destruct (Rle_dec 0 p) as [P|P]; [apply G; assumption|].
  set (q' := map (fun e => (/ fst e, snd e)) q).
  assert (Hx' : forall e, In e q' -> 0 < fst e).
  { intros e He. apply in_map_iff in He. destruct He as (e' & <- & He'). cbn. apply Rinv_0_lt_compat, Hx, He'. }
  assert (Hw' : forall e, In e q' -> 0 <= snd e).
  { intros e He. apply in_map_iff in He. destruct He as (e' & <- & He'). cbn. apply Hw, He'. }
  assert (Sw' : 0 < rsum (map snd q')) by (unfold q'; rewrite map_map; exact Sw).
  assert (N : forall p r, p <= r -> r <= 0 -> pm p q <= pm r q).
  { clear p r Hr P. intros p r H1 H2. rewrite <- (Ropp_involutive p), <- (Ropp_involutive r).
    rewrite !(pm_recip q) by assumption. fold q'. destruct (G q' (- r) (- p) Hx' Hw' Sw' ltac:(lra) ltac:(lra)) as [G1 G2].
    apply Rinv_le_contravar; assumption. }
  destruct (Rle_dec r 0) as [Q|Q]; [apply N; assumption|].
  apply Rle_trans with (pm 0 q); [apply N; lra|apply G; try assumption; lra].
Qed.
Lemma pm_one q : (forall e, In e q -> 0 < fst e) -> (forall e, In e q -> 0 <= snd e) -> 0 < rsum (map snd q) ->
  pm 1 q = wavg (fun a => a) q.
Proof.
  intros Hx Hw Sw. unfold pm. destruct (Req_EM_T 1 0) as [K|_]; [lra|]. rewrite Rinv_1, Rpower_1.
  - apply wavg_ext. intros e He. apply Rpower_1, Hx, He.
  - apply wavg_pos; try assumption. intros; apply Rpower_pos.
Qed.
Lemma pm_m1 q : (forall e, In e q -> 0 < fst e) -> (forall e, In e q -> 0 <= snd e) -> 0 < rsum (map snd q) ->
  pm (-1) q = / wavg Rinv q.
Proof.
  intros Hx Hw Sw. unfold pm. destruct (Req_EM_T (-1) 0) as [K|_]; [lra|].
  assert (E : forall a, 0 < a -> Rpower a (-1) = / a).
  { intros a Ha. replace (-1) with (- (1)) by ring. rewrite Rpower_Ropp, Rpower_1 by exact Ha. reflexivity. }
  rewrite (wavg_ext _ Rinv) by (intros e He; apply E, Hx, He).
  replace (/ -1) with (-1) by lra. apply E. apply wavg_pos; try assumption. intros e He. apply Rinv_0_lt_compat, Hx, He.
Qed.

Lemma pm_rpow q p : p <> 0 -> (forall e, In e q -> 0 < fst e) -> (forall e, In e q -> 0 <= snd e) -> 0 < rsum (map snd q) ->
  rpow (wavg (fun a => rpow a p) q) (/ p) = pm p q.
Proof.
  intros Np Hx Hw Sw. unfold pm. destruct (Req_EM_T p 0) as [E|_]; [contradiction|].
  assert (W : wavg (fun a => rpow a p) q = wavg (fun a => Rpower a p) q).
  { apply wavg_ext. intros e He. apply rpow_pos. pose proof (Hx e He). lra. }
  rewrite W. apply rpow_pos. apply Rgt_not_eq. apply wavg_pos; try assumption. intros; apply Rpower_pos.
Qed.

(** ** the functions compute pm *)
Lemma ones_fst x e : In e (ones x) -> In (fst e) x.
Proof. unfold ones. intros He. apply in_map_iff in He. destruct He as (a & <- & Ha). exact Ha. Qed.
Lemma ones_snd x e : In e (ones x) -> 0 <= snd e.
Proof. unfold ones. intros He. apply in_map_iff in He. destruct He as (a & <- & _). cbn. lra. Qed.
Lemma ones_sum x : x <> [] -> 0 < rsum (map snd (ones x)).
Proof. intros H. rewrite ones_w. apply INR_len_pos, H. Qed.

Theorem gmean_pm mx px sx x : view mx px sx (map Fin x) -> x <> [] -> (forall a, In a x -> 0 < a) ->
  xgmean (Z.of_nat (length x)) mx px sx = Some (Fin (pm 0 (ones x))) /\ (pm 0 (ones x)) ^ (length x) = rprod x.
Proof.
  intros V Hn Hp. rewrite (gmean_exact mx px sx x V Hn Hp). unfold pm. destruct (Req_EM_T 0 0) as [_|K]; [|congruence].
  rewrite <- ravg_wavg. split; [reflexivity|apply gm_prod; assumption].
Qed.
Theorem hmean_pm mx px sx x : view mx px sx (map Fin x) -> x <> [] -> (forall a, In a x -> 0 < a) ->
  xhmean (Z.of_nat (length x)) mx px sx = Some (Fin (pm (-1) (ones x))) /\
  pm (-1) (ones x) = INR (length x) / rsum (map Rinv x).
Proof.
  intros V Hn Hp. pose proof (rinv_sum_pos x Hn Hp) as P. rewrite (hmean_exact mx px sx x V Hn); [| |lra].
  2: { intros a Ha. pose proof (Hp a Ha). lra. }
  rewrite pm_m1; [|intros e He; apply Hp, ones_fst, He|apply ones_snd|apply ones_sum, Hn].
  rewrite <- ravg_wavg. split; [reflexivity|]. unfold ravg. pose proof (INR_len_pos x Hn). field. split; lra.
Qed.
Theorem pmean_pm mx px sx x p : view mx px sx (map Fin x) -> x <> [] -> (forall a, In a x -> 0 < a) -> order_ok p ->
  xpmean (Z.of_nat (length x)) mx px sx (Fin p) = Some (Fin (pm p (ones x))).
Proof.
  intros V Hn Hp O. destruct (Req_dec p 0) as [->|N0]; [rewrite pmean_0; apply gmean_pm; assumption|].
  destruct O as [O|O]; [contradiction|].
  destruct (Req_dec p (-1)) as [->|N1]; [rewrite pmean_m1; apply hmean_pm; assumption|].
  rewrite (pmean_exact p O N1 mx px sx x V Hn); [|intros a Ha; left; apply Hp, Ha|intros _; exact Hp].
  rewrite ravg_wavg, pm_rpow; [reflexivity|exact N0|intros e He; apply Hp, ones_fst, He|apply ones_snd|apply ones_sum, Hn].
Qed.
Theorem gmeanw_pm mx px sx mw pw sw q : view mx px sx (map Fin (map fst q)) -> view mw pw sw (map Fin (map snd q)) ->
  (forall e, In e q -> 0 < fst e) -> rsum (map snd q) <> 0 ->
  xgmeanw (Z.of_nat (length q)) mx px sx mw pw sw = Some (Fin (pm 0 q)).
Proof.
  intros V W Hp Hs. rewrite (gmeanw_exact mx px sx mw pw sw q V W Hp Hs). unfold pm. destruct (Req_EM_T 0 0) as [_|K]; [reflexivity|congruence].
Qed.
Theorem hmeanw_pm mx px sx mw pw sw q : view mx px sx (map Fin (map fst q)) -> view mw pw sw (map Fin (map snd q)) ->
  (forall e, In e q -> 0 <= snd e) -> 0 < rsum (map snd q) -> (forall e, In e q -> 0 < fst e) ->
  xhmeanw (Z.of_nat (length q)) mx px sx mw pw sw = Some (Fin (pm (-1) q)).
Proof.
  intros V W Hw Sw Hp. rewrite pm_m1 by assumption.
  assert (0 < wavg Rinv q) by (apply wavg_pos; try assumption; intros e He; apply Rinv_0_lt_compat, Hp, He).
  apply hmeanw_exact; [exact V|exact W|intros e He; pose proof (Hp e He); lra|lra|lra].
Qed.
Theorem pmeanw_pm mx px sx mw pw sw q p : view mx px sx (map Fin (map fst q)) -> view mw pw sw (map Fin (map snd q)) ->
  (forall e, In e q -> 0 <= snd e) -> 0 < rsum (map snd q) -> (forall e, In e q -> 0 < fst e) -> order_ok p ->
  xpmeanw (Z.of_nat (length q)) mx px sx mw pw sw (Fin p) = Some (Fin (pm p q)).
Proof.
  intros V W Hw Sw Hp O. destruct (Req_dec p 0) as [->|N0]; [rewrite pmeanw_0; apply gmeanw_pm; try assumption; lra|].
  destruct O as [O|O]; [contradiction|].
  destruct (Req_dec p (-1)) as [->|N1]; [rewrite pmeanw_m1; apply hmeanw_pm; assumption|].
  rewrite (pmeanw_exact p O N1 mx px sx mw pw sw q V W Hw Sw); [|intros a Ha; left; apply Hp, Ha|intros _; exact Hp].
  rewrite pm_rpow by assumption. reflexivity.
Qed.

(** equal weights *)
Theorem pm_equal_weights x c p : 0 < c -> pm p (map (fun a => (a, c)) x) = pm p (ones x).
Proof.
  intros Hc. assert (E : forall f, wavg f (map (fun a => (a, c)) x) = wavg f (ones x)).
  { intros f. unfold wavg, ones. rewrite !map_map. cbn [fst snd]. rewrite (rsum_scal2 f c), !rsum_const.
    rewrite (rsum_ext2 (fun a => 1 * f a) f) by (intros; ring).
    destruct x as [|a x]; [cbn; unfold Rdiv; ring|]. pose proof (INR_len_pos (a :: x) ltac:(discriminate)). field. split; lra. }
  unfold pm. rewrite !E. reflexivity.
Qed.
(** between the bounds of the data *)
Theorem pm_between q p lo hi : (forall e, In e q -> 0 <= snd e) -> 0 < rsum (map snd q) -> 0 < lo ->
  (forall e, In e q -> lo <= fst e <= hi) -> lo <= pm p q <= hi.
Proof.
  intros Hw Sw Hlo H. destruct (Req_dec p 0) as [->|Np].
  - unfold pm. destruct (Req_EM_T 0 0) as [_|K]; [|congruence]. apply gm_bounds; assumption.
  - rewrite <- pm_rpow; [|exact Np|intros e He; destruct (H e He); lra|exact Hw|exact Sw].
    apply pm_bounds; try assumption. destruct (Rtotal_order p 0) as [K|[K|K]]; [right; lra|contradiction|left; lra].
Qed.
Lemma pm_perm p q q' : Permutation q q' -> pm p q = pm p q'.
Proof.
  intros P. assert (S : forall l l', Permutation l l' -> rsum l = rsum l') by (induction 1; cbn [rsum]; lra).
  assert (E : forall f, wavg f q = wavg f q').
  { intros f. unfold wavg. rewrite (S _ _ (Permutation_map (fun p => snd p * f (fst p)) P)), (S _ _ (Permutation_map snd P)). reflexivity. }
  unfold pm. rewrite !E. reflexivity.
Qed.
Lemma pm_homog p q c : 0 < c -> (forall e, In e q -> 0 <= snd e) -> 0 < rsum (map snd q) -> (forall e, In e q -> 0 < fst e) ->
  pm p (map (fun e => (c * fst e, snd e)) q) = c * pm p q.
Proof.
  intros Hc Hw Sw Hx. unfold pm. destruct (Req_EM_T p 0) as [_|Np].
  - rewrite (wavg_map ln (fun a => c * a)). transitivity (exp (ln c) * exp (wavg ln q)); [|rewrite exp_ln by exact Hc; reflexivity]. rewrite <- exp_plus. f_equal.
    unfold wavg. rewrite (rsum_ext2 _ (fun e => ln c * snd e + snd e * ln (fst e)) q).
    + rewrite rsum_add2, rsum_scal2. field. lra.
    + intros e He. rewrite ln_mult by (try exact Hc; apply Hx, He). ring.
  - rewrite (wavg_map (fun a => Rpower a p) (fun a => c * a)).
    rewrite (wavg_ext _ (fun a => Rpower c p * Rpower a p)) by (intros e He; symmetry; apply Rpower_mult_distr; [exact Hc|apply Hx, He]).
    rewrite wavg_scal, <- Rpower_mult_distr; [|apply Rpower_pos|apply wavg_pos; try assumption; intros; apply Rpower_pos].
    rewrite Rpower_mult, Rinv_r by exact Np. rewrite Rpower_1 by exact Hc. reflexivity.
Qed.

(** the approximation used for tiny nonzero p *)
Theorem pmean_small mx px sx x p : view mx px sx (map Fin x) -> x <> [] -> (forall a, In a x -> 0 < a) ->
  p <> 0 -> Rabs p < 2 / 1000000 ->
  xpmean (Z.of_nat (length x)) mx px sx (Fin p)
  = Some (Fin (pm 0 (ones x) * (1 + p / 2 * (ravg (fun a => ln a * ln a) x - ravg ln x * ravg ln x)))).
Proof.
  intros V Hn Hp Np Hs. unfold xpmean, pmean_row. cbn [earith a_cmp a_abs eabs a_ofZ]. rewrite isnanb_Fin.
  assert (E : ltb ecmp (Fin (Rabs p)) xthr = true) by (unfold xthr; apply ltb_Fin; exact Hs). rewrite E.
  destruct (gmean_pm mx px sx x V Hn Hp) as [G _]. unfold xgmean in G. rewrite G. cbn [bind]. rewrite eeq_zero by exact Np. cbn [negb].
  match goal with |- context [for_each 0 _ ?body _] =>
    pose proof (for_each_fold mx px sx (map Fin x) body
       (fun st t => (eadd (fst st) (elog t), eadd (snd st) (emul (elog t) (elog t)))) (Fin 0, Fin 0) V) as FE end.
  rewrite map_length in FE.
  rewrite FE by (intros k [s1 s2] t _ Hg; rewrite Hg; reflexivity). clear FE.
  assert (F : forall l s1 s2, (forall a, In a l -> 0 < a) ->
     fold_left (fun (st : ER * ER) t => (eadd (fst st) (elog t), eadd (snd st) (emul (elog t) (elog t)))) (map Fin l) (Fin s1, Fin s2)
     = (Fin (s1 + rsum (map ln l)), Fin (s2 + rsum (map (fun a => ln a * ln a) l)))).
  { induction l as [|a l IH]; intros s1 s2 Hl; cbn [map fold_left rsum fst snd]; [rewrite !Rplus_0_r; reflexivity|].
    rewrite elog_Fin by (apply Hl; left; reflexivity). cbn [eadd emul]. rewrite IH by (intros b Hb; apply Hl; right; exact Hb).
    rewrite !Rplus_assoc. reflexivity. }
  rewrite F by exact Hp. rewrite !Rplus_0_l. cbn [bind]. unfold p_small, ret. cbn [earith a_div a_sub a_mul a_add a_ofZ].
  rewrite IZR_len. pose proof (INR_len_pos x Hn). rewrite !ediv_Fin by lra. cbn [emul esub eopp eadd]. f_equal. f_equal. unfold ravg. field. lra.
Qed.

(** ** the row loop *)
Theorem means_loop_rows {T} (row : Z -> M T) (vals : list T) n mo po so : n <> 0%Z ->
  writable mo po so (length vals) ->
  (forall i v, nth_error vals i = Some v -> row (Z.of_nat i) = Some v) ->
  exists mo', means_loop row (Z.of_nat (length vals)) n mo po so = Some (inr mo') /\ wrote mo mo' po so vals.
Proof.
  intros Hn W H. unfold means_loop. destruct (Z.eqb_spec n 0) as [E|_]; [contradiction|].
  rewrite (for_each_write mo po so vals); [|apply W|intros k v m Hk; rewrite (H k v Hk); reflexivity].
  eexists. split; [reflexivity|]. apply upds_wrote, W.
Qed.

(** ** counterexamples *)
Lemma hmean_negative_refuted : exists mx px sx (x : list R), view mx px sx (map Fin x) /\ (forall a, In a x -> a < 0) /\
  xpmean (Z.of_nat (length x)) mx px sx (Fin (-1)) = Some (Fin (-2)) /\
  xpmean (Z.of_nat (length x)) mx px sx (Fin (-2)) = Some ENaN.
Proof.
  exists (mem_of 0 8 [Fin (-2)]), 0%Z, 8%Z, [-2].
  assert (V : view (mem_of 0 8 [Fin (-2)]) 0 8 (map Fin [-2])) by (apply view_mem_of; lia).
  split; [exact V|]. split; [intros a [<-|[]]; lra|]. split.
  - rewrite pmean_m1. rewrite (hmean_exact _ _ _ [-2] V ltac:(discriminate)).
    + unfold ravg. cbn [map rsum length INR]. do 2 f_equal. field.
    + intros a [<-|[]]; lra.
    + cbn [map rsum]. lra.
  - refine (pmean_bad (-2) _ _ _ _ _ (map Fin [-2]) V _); [rewrite Rabs_left; lra|lra|]. exists (Fin (-2)). split; [left; reflexivity|right; apply ltb_Fin; lra].
Qed.
Lemma gmean_neginf_refuted : exists mx px sx, view mx px sx [NInf; Fin 1] /\ xgmean 2 mx px sx = Some PInf.
Proof.
  exists (mem_of 0 8 [NInf; Fin 1]), 0%Z, 8%Z. assert (V : view (mem_of 0 8 [NInf; Fin 1]) 0 8 [NInf; Fin 1]) by (apply view_mem_of; lia).
  split; [exact V|]. unfold xgmean. pose proof (gmean_special earith etransc _ _ _ _ V) as G. cbn [length] in G. change (Z.of_nat 2) with 2%Z in G.
  rewrite G; clear G.
  - cbn [existsb]. unfold gzero. cbn [earith a_isinf eisinf negb andb orb a_cmp a_ofZ]. rewrite eeq_zero by lra. reflexivity.
  - intros v [<-|[<-|[]]]; [reflexivity|]. apply fin_good. lra.
Qed.
Lemma gmeanw_zero_weights_refuted : exists mx mw, view mx 0 8 [Fin 3; Fin 3] /\ view mw 0 8 [Fin 0; Fin 0] /\
  xgmeanw 2 mx 0 8 mw 0 8 = Some (Fin 3).
Proof.
  exists (mem_of 0 8 [Fin 3; Fin 3]), (mem_of 0 8 [Fin 0; Fin 0]).
  assert (V : view (mem_of 0 8 [Fin 3; Fin 3]) 0 8 [Fin 3; Fin 3]) by (apply view_mem_of; lia).
  assert (W : view (mem_of 0 8 [Fin 0; Fin 0]) 0 8 [Fin 0; Fin 0]) by (apply view_mem_of; lia).
  split; [exact V|]. split; [exact W|].
  destruct (gmeanw_run _ 0 8 _ 0 8 [(3, 0); (3, 0)] V W ltac:(discriminate)) as (same & c & E & E2 & E3).
  { intros e [<-|[<-|[]]]; cbn; lra. }
  change (Z.of_nat (length [(3, 0); (3, 0)])) with 2%Z in E. rewrite E.
  assert (S : same = true) by (apply E2; exists 3; intros e [<-|[<-|[]]]; reflexivity). rewrite S.
  f_equal. f_equal. symmetry. apply (E3 S (3, 0)). left. reflexivity.
Qed.
Lemma pmean_small_zero_refuted : exists mx, view mx 0 8 [Fin 0; Fin 1] /\
  xpmean 2 mx 0 8 (Fin (1 / 1000000)) = Some ENaN.
Proof.
  exists (mem_of 0 8 [Fin 0; Fin 1]). assert (V : view (mem_of 0 8 [Fin 0; Fin 1]) 0 8 [Fin 0; Fin 1]) by (apply view_mem_of; lia).
  split; [exact V|]. unfold xpmean, pmean_row. cbn [earith a_cmp a_abs eabs a_ofZ]. rewrite isnanb_Fin.
  assert (E : ltb ecmp (Fin (Rabs (1 / 1000000))) xthr = true) by (unfold xthr; apply ltb_Fin; rewrite Rabs_right; lra). rewrite E.
  pose proof (gmean_special earith etransc _ _ _ _ V) as G. cbn [length] in G. change (Z.of_nat 2) with 2%Z in G. rewrite G; clear G.
  2: { intros v [<-|[<-|[]]]; apply fin_good; lra. }
  cbn [existsb]. unfold gzero. cbn [earith a_isinf eisinf negb andb orb a_cmp a_ofZ].
  assert (Z0 : eqb ecmp (Fin 0) (Fin 0) = true) by (apply eqb_Fin; reflexivity). rewrite Z0. cbn [orb].
  cbn [bind]. rewrite eeq_zero by lra. cbn [negb].
  change 2%Z with (Z.of_nat (length [Fin 0; Fin 1])) at 1.
  rewrite (for_each_fold _ 0 8 _ _ (fun (st : ER * ER) t => (eadd (fst st) (elog t), eadd (snd st) (emul (elog t) (elog t)))) _ V)
    by (intros k [s1 s2] t _ Hg; rewrite Hg; reflexivity).
  cbn [fold_left fst snd]. unfold elog. rewrite (Rcompare_Eq 0 0 eq_refl), (Rcompare_Gt 1 0) by lra.
  cbn [emul eadd bind]. unfold ret, p_small. cbn [earith a_div ediv]. rewrite (Rcompare_Gt 2 0) by lra. cbn. reflexivity.
Qed.

(** ** special values of gmean, in any arithmetic *)
Section GSpec.
  Context {T : Type} (A : arith T) (TR : transc T).
  Lemma ex_b (f : T -> bool) x : (exists v, In v x /\ f v = true) -> existsb f x = true.
  Proof. intros H. apply existsb_exists. exact H. Qed.
  Lemma all_b (f : T -> bool) x : (forall v, In v x -> f v = false) -> existsb f x = false.
  Proof.
    intros H. destruct (existsb f x) eqn:E; [|reflexivity]. apply existsb_exists in E. destruct E as (v & Hv & E). rewrite (H v Hv) in E. discriminate.
  Qed.
  Theorem gmean_zero_inf mx px sx x : view mx px sx x -> (forall v, In v x -> gbad A v = false) ->
    (exists v, In v x /\ a_isinf A v = true) -> (exists v, In v x /\ a_isinf A v = false /\ eqb (a_cmp A) v (a_ofZ A 0) = true) ->
    gmean_1d A TR (Z.of_nat (length x)) mx px sx = Some (a_nan A).
  Proof.
    intros V B I (z & Hz & Z1 & Z2). rewrite (gmean_special A TR mx px sx x V B). rewrite (ex_b (a_isinf A) x I).
    rewrite (ex_b (gzero A) x); [reflexivity|]. exists z. split; [exact Hz|]. unfold gzero. rewrite Z1, Z2. reflexivity.
  Qed.
  Theorem gmean_inf mx px sx x : view mx px sx x -> (forall v, In v x -> gbad A v = false) ->
    (exists v, In v x /\ a_isinf A v = true) -> (forall v, In v x -> eqb (a_cmp A) v (a_ofZ A 0) = false) ->
    gmean_1d A TR (Z.of_nat (length x)) mx px sx = Some (a_inf A).
  Proof.
    intros V B I Z. rewrite (gmean_special A TR mx px sx x V B). rewrite (ex_b (a_isinf A) x I).
    rewrite (all_b (gzero A) x); [reflexivity|]. intros v Hv. unfold gzero. rewrite (Z v Hv). apply andb_false_r.
  Qed.
  Theorem gmean_zero mx px sx x : view mx px sx x -> (forall v, In v x -> gbad A v = false) ->
    (forall v, In v x -> a_isinf A v = false) -> (exists v, In v x /\ eqb (a_cmp A) v (a_ofZ A 0) = true) ->
    gmean_1d A TR (Z.of_nat (length x)) mx px sx = Some (a_ofZ A 0).
  Proof.
    intros V B I (z & Hz & Z). rewrite (gmean_special A TR mx px sx x V B). rewrite (all_b (a_isinf A) x I).
    rewrite (ex_b (gzero A) x); [reflexivity|]. exists z. split; [exact Hz|]. unfold gzero. rewrite Z, (I z Hz). reflexivity.
  Qed.
End GSpec.

(** bounds and inequality for the computed values *)
Theorem means_ordered mx px sx x p r : view mx px sx (map Fin x) -> x <> [] -> (forall a, In a x -> 0 < a) ->
  order_ok p -> order_ok r -> p <= r ->
  exists u v, xpmean (Z.of_nat (length x)) mx px sx (Fin p) = Some (Fin u) /\
    xpmean (Z.of_nat (length x)) mx px sx (Fin r) = Some (Fin v) /\ u <= v /\
    forall lo hi, (forall a, In a x -> lo <= a <= hi) -> lo <= u /\ v <= hi.
Proof.
  intros V Hn Hp O1 O2 Hr. exists (pm p (ones x)), (pm r (ones x)).
  split; [apply pmean_pm; assumption|]. split; [apply pmean_pm; assumption|].
  split; [apply pm_mono; [intros e He; apply Hp, ones_fst, He|apply ones_snd|apply ones_sum, Hn|exact Hr]|].
  intros lo hi H.
  assert (K : forall s, lo <= pm s (ones x) <= hi).
  { intros s. destruct (Rlt_dec 0 lo) as [L|L].
    - apply pm_between; [apply ones_snd|apply ones_sum, Hn|exact L|intros e He; apply H, ones_fst, He].
    - assert (M : exists l, 0 < l /\ forall a, In a x -> l <= a <= hi).
      { clear - Hn Hp H. induction x as [|a x IH]; [congruence|]. destruct x as [|b x].
        - exists a. split; [apply Hp; left; reflexivity|]. intros c [<-|[]]. pose proof (H a (or_introl eq_refl)). lra.
        - destruct IH as (l & L1 & L2); [discriminate|intros c Hc; apply Hp; right; exact Hc|intros c Hc; apply H; right; exact Hc|].
          exists (Rmin l a). pose proof (Hp a (or_introl eq_refl)). split; [apply Rmin_glb_lt; lra|].
          intros c [<-|Hc]; [split; [apply Rmin_r|apply (H a); left; reflexivity]|].
          pose proof (L2 c Hc). pose proof (Rmin_l l a). lra. }
      destruct M as (l & L1 & L2).
      destruct (pm_between (ones x) s l hi) as [B1 B2]; [apply ones_snd|apply ones_sum, Hn|exact L1|intros e He; apply L2, ones_fst, He|]. lra. }
  split; apply K.
Qed.
(** constant weights give the unweighted mean *)
Theorem pmeanw_equal_weights mx px sx mw pw sw x c p : view mx px sx (map Fin x) -> view mw pw sw (map (fun _ => Fin c) x) ->
  x <> [] -> (forall a, In a x -> 0 < a) -> 0 < c -> order_ok p ->
  xpmeanw (Z.of_nat (length x)) mx px sx mw pw sw (Fin p) = xpmean (Z.of_nat (length x)) mx px sx (Fin p).
Proof.
  intros V W Hn Hp Hc O. set (q := map (fun a => (a, c)) x).
  pose proof (pmeanw_pm mx px sx mw pw sw q p) as P.
  unfold q in P. rewrite !map_map, map_length in P. cbn [fst snd] in P.
  rewrite P; [rewrite pm_equal_weights by exact Hc; symmetry; apply pmean_pm; assumption|exact V|exact W| | | |exact O].
  - intros e He. apply in_map_iff in He. destruct He as (a & <- & _). cbn. lra.
  - rewrite rsum_const. pose proof (INR_len_pos x Hn). nra.
  - intros e He. apply in_map_iff in He. destruct He as (a & <- & Ha). apply Hp, Ha.
Qed.
Theorem pmean_one mx px sx x : view mx px sx (map Fin x) -> x <> [] -> (forall a, In a x -> 0 < a) ->
  xpmean (Z.of_nat (length x)) mx px sx (Fin 1) = Some (Fin (rmean x)).
Proof.
  intros V Hn Hp. rewrite (pmean_pm mx px sx x 1 V Hn Hp) by (right; rewrite Rabs_R1; lra).
  rewrite pm_one; [|intros e He; apply Hp, ones_fst, He|apply ones_snd|apply ones_sum, Hn].
  rewrite <- ravg_wavg. unfold ravg, rmean. rewrite map_id. reflexivity.
Qed.

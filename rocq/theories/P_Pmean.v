(** The power mean. *)
From Coq Require Import ZArith Reals List Bool Lia Lra Permutation.
From Flocq Require Import Core BinarySingleNaN.
From Verif Require Import CSem CSemP FoldP Num NumP M_Means S_Stat S_Means P_Kbn P_MeanVar P_Vnorm P_Corr P_Means P_MeansX.
Import ListNotations.
Open Scope R_scope.

(** ** any arithmetic: a NaN or a negative value is detected by the scan *)
Section PAny.
  Context {T : Type} (A : arith T) (L : cmp_laws (a_cmp A)).
  Notation zero := (a_ofZ A 0).
  Lemma p_step_bad k x st : isnanb (a_cmp A) x = true \/ ltb (a_cmp A) x zero = true ->
    exists st', p_step A k x st = Brk st' /\ (let '(z, ng, nn, inf, _, _) := st' in ng || nn) = true.
  Proof.
    destruct st as [[[[[z ng] nn] inf] xmax] xmin]. unfold p_step. intros H.
    destruct (isnanb (a_cmp A) x); [eexists; split; [reflexivity|]; apply orb_true_r|].
    destruct H as [H|H]; [discriminate|]. rewrite H. eexists. split; reflexivity.
  Qed.
  Lemma p_scan_bad mx px sx x : view mx px sx x -> (exists v, In v x /\ (isnanb (a_cmp A) v = true \/ ltb (a_cmp A) v zero = true)) ->
    exists st, p_scan A (Z.of_nat (length x)) mx px sx = Some st /\ (let '(z, ng, nn, inf, _, _) := st in ng || nn) = true.
  Proof.
    intros V (v & Hv & B). unfold p_scan.
    rewrite (for_loop_view mx px sx x _ (fun k x st => Some (p_step A k x st)) _ V) by (intros k st t Hk Hg; rewrite Hg; reflexivity).
    assert (K : forall l k st, In v l -> exists st', lloop k l (fun k x st => Some (p_step A k x st)) st = Some (inl st') /\
       (let '(z, ng, nn, inf, _, _) := st' in ng || nn) = true).
    { induction l as [|t l IH]; intros k st Hl; [destruct Hl|]. cbn [lloop].
      destruct (isnanb (a_cmp A) t) eqn:N; [|destruct (ltb (a_cmp A) t zero) eqn:Lt].
      - destruct (p_step_bad k t st (or_introl N)) as (st' & -> & F). eexists. split; [reflexivity|exact F].
      - destruct (p_step_bad k t st (or_intror Lt)) as (st' & -> & F). eexists. split; [reflexivity|exact F].
      - assert (P : exists st', p_step A k t st = Next st').
        { destruct st as [[[[[z ng] nn] inf] xmax] xmin]. unfold p_step. rewrite N, Lt. eexists. reflexivity. }
        destruct P as (st' & ->). apply IH. destruct Hl as [->|Hl]; [|exact Hl]. exfalso. destruct B; congruence. }
    destruct (K x 0%Z (false, false, false, false, zero, zero) Hv) as (st' & -> & F). exists st'. split; [reflexivity|exact F].
  Qed.
  Lemma p_cases_bad p st rest : (let '(z, ng, nn, inf, _, _) := st in ng || nn) = true -> p_cases A p st rest = Some (a_nan A).
  Proof. destruct st as [[[[[z ng] nn] inf] xmax] xmin]. unfold p_cases. intros ->. reflexivity. Qed.
End PAny.

(** ** exact arithmetic *)
Lemma epow_Fin a p : (0 < a /\ p <> 0) \/ (0 <= a /\ 0 < p) -> epow (Fin a) (Fin p) = Fin (rpow a p).
Proof.
  intros H. unfold epow. destruct (Rcompare_spec p 0) as [P|P|P]; [|lra|].
  - assert (0 < a) by lra. rewrite (Rcompare_Gt a 0), rpow_pos by lra. reflexivity.
  - destruct (Req_dec a 0) as [->|Na]; [rewrite (Rcompare_Eq 0 0 eq_refl), rpow_0; reflexivity|].
    rewrite (Rcompare_Gt a 0), rpow_pos by lra. reflexivity.
Qed.

Definition is_max (m : R) (l : list R) := In m l /\ forall a, In a l -> a <= m.
Definition is_min (m : R) (l : list R) := In m l /\ forall a, In a l -> m <= a.

Definition has0 (l : list R) : bool := existsb (fun a => eqb ecmp (Fin a) (Fin 0)) l.
Lemma has0_spec l : has0 l = true <-> In 0 l.
Proof.
  unfold has0. rewrite existsb_exists. split.
  - intros (a & Ha & E). apply eqb_Fin in E. subst a. exact Ha.
  - intros H. exists 0. split; [exact H|]. apply eqb_Fin. reflexivity.
Qed.
Lemma p_scan_pos mx px sx x : view mx px sx (map Fin x) -> x <> [] -> (forall a, In a x -> 0 <= a) ->
  exists M m, p_scan earith (Z.of_nat (length x)) mx px sx = Some (has0 x, false, false, false, Fin M, Fin m) /\ is_max M x /\ is_min m x.
Proof.
  intros V Hn Hp. unfold p_scan.
  pose proof (for_loop_view mx px sx (map Fin x) (fun k st => x <- get mx px sx k ;; ret (p_step earith k x st))
    (fun k x st => Some (p_step earith k x st)) (false, false, false, false, Fin 0, Fin 0) V) as FL.
  rewrite map_length in FL. change (a_ofZ earith 0) with (Fin 0). rewrite FL by (intros k st t Hk Hg; rewrite Hg; reflexivity). clear FL.
  assert (St : forall k a z M m, 0 <= a -> p_step earith k (Fin a) (z, false, false, false, Fin M, Fin m)
     = Next (if eqb ecmp (Fin a) (Fin 0) then true else z, false, false, false, 
         Fin (if (k =? 0)%Z || gtb ecmp (Fin a) (Fin M) then a else M), Fin (if (k =? 0)%Z || ltb ecmp (Fin a) (Fin m) then a else m))).
  { intros k a z M m Ha. unfold p_step. cbn [earith a_cmp a_isinf eisinf a_ofZ]. rewrite isnanb_Fin.
    assert (N : ltb ecmp (Fin a) (Fin 0) = false) by (apply ltb_Fin_false; exact Ha). rewrite N.
    destruct ((k =? 0)%Z || gtb ecmp (Fin a) (Fin M)), ((k =? 0)%Z || ltb ecmp (Fin a) (Fin m)); reflexivity. }
  assert (K : forall l k z M m pre, (0 < k)%Z -> (forall a, In a l -> 0 <= a) -> is_max M pre -> is_min m pre ->
    exists M' m', lloop k (map Fin l) (fun k x st => Some (p_step earith k x st)) (z, false, false, false, Fin M, Fin m)
      = Some (inl (z || has0 l, false, false, false, Fin M', Fin m')) /\ is_max M' (pre ++ l) /\ is_min m' (pre ++ l)).
  { induction l as [|a l IH]; intros k z M m pre Hk Hl HM Hm; cbn [map lloop].
    - exists M, m. rewrite app_nil_r. unfold has0. cbn [existsb]. rewrite orb_false_r. repeat split; try apply HM; try apply Hm.
    - rewrite St by (apply Hl; left; reflexivity). destruct (Z.eqb_spec k 0) as [->|_]; [lia|]. cbn [orb].
      set (M1 := if gtb ecmp (Fin a) (Fin M) then a else M). set (m1 := if ltb ecmp (Fin a) (Fin m) then a else m).
      assert (HM1 : is_max M1 (pre ++ [a])).
      { unfold M1. destruct HM as [I1 I2]. destruct (gtb ecmp (Fin a) (Fin M)) eqn:G.
        - apply gtb_Fin in G. split; [apply in_or_app; right; left; reflexivity|]. intros b Hb. apply in_app_or in Hb.
          destruct Hb as [Hb|[<-|[]]]; [pose proof (I2 b Hb); lra|lra].
        - apply gtb_Fin_false in G. split; [apply in_or_app; left; exact I1|]. intros b Hb. apply in_app_or in Hb.
          destruct Hb as [Hb|[<-|[]]]; [apply I2, Hb|exact G]. }
      assert (Hm1 : is_min m1 (pre ++ [a])).
      { unfold m1. destruct Hm as [I1 I2]. destruct (ltb ecmp (Fin a) (Fin m)) eqn:G.
        - apply ltb_Fin in G. split; [apply in_or_app; right; left; reflexivity|]. intros b Hb. apply in_app_or in Hb.
          destruct Hb as [Hb|[<-|[]]]; [pose proof (I2 b Hb); lra|lra].
        - apply ltb_Fin_false in G. split; [apply in_or_app; left; exact I1|]. intros b Hb. apply in_app_or in Hb.
          destruct Hb as [Hb|[<-|[]]]; [apply I2, Hb|exact G]. }
      edestruct (IH (k + 1)%Z (if eqb ecmp (Fin a) (Fin 0) then true else z) M1 m1 (pre ++ [a])) as (M' & m' & E1 & E2 & E3);
        [lia|intros b Hb; apply Hl; right; exact Hb|exact HM1|exact Hm1|].
      exists M', m'. rewrite E1. rewrite <- app_assoc in E2, E3. split; [|split; assumption].
      unfold has0. cbn [existsb]. destruct (eqb ecmp (Fin a) (Fin 0)); [rewrite orb_true_r; reflexivity|reflexivity]. }
  destruct x as [|a x]; [congruence|]. cbn [map lloop]. rewrite St by (apply Hp; left; reflexivity). cbn [Z.eqb orb].
  edestruct (K x (0 + 1)%Z (if eqb ecmp (Fin a) (Fin 0) then true else false) a a [a]) as (M' & m' & E1 & E2 & E3);
    [lia|intros b Hb; apply Hp; right; exact Hb|split; [left; reflexivity|intros b [<-|[]]; lra]|split; [left; reflexivity|intros b [<-|[]]; lra]|].
  exists M', m'. rewrite E1. split; [|split; assumption].
  unfold has0. cbn [existsb]. destruct (eqb ecmp (Fin a) (Fin 0)); reflexivity.
Qed.

(** scaling inside the power mean *)
Lemma pm_scale q p c : 0 < c -> p <> 0 -> (forall e, In e q -> 0 <= fst e) -> 0 <= wavg (fun a => rpow a p) q ->
  c * rpow (wavg (fun a => rpow (a / c) p) q) (/ p) = rpow (wavg (fun a => rpow a p) q) (/ p).
Proof.
  intros Hc Hp H Hw.
  assert (E : wavg (fun a => rpow (a / c) p) q = rpow (/ c) p * wavg (fun a => rpow a p) q).
  { unfold wavg. rewrite (rsum_ext2 _ (fun e => rpow (/ c) p * (snd e * rpow (fst e) p))).
    - rewrite rsum_scal2. unfold Rdiv. ring.
    - intros e He. unfold Rdiv. rewrite rpow_mult by (try (left; apply Rinv_0_lt_compat, Hc); apply H, He). ring. }
  rewrite E. rewrite rpow_mult by (try apply rpow_nonneg; exact Hw).
  rewrite rpow_inv by (try (left; apply Rinv_0_lt_compat, Hc); exact Hp). field. lra.
Qed.
Lemma wavg_nonneg f q : (forall p, In p q -> 0 <= snd p) -> 0 < rsum (map snd q) -> (forall p, In p q -> 0 <= f (fst p)) -> 0 <= wavg f q.
Proof.
  intros Hw Sw H. unfold wavg. apply Rmult_le_pos; [|left; apply Rinv_0_lt_compat, Sw]. apply rsum_nonneg.
  intros b Hb. apply in_map_iff in Hb. destruct Hb as (e & <- & He). pose proof (Hw e He). pose proof (H e He). nra.
Qed.

Section X.
  Context (p : R) (Hthr : 2 / 1000000 <= Rabs p) (Hm1 : p <> -1).
  Lemma p_nz : p <> 0.
  Proof. clear Hm1. intros ->. rewrite Rabs_R0 in Hthr. lra. Qed.
  Lemma p_pn : ~ p < 0 -> 0 < p.
  Proof. intros H. destruct (Rtotal_order p 0) as [K|[K|K]]; [contradiction|pose proof p_nz; contradiction|exact K]. Qed.
  Lemma thr_f : ltb ecmp (eabs (Fin p)) xthr = false.
  Proof. cbn [eabs]. unfold xthr. apply ltb_Fin_false. exact Hthr. Qed.
  Lemma m1_f : eqb ecmp (Fin p) (Fin (-1)) = false.
  Proof. apply eqb_Fin_false. exact Hm1. Qed.

  Lemma xpmean_unfold n mx px sx : xpmean n mx px sx (Fin p) = bind (p_scan earith n mx px sx) (fun s =>
      p_cases earith (Fin p) s (fun xmax xmin =>
        let scale := if gtb ecmp (Fin p) (Fin 0) then xmax else xmin in
        sum <- for_each 0 n (fun k sum => x <- get mx px sx k ;; ret (eadd sum (epow (ediv x scale) (Fin p)))) (Fin 0) ;;
        ret (emul scale (epow (ediv sum (Fin (IZR n))) (ediv (Fin 1) (Fin p)))))).
  Proof.
    unfold xpmean, pmean_row. cbn [earith a_cmp a_abs a_ofZ a_add a_div a_mul]. rewrite isnanb_Fin.
    rewrite thr_f, m1_f. reflexivity.
  Qed.
  Lemma xpmeanw_unfold n mx px sx mw pw sw : xpmeanw n mx px sx mw pw sw (Fin p) = bind (p_scan earith n mx px sx) (fun s =>
      p_cases earith (Fin p) s (fun xmax xmin =>
        let scale := if gtb ecmp (Fin p) (Fin 0) then xmax else xmin in
        '(sumw, sum) <- for_each 0 n (fun k st => let '(sumw, sum) := st in
          x <- get mx px sx k ;; w <- get mw pw sw k ;; ret (eadd sumw w, eadd sum (emul w (epow (ediv x scale) (Fin p))))) (Fin 0, Fin 0) ;;
        ret (emul scale (epow (ediv sum sumw) (ediv (Fin 1) (Fin p)))))).
  Proof.
    unfold xpmeanw, pmeanw_row. cbn [earith a_cmp a_abs a_ofZ a_add a_div a_mul]. rewrite isnanb_Fin.
    rewrite thr_f, m1_f. reflexivity.
  Qed.

  (** negative or NaN data *)
  Lemma pmean_bad mx px sx x : view mx px sx x -> (exists v, In v x /\ (isnanb ecmp v = true \/ ltb ecmp v (Fin 0) = true)) ->
    xpmean (Z.of_nat (length x)) mx px sx (Fin p) = Some ENaN.
  Proof.
    intros V B. rewrite xpmean_unfold. destruct (p_scan_bad earith mx px sx x V B) as (st & -> & F). cbn [bind].
    apply p_cases_bad. exact F.
  Qed.

  (** p < 0 with a zero among the data *)
  Lemma pmean_zero mx px sx x : view mx px sx (map Fin x) -> (forall a, In a x -> 0 <= a) -> In 0 x -> p < 0 ->
    xpmean (Z.of_nat (length x)) mx px sx (Fin p) = Some (Fin 0).
  Proof.
    intros V Hp H0 Np. assert (Hn : x <> []) by (intros ->; destruct H0).
    rewrite xpmean_unfold. destruct (p_scan_pos mx px sx x V Hn Hp) as (M & m & -> & HM & Hm). cbn [bind].
    unfold p_cases. cbn [orb andb earith a_cmp a_ofZ]. apply has0_spec in H0. rewrite H0.
    assert (Lt : ltb ecmp (Fin p) (Fin 0) = true) by (apply ltb_Fin; exact Np). rewrite Lt. cbn [andb].
    destruct (eqb ecmp (Fin M) (Fin m)) eqn:E; [|reflexivity]. apply eqb_Fin in E. apply has0_spec in H0.
    unfold ret. f_equal. f_equal. destruct HM as [_ HM], Hm as [_ Hm]. pose proof (HM 0 H0). pose proof (Hm 0 H0). lra.
  Qed.

  Section Main.
    Context (x : list R) (Hn : x <> []) (Hp : forall a, In a x -> 0 <= a) (Hneg : p < 0 -> forall a, In a x -> 0 < a).
    Lemma p_cases_main M m rest : is_max M x -> is_min m x ->
      (M = m -> p_cases earith (Fin p) (has0 x, false, false, false, Fin M, Fin m) rest = Some (Fin M)) /\
      (M <> m -> let c := if gtb ecmp (Fin p) (Fin 0) then M else m in 0 < c /\
         p_cases earith (Fin p) (has0 x, false, false, false, Fin M, Fin m) rest = rest (Fin M) (Fin m)).
    Proof.
      intros HM Hm. unfold p_cases. cbn [orb andb earith a_cmp a_ofZ a_isinf eisinf]. split.
      - intros ->. assert (E : eqb ecmp (Fin m) (Fin m) = true) by (apply eqb_Fin; reflexivity). rewrite E. reflexivity.
      - intros Ne. assert (E : eqb ecmp (Fin M) (Fin m) = false) by (apply eqb_Fin_false; exact Ne). rewrite E.
        destruct HM as [I1 I2], Hm as [J1 J2]. pose proof p_nz as NZ. pose proof (J2 M I1) as LE.
        assert (m < M) by (destruct LE as [LE|LE]; [exact LE|congruence]).
        assert (Z : has0 x && ltb ecmp (Fin p) (Fin 0) = false).
        { destruct (has0 x) eqn:H0; [|reflexivity]. cbn [andb]. apply ltb_Fin_false. apply has0_spec in H0.
          destruct (Rlt_dec p 0) as [Lt|]; [|lra]. pose proof (Hneg Lt 0 H0). lra. }
        rewrite Z. split; [|reflexivity].
        destruct (gtb ecmp (Fin p) (Fin 0)) eqn:G; [pose proof (Hp m J1); lra|]. apply gtb_Fin_false in G. apply Hneg; [destruct G as [G|G]; [exact G|contradiction]|exact J1].
    Qed.
    Lemma scale_elt M m a : is_max M x -> is_min m x -> M <> m -> In a x ->
      let c := if gtb ecmp (Fin p) (Fin 0) then M else m in epow (ediv (Fin a) (Fin c)) (Fin p) = Fin (rpow (a / c) p).
    Proof.
      intros HM Hm Ne Ha c. destruct (p_cases_main M m (fun _ _ => None) HM Hm) as [_ K]. destruct (K Ne) as [Pc _]. fold c in Pc.
      rewrite ediv_Fin by lra. apply epow_Fin. pose proof p_nz. assert (0 < / c) by (apply Rinv_0_lt_compat, Pc).
      destruct (Rlt_dec p 0) as [Lt|Lt]; [left|right; apply p_pn in Lt].
      - split; [|lra]. pose proof (Hneg Lt a Ha). unfold Rdiv. nra.
      - split; [|exact Lt]. pose proof (Hp a Ha). unfold Rdiv. nra.
    Qed.

    Lemma final_pow c s : 0 <= s -> (p < 0 -> 0 < s) -> emul (Fin c) (epow (Fin s) (ediv (Fin 1) (Fin p))) = Fin (c * rpow s (/ p)).
    Proof.
      intros Hs Hs'. pose proof p_nz. rewrite ediv_Fin by lra. replace (1 / p) with (/ p) by (unfold Rdiv; ring).
      rewrite epow_Fin; [reflexivity|]. assert (/ p <> 0) by (apply Rinv_neq_0_compat; lra).
      destruct (Rlt_dec p 0) as [Lt|Lt]; [left; split; [apply Hs', Lt|assumption]|right; split; [exact Hs|apply Rinv_0_lt_compat, p_pn, Lt]].
    Qed.
  End Main.

  Theorem pmean_exact mx px sx x : view mx px sx (map Fin x) -> x <> [] -> (forall a, In a x -> 0 <= a) ->
    (p < 0 -> forall a, In a x -> 0 < a) ->
    xpmean (Z.of_nat (length x)) mx px sx (Fin p) = Some (Fin (rpow (ravg (fun a => rpow a p) x) (/ p))).
  Proof.
    intros V Hn Hp Hneg. rewrite xpmean_unfold. destruct (p_scan_pos mx px sx x V Hn Hp) as (M & m & -> & HM & Hm). cbn [bind].
    match goal with |- p_cases _ _ _ ?r = _ => destruct (p_cases_main x Hp Hneg M m r HM Hm) as [K1 K2] end.
    pose proof p_nz as NZ. pose proof (INR_len_pos x Hn) as Ln.
    destruct (Req_dec M m) as [E|Ne].
    - rewrite (K1 E). f_equal. f_equal. subst m. destruct HM as [I1 I2], Hm as [J1 J2].
      rewrite (ravg_const _ x (rpow M p) Hn) by (intros a Ha; f_equal; pose proof (I2 a Ha); pose proof (J2 a Ha); lra).
      symmetry. apply rpow_inv; [apply Hp, I1|exact NZ].
    - destruct (K2 Ne) as [Pc ->]. set (c := if gtb ecmp (Fin p) (Fin 0) then M else m) in *.
      replace (if gtb ecmp (Fin p) (Fin 0) then Fin M else Fin m) with (Fin c) by (unfold c; destruct (gtb ecmp (Fin p) (Fin 0)); reflexivity).
      cbv zeta.
      pose proof (for_each_fold mx px sx (map Fin x) (fun k sum => x <- get mx px sx k ;; ret (eadd sum (epow (ediv x (Fin c)) (Fin p))))
         (fun s t => eadd s (epow (ediv t (Fin c)) (Fin p))) (Fin 0) V) as FE.
      rewrite map_length in FE. rewrite FE by (intros k s t _ Hg; rewrite Hg; reflexivity). clear FE. cbn [bind].
      assert (F : forall l s, (forall a, In a l -> In a x) -> fold_left (fun s t => eadd s (epow (ediv t (Fin c)) (Fin p))) (map Fin l) (Fin s)
         = Fin (s + rsum (map (fun a => rpow (a / c) p) l))).
      { induction l as [|a l IH]; intros s Hl; cbn [map fold_left rsum]; [rewrite Rplus_0_r; reflexivity|].
        pose proof (scale_elt x Hp Hneg M m a HM Hm Ne (Hl a (or_introl eq_refl))) as SE. cbv zeta in SE. fold c in SE. rewrite SE.
        cbn [eadd]. rewrite IH by (intros b Hb; apply Hl; right; exact Hb). rewrite Rplus_assoc. reflexivity. }
      rewrite F by auto. rewrite Rplus_0_l, IZR_len, ediv_Fin by lra. unfold ret. f_equal.
      change (rsum (map (fun a => rpow (a / c) p) x) / INR (length x)) with (ravg (fun a => rpow (a / c) p) x).
      assert (O1 : forall e, In e (ones x) -> 0 <= snd e).
      { intros e He. unfold ones in He. apply in_map_iff in He. destruct He as (a & <- & _). cbn. lra. }
      assert (O2 : 0 < rsum (map snd (ones x))) by (rewrite ones_w; exact Ln).
      assert (O3 : forall e, In e (ones x) -> In (fst e) x).
      { intros e He. unfold ones in He. apply in_map_iff in He. destruct He as (a & <- & Ha). exact Ha. }
      rewrite !ravg_wavg. rewrite final_pow.
      + f_equal. apply pm_scale; [exact Pc|exact NZ|intros e He; apply Hp, O3, He|].
        apply wavg_nonneg; [exact O1|exact O2|intros; apply rpow_nonneg].
      + apply wavg_nonneg; [exact O1|exact O2|intros; apply rpow_nonneg].
      + intros Lt. apply wavg_pos; [exact O1|exact O2|]. intros e He. pose proof (Hneg Lt _ (O3 e He)) as Q.
        assert (0 < / c) by (apply Rinv_0_lt_compat, Pc). rewrite rpow_pos by (unfold Rdiv; nra). apply exp_pos.
  Qed.

  Theorem pmeanw_exact mx px sx mw pw sw q : view mx px sx (map Fin (map fst q)) -> view mw pw sw (map Fin (map snd q)) ->
    (forall e, In e q -> 0 <= snd e) -> 0 < rsum (map snd q) -> (forall e, In e q -> 0 <= fst e) -> (p < 0 -> forall e, In e q -> 0 < fst e) ->
    xpmeanw (Z.of_nat (length q)) mx px sx mw pw sw (Fin p) = Some (Fin (rpow (wavg (fun a => rpow a p) q) (/ p))).
  Proof.
    intros V W Hw Sw Hp' Hneg'. assert (Hn : map fst q <> []) by (destruct q; [cbn in Sw; lra|discriminate]).
    assert (Hp : forall a, In a (map fst q) -> 0 <= a) by (intros a Ha; apply in_map_iff in Ha; destruct Ha as (e & <- & He); apply Hp', He).
    assert (Hneg : p < 0 -> forall a, In a (map fst q) -> 0 < a) by (intros Lt a Ha; apply in_map_iff in Ha; destruct Ha as (e & <- & He); apply Hneg'; assumption).
    rewrite xpmeanw_unfold. destruct (p_scan_pos mx px sx _ V Hn Hp) as (M & m & E0 & HM & Hm). rewrite map_length in E0. rewrite E0. cbn [bind].
    match goal with |- p_cases _ _ _ ?r = _ => destruct (p_cases_main _ Hp Hneg M m r HM Hm) as [K1 K2] end.
    pose proof p_nz as NZ.
    destruct (Req_dec M m) as [E|Ne].
    - rewrite (K1 E). f_equal. f_equal. subst m. destruct HM as [I1 I2], Hm as [J1 J2].
      rewrite (wavg_const _ q (rpow M p)); [symmetry; apply rpow_inv; [apply Hp, I1|exact NZ]|lra|].
      intros e He. assert (Hi : In (fst e) (map fst q)) by (apply in_map, He). f_equal. pose proof (I2 _ Hi). pose proof (J2 _ Hi). lra.
    - destruct (K2 Ne) as [Pc ->]. set (c := if gtb ecmp (Fin p) (Fin 0) then M else m) in *.
      replace (if gtb ecmp (Fin p) (Fin 0) then Fin M else Fin m) with (Fin c) by (unfold c; destruct (gtb ecmp (Fin p) (Fin 0)); reflexivity).
      cbv zeta.
      pose proof (for_each_fold2 mx px sx (map Fin (map fst q)) mw pw sw (map Fin (map snd q))
         (fun k st => let '(sumw, sum) := st in
          x <- get mx px sx k ;; w <- get mw pw sw k ;; ret (eadd sumw w, eadd sum (emul w (epow (ediv x (Fin c)) (Fin p)))))
         (fun st t => (eadd (fst st) (snd t), eadd (snd st) (emul (snd t) (epow (ediv (fst t) (Fin c)) (Fin p))))) (Fin 0, Fin 0) V W) as FE.
      rewrite !map_length in FE. rewrite FE; clear FE; [|reflexivity|intros k [s1 s2] a b _ Ha Hb; rewrite Ha, Hb; reflexivity].
      rewrite (map_map fst Fin), (map_map snd Fin), combine_map_fst.
      assert (F : forall l s1 s2, (forall e, In e l -> In e q) ->
         fold_left (fun (st : ER * ER) (t : ER * ER) => (eadd (fst st) (snd t), eadd (snd st) (emul (snd t) (epow (ediv (fst t) (Fin c)) (Fin p)))))
           (map (fun e => (Fin (fst e), Fin (snd e))) l) (Fin s1, Fin s2)
         = (Fin (s1 + rsum (map snd l)), Fin (s2 + rsum (map (fun e => snd e * rpow (fst e / c) p) l)))).
      { induction l as [|e l IH]; intros s1 s2 Hl; cbn [map fold_left rsum fst snd]; [rewrite !Rplus_0_r; reflexivity|].
        pose proof (scale_elt _ Hp Hneg M m (fst e) HM Hm Ne (in_map fst q e (Hl e (or_introl eq_refl)))) as SE. cbv zeta in SE. fold c in SE. rewrite SE.
        cbn [eadd emul]. rewrite IH by (intros b Hb; apply Hl; right; exact Hb). rewrite !Rplus_assoc. reflexivity. }
      rewrite F by auto. rewrite !Rplus_0_l. cbn [bind]. rewrite ediv_Fin by lra. unfold ret. f_equal.
      change (rsum (map (fun e => snd e * rpow (fst e / c) p) q) / rsum (map snd q)) with (wavg (fun a => rpow (a / c) p) q).
      rewrite final_pow.
      + f_equal. apply pm_scale; [exact Pc|exact NZ|exact Hp'|].
        apply wavg_nonneg; [exact Hw|exact Sw|intros; apply rpow_nonneg].
      + apply wavg_nonneg; [exact Hw|exact Sw|intros; apply rpow_nonneg].
      + intros Lt. apply wavg_pos; [exact Hw|exact Sw|]. intros e He. pose proof (Hneg' Lt _ He) as Q.
        assert (0 < / c) by (apply Rinv_0_lt_compat, Pc). rewrite rpow_pos by (unfold Rdiv; nra). apply exp_pos.
  Qed.
End X.

(** the special orders *)
Theorem pmean_m1 n mx px sx : xpmean n mx px sx (Fin (-1)) = xhmean n mx px sx.
Proof.
  unfold xpmean, pmean_row. cbn [earith a_cmp a_abs eabs a_ofZ]. rewrite isnanb_Fin.
  assert (E : ltb ecmp (Fin (Rabs (-1))) xthr = false).
  { unfold xthr. apply ltb_Fin_false. rewrite Rabs_left by lra. lra. }
  rewrite E. assert (E2 : eqb ecmp (Fin (-1)) (Fin (-1)) = true) by (apply eqb_Fin; reflexivity). rewrite E2. reflexivity.
Qed.
Theorem pmean_0 n mx px sx : xpmean n mx px sx (Fin 0) = xgmean n mx px sx.
Proof.
  unfold xpmean, pmean_row. cbn [earith a_cmp a_abs eabs a_ofZ]. rewrite isnanb_Fin.
  assert (E : ltb ecmp (Fin (Rabs 0)) xthr = true).
  { unfold xthr. apply ltb_Fin. rewrite Rabs_R0. lra. }
  rewrite E. assert (E2 : eqb ecmp (Fin 0) (Fin 0) = true) by (apply eqb_Fin; reflexivity). rewrite E2.
  unfold xgmean. cbn [negb]. destruct (gmean_1d earith etransc n mx px sx); reflexivity.
Qed.
Theorem pmeanw_m1 n mx px sx mw pw sw : xpmeanw n mx px sx mw pw sw (Fin (-1)) = xhmeanw n mx px sx mw pw sw.
Proof.
  unfold xpmeanw, pmeanw_row. cbn [earith a_cmp a_abs eabs a_ofZ]. rewrite isnanb_Fin.
  assert (E : ltb ecmp (Fin (Rabs (-1))) xthr = false).
  { unfold xthr. apply ltb_Fin_false. rewrite Rabs_left by lra. lra. }
  rewrite E. assert (E2 : eqb ecmp (Fin (-1)) (Fin (-1)) = true) by (apply eqb_Fin; reflexivity). rewrite E2. reflexivity.
Qed.
Theorem pmeanw_0 n mx px sx mw pw sw : xpmeanw n mx px sx mw pw sw (Fin 0) = xgmeanw n mx px sx mw pw sw.
Proof.
  unfold xpmeanw, pmeanw_row. cbn [earith a_cmp a_abs eabs a_ofZ]. rewrite isnanb_Fin.
  assert (E : ltb ecmp (Fin (Rabs 0)) xthr = true).
  { unfold xthr. apply ltb_Fin. rewrite Rabs_R0. lra. }
  rewrite E. assert (E2 : eqb ecmp (Fin 0) (Fin 0) = true) by (apply eqb_Fin; reflexivity). rewrite E2.
  unfold xgmeanw. cbn [negb]. destruct (gmeanw_1d earith etransc n mx px sx mw pw sw); reflexivity.
Qed.
Theorem pmean_inf mx px sx x pos : view mx px sx (map Fin x) -> x <> [] -> (forall a, In a x -> 0 <= a) ->
  exists v, xpmean (Z.of_nat (length x)) mx px sx (if pos : bool then PInf else NInf) = Some (Fin v) /\
    In v x /\ forall a, In a x -> if pos then a <= v else v <= a.
Proof.
  intros V Hn Hp. assert (E : xpmean (Z.of_nat (length x)) mx px sx (if pos then PInf else NInf)
    = bind (p_scan earith (Z.of_nat (length x)) mx px sx) (fun s => p_cases earith (if pos then PInf else NInf) s (fun xmax xmin =>
        let scale := if gtb ecmp (if pos then PInf else NInf) (Fin 0) then xmax else xmin in
        sum <- for_each 0 (Z.of_nat (length x)) (fun k sum => x <- get mx px sx k ;; ret (eadd sum (epow (ediv x scale) (if pos then PInf else NInf)))) (Fin 0) ;;
        ret (emul scale (epow (ediv sum (Fin (IZR (Z.of_nat (length x))))) (ediv (Fin 1) (if pos then PInf else NInf))))))) by (destruct pos; reflexivity).
  rewrite E. clear E. destruct (p_scan_pos mx px sx x V Hn Hp) as (M & m & -> & HM & Hm). cbn [bind].
  unfold p_cases. cbn [orb andb earith a_cmp a_ofZ].
  destruct (eqb ecmp (Fin M) (Fin m)) eqn:Eq.
  - apply eqb_Fin in Eq. subst m. exists M. split; [reflexivity|]. destruct HM as [I1 I2], Hm as [J1 J2]. split; [exact I1|]. intros a Ha. destruct pos; [apply I2, Ha|apply J2, Ha].
  - destruct pos.
    + replace (ltb ecmp PInf (Fin 0)) with false by reflexivity. rewrite andb_false_r. exists M. split; [reflexivity|exact HM].
    + replace (ltb ecmp NInf (Fin 0)) with true by reflexivity. rewrite andb_true_r. destruct (has0 x) eqn:H0.
      * exists 0. split; [reflexivity|]. apply has0_spec in H0. split; [exact H0|exact Hp].
      * exists m. split; [reflexivity|exact Hm].
Qed.

(** * P_Erfcx: proofs about erfcx *)
From Coq Require Import ZArith Reals Lra Lia List Bool.
From Coquelicot Require Import Coquelicot.
From Flocq Require Raux.
From Verif Require Import CSem Num M_Erfcx S_Special S_Elem S_Erf P_Erf P_ErfcxT P_ErfcxR.
Import ListNotations.
Open Scope R_scope.

(** ** the integrals *)
Lemma gen_right (f F : R -> R) (a l : R) : (forall b, is_RInt f a b (F b)) -> (forall eps, 0 < eps -> exists M, forall b, M < b -> Rabs (F b - l) < eps) ->
  is_RInt_gen f (at_point a) (Rbar_locally p_infty) l.
Proof.
  intros Ex H P [eps He]. destruct (H eps (cond_pos eps)) as [M HM].
  exists (fun y => y = a) (fun b => M < b); [reflexivity|exists M; auto|].
  intros x y -> Hy. exists (F y). split; [apply Ex|]. apply He. apply HM, Hy.
Qed.
Lemma gen_left (f F : R -> R) (b l : R) : (forall a, is_RInt f a b (F a)) -> (forall eps, 0 < eps -> exists M, forall a, a < M -> Rabs (F a - l) < eps) ->
  is_RInt_gen f (Rbar_locally m_infty) (at_point b) l.
Proof.
  intros Ex H P [eps He]. destruct (H eps (cond_pos eps)) as [M HM].
  exists (fun a => a < M) (fun y => y = b); [exists M; auto|reflexivity|].
  intros x y Hx ->. exists (F x). split; [apply Ex|]. apply He. apply HM, Hx.
Qed.
Lemma is_erfc_erfcR x : is_erfc x (erfcR x).
Proof.
  apply (gen_right _ (fun b => erfcR x - erfcR b)).
  - intros b. replace (erfcR x - erfcR b) with (minus (- erfcR b) (- erfcR x)) by (unfold minus, plus, opp; simpl; ring).
    apply (is_RInt_derive (V:=R_CompleteNormedModule) (fun s => - erfcR s)).
    + intros s _. replace (2 / sqrt PI * exp (- (s * s))) with (- (- (2 * B) * gauss s)) by (unfold B, gauss; field; pose proof sqrtPI_pos; lra).
      apply (is_derive_opp (V:=R_NormedModule) erfcR s), erfcR_derive.
    + intros s _. apply (ex_derive_continuous (V:=R_NormedModule) (fun s => 2 / sqrt PI * exp (- (s * s)))). auto_derive. exact I.
  - intros eps He. destruct (erfcR_vanishes eps He) as [N HN]. exists N. intros b Hb. specialize (HN b Hb).
    replace (erfcR x - erfcR b - erfcR x) with (- erfcR b) by ring. rewrite Rabs_Ropp. exact HN.
Qed.
Lemma is_erfc_eq x v : is_erfc x v <-> v = erfcR x.
Proof.
  split; [|intros ->; apply is_erfc_erfcR]. intros H.
  rewrite <- (is_RInt_gen_unique _ v H). symmetry. exact (eq_sym (is_RInt_gen_unique _ _ (is_erfc_erfcR x))).
Qed.
Lemma is_erfcx_eq x v : is_erfcx x v <-> v = erfcxR x.
Proof.
  unfold is_erfcx, erfcxR. split.
  - intros (w & H & ->). apply is_erfc_eq in H. rewrite H. reflexivity.
  - intros ->. exists (erfcR x). split; [apply is_erfc_erfcR|reflexivity].
Qed.
Definition PhiR (x : R) : R := erfcR (- (x / sqrt 2)) / 2.
Lemma sqrt2_pos : 0 < sqrt 2. Proof. apply sqrt_lt_R0; lra. Qed.
Lemma sqrt2_sq : sqrt 2 * sqrt 2 = 2. Proof. apply sqrt_sqrt; lra. Qed.
Lemma is_cdf_PhiR x : is_normal_cdf x (PhiR x).
Proof.
  pose proof sqrt2_pos as S. pose proof sqrt2_sq as S2. pose proof sqrtPI_pos.
  apply (gen_left _ (fun a => PhiR x - PhiR a)).
  - intros a. apply (is_RInt_derive (V:=R_CompleteNormedModule) PhiR).
    + intros s _. unfold PhiR.
      replace (/ sqrt (2 * PI) * exp (- (s * s) / 2)) with ((- / sqrt 2) * (- (2 * B) * gauss (- (s / sqrt 2))) * / 2).
      2:{ unfold gauss, B. rewrite sqrt_mult by (pose proof PI_RGT_0; lra).
          replace (- (- (s / sqrt 2) * - (s / sqrt 2))) with (- (s * s) / 2); [field; lra|].
          rewrite <- S2 at 1. field. lra. }
      apply (is_derive_scal_l (V:=R_NormedModule) (fun s => erfcR (- (s / sqrt 2)))).
      apply (is_derive_comp (V:=R_NormedModule) erfcR (fun s => - (s / sqrt 2))); [apply erfcR_derive|]. auto_derive; [exact I|]. field. lra.
    + intros s _. apply (ex_derive_continuous (V:=R_NormedModule) (fun s => / sqrt (2 * PI) * exp (- (s * s) / 2))). auto_derive. exact I.
  - intros eps He. destruct (erfcR_vanishes (2 * eps) ltac:(lra)) as [N HN]. exists (- (N * sqrt 2)). intros a Ha.
    assert (K : N < - (a / sqrt 2)). { apply (Rmult_lt_reg_r (sqrt 2)); [lra|]. replace (- (a / sqrt 2) * sqrt 2) with (- a) by (field; lra). lra. }
    specialize (HN _ K). replace (PhiR x - PhiR a - PhiR x) with (- PhiR a) by ring. rewrite Rabs_Ropp. unfold PhiR, Rdiv at 1.
    rewrite Rabs_mult, (Rabs_right (/ 2)) by lra. lra.
Qed.
Lemma is_cdf_eq x v : is_normal_cdf x v <-> v = PhiR x.
Proof.
  split; [|intros ->; apply is_cdf_PhiR]. intros H.
  rewrite <- (is_RInt_gen_unique _ v H). symmetry. exact (eq_sym (is_RInt_gen_unique _ _ (is_cdf_PhiR x))).
Qed.

(** ** one cell of a table *)
Definition nestR (t : R) (c : list (Z * Z)) : R := fold_right (fun p a => IZR (fst p) * powerRZ 10 (snd p) + a * t) 0 c.
Lemma nested_val t c : nested earith elit (Fin t) c = Fin (nestR t c).
Proof.
  induction c as [|p c IH]; [reflexivity|]. destruct c as [|p' c].
  - cbn. unfold elit. f_equal. ring.
  - change (nested earith elit (Fin t) (p :: p' :: c)) with (eadd (elit (fst p) (snd p)) (emul (nested earith elit (Fin t) (p' :: c)) (Fin t))).
    rewrite IH. reflexivity.
Qed.
Lemma p10Z n : (0 <= n)%Z -> IZR (10 ^ n) = powerRZ 10 n.
Proof. intros H. rewrite <- (Z2Nat.id n H), <- pow_IZR, <- pow_powerRZ. reflexivity. Qed.
Lemma scale50_spec p : (-50 <= snd p)%Z -> IZR (scale50 p) = IZR (10 ^ 50) * (IZR (fst p) * powerRZ 10 (snd p)).
Proof.
  intros H. unfold scale50. rewrite mult_IZR, (p10Z 50), (p10Z (50 + snd p)), powerRZ_add by (lia || lra). ring.
Qed.
Lemma nest_pev t c : forallb (fun m => (-50 <=? snd m)%Z) c = true -> pev (map scale50 c) t = IZR (10 ^ 50) * nestR t c.
Proof.
  induction c as [|p c IH]; cbn [map pev nestR fold_right forallb]; intros H; [ring|].
  apply andb_prop in H. destruct H as [H1 H2]. apply Z.leb_le in H1. rewrite (IH H2), (scale50_spec p H1). unfold nestR. ring.
Qed.
Lemma table_arith (p w n s b d5 d2 P l : R) : 0 < p -> 0 < w -> 0 < d2 -> 0 < s -> d5 = d2 * s -> p * Rabs (d5 * l) <= P -> P * w <= n * p * d2 * b ->
  Rabs l <= n / w * (b / s).
Proof.
  intros Hp Hw Hd Hs -> C1 C2. rewrite Rabs_mult, (Rabs_right (d2 * s)) in C1 by nra.
  assert (K : p * d2 * (s * w * Rabs l) <= p * d2 * (n * b)).
  { apply Rle_trans with (P * w); [|lra]. apply (Rmult_le_compat_r w) in C1; lra. }
  apply Rmult_le_reg_l in K; [|nra].
  apply (Rmult_le_reg_l (s * w)); [nra|]. replace (s * w * (n / w * (b / s))) with (n * b) by (field; lra). lra.
Qed.
Lemma atm1_pev q : IZR (atm1 q) = pev q (-1).
Proof. induction q as [|a q IH]; cbn [pev atm1]; [reflexivity|]. rewrite minus_IZR, IH. ring. Qed.
Lemma at_cell_end k q : (1 <= k)%Z -> gq k q (400 / IZR k - 4) = IZR (atm1 q) / IZR SW.
Proof.
  intros Hk. apply IZR_le in Hk. unfold gq. rewrite atm1_pev. f_equal. f_equal. field. lra.
Qed.
Lemma cell_table num den c q i x : (0 <= den)%Z -> (0 <= num)%Z -> tcheck num den c q = true -> nth_error wit i = Some q ->
  0 <= x -> in_cell (3 + Z.of_nat i) x ->
  Rabs (nestR (800 / (4 + x) - (2 * IZR (3 + Z.of_nat i) + 1)) c - erfcxR x) <= (IZR num / IZR (10 ^ den) * (1 + 2 / 10 ^ 24) + 2 / 10 ^ 24) * erfcxR x.
Proof.
  intros Hden Hnum C Hi Hx I. pose proof (witness_acc i q x Hi I) as W.
  assert (Kp : (3 <= 3 + Z.of_nat i)%Z) by lia. set (k := (3 + Z.of_nat i)%Z) in *.
  destruct (cell_y k x ltac:(lia) I) as [_ [Y1 Y2]].
  assert (IE : in_cell k (400 / IZR k - 4)). { unfold in_cell in *. lra. }
  pose proof (witness_acc i q _ Hi IE) as WE. fold k in WE. rewrite at_cell_end in WE by lia.
  assert (M : erfcxR (400 / IZR k - 4) <= erfcxR x). { apply erfcx_decr. destruct I. lra. }
  unfold tcheck in C. destruct (cheb (dpoly c q)) as [l p] eqn:El. apply andb_prop in C. destruct C as [C0 C]. apply Z.leb_le in C. apply IZR_le in C. rewrite !mult_IZR in C.
  pose proof (cheb_bound (dpoly c q) (800 / (4 + x) - (2 * IZR k + 1))) as CB. rewrite El in CB. cbn [fst snd] in CB.
  pose proof (cheb_pos (dpoly c q)) as CP. rewrite El in CP. cbn [fst snd] in CP. apply IZR_lt in CP.
  assert (T : -1 <= 800 / (4 + x) - (2 * IZR k + 1) <= 1). { replace (800 / (4 + x)) with (2 * (400 / (4 + x))) by (field; lra). lra. }
  specialize (CB T). unfold gq in W. set (t := 800 / (4 + x) - (2 * IZR k + 1)) in *. clearbody t.
  unfold dpoly in CB. rewrite pev_add, pev_scal, nest_pev in CB by exact C0.
  assert (E : IZR (10 ^ 50) = IZR (10 ^ 20) * IZR SW) by (rewrite <- mult_IZR; reflexivity).
  assert (Hw : 0 < IZR (10 ^ den)) by (apply IZR_lt; apply Z.pow_pos_nonneg; lia).
  assert (D2 : 0 < IZR (10 ^ 20)) by (apply IZR_lt; reflexivity). pose proof SW_pos as HS. apply IZR_le in Hnum.
  assert (Ed : IZR (10 ^ 50) * nestR t c + IZR (- 10 ^ 20) * pev q t = IZR (10 ^ 50) * (nestR t c - pev q t / IZR SW)).
  { rewrite E, opp_IZR. field. lra. }
  rewrite Ed in CB. clear Ed.
  pose proof (table_arith _ _ _ _ _ _ _ _ _ CP Hw D2 HS E CB C) as K.
  set (a := IZR (atm1 q) / IZR SW) in *. set (g := pev q t / IZR SW) in *. set (r := nestR t c) in *. set (f := erfcxR x) in *.
  set (fe := erfcxR (400 / IZR k - 4)) in *. assert (F0 : 0 < fe) by apply erfcxR_pos. set (e := IZR num / IZR (10 ^ den)) in *.
  assert (He : 0 <= e) by (apply Rdiv_le_0_compat; lra).
  set (dl := 2 / 10 ^ 24) in *. assert (0 < dl) by (unfold dl; lra). clearbody a g r f fe e dl.
  replace (r - f) with ((r - g) + (g - f)) by ring. eapply Rle_trans; [apply Rabs_triang|].
  apply Rabs_le_between in WE. assert (A : a <= (1 + dl) * f) by nra.
  assert (e * a <= e * ((1 + dl) * f)) by (apply Rmult_le_compat_l; lra). lra.
Qed.
Lemma tchecks_nth num den : forall cs qs j c, tchecks num den cs qs = true -> nth_error cs j = Some c -> exists q, nth_error qs j = Some q /\ tcheck num den c q = true.
Proof.
  induction cs as [|c0 cs IH]; intros [|q qs] [|j] c H Hj; try discriminate; cbn [tchecks] in H; apply andb_prop in H; destruct H as [H1 H2].
  - injection Hj as <-. exists q. split; [reflexivity|exact H1].
  - apply (IH qs j c H2 Hj).
Qed.
Lemma nth_skipn {X} (l : list X) a j : nth_error (skipn a l) j = nth_error l (a + j).
Proof. revert l; induction a as [|a IH]; intros [|y l]; cbn; try reflexivity; [destruct j; reflexivity|apply IH]. Qed.

(** the piecewise polynomial, for 0 < x with 400/(4 + x) at least 3 + s *)
Definition accurate (e : R) (y100 : ER -> M ER) (s : Z) : Prop :=
  forall x, 0 <= x <= 400 / IZR (3 + s) - 4 -> exists r, y100 (ediv (Fin 400) (Fin (4 + x))) = ret (Fin r) /\ Rabs (r - erfcxR x) <= e * erfcxR x.
Lemma table_accurate num den s cs e : (0 <= den)%Z -> (0 <= num)%Z -> tchecks num den (skipn (3 + s) cs) (skipn s wit) = true -> length cs = 100%nat ->
  IZR num / IZR (10 ^ den) * (1 + 2 / 10 ^ 24) + 2 / 10 ^ 24 <= e ->
  accurate e (erfcx_y100 earith elit etoint cs) (Z.of_nat s).
Proof.
  intros Hden Hnum C L He x [Hx0 Hx].
  assert (S0 : 0 <= IZR (Z.of_nat s)) by (apply IZR_le; lia).
  assert (Y : ediv (Fin 400) (Fin (4 + x)) = Fin (400 / (4 + x))). { unfold ediv. rewrite Raux.Rcompare_Gt by lra. reflexivity. }
  rewrite Y. set (y := 400 / (4 + x)).
  assert (Y1 : IZR (3 + Z.of_nat s) <= y).
  { unfold y. rewrite plus_IZR in *. apply (Rmult_le_reg_r (4 + x)); [lra|]. unfold Rdiv. rewrite Rmult_assoc, Rinv_l, Rmult_1_r by lra.
    replace 400 with ((3 + IZR (Z.of_nat s)) * (400 / (3 + IZR (Z.of_nat s)))) by (field; lra). apply Rmult_le_compat_l; lra. }
  assert (Y2 : y <= 100). { unfold y. apply (Rmult_le_reg_r (4 + x)); [lra|]. unfold Rdiv. rewrite Rmult_assoc, Rinv_l, Rmult_1_r by lra. lra. }
  unfold erfcx_y100, etoint.
  rewrite Raux.Ztrunc_floor by (rewrite plus_IZR in Y1; lra).
  pose proof (Raux.Zfloor_lb y) as F1. pose proof (Raux.Zfloor_ub y) as F2. pose proof (Raux.Zfloor_lub _ _ Y1) as F3.
  set (k := Raux.Zfloor y) in *.
  assert (F4 : (k <= 100)%Z) by (apply le_IZR; lra).
  replace (in_int k) with true by (symmetry; unfold in_int; apply andb_true_intro; split; [apply Z.leb_le; lia|apply Z.ltb_lt; lia]).
  cbn [bind ret]. unfold bind, ret. replace (k <? 0)%Z with false by (symmetry; apply Z.ltb_ge; lia).
  destruct (Z.eq_dec k 100) as [E|E].
  - rewrite E. destruct (nth_error cs (Z.to_nat 100)) eqn:En.
    { exfalso. assert (H : nth_error cs (Z.to_nat 100) <> None) by congruence. apply nth_error_Some in H. rewrite L in H. change (Z.to_nat 100) with 100%nat in H. lia. }
    exists 1. split; [reflexivity|].
    assert (x = 0). { assert (y = 100) by (rewrite E in F1; lra). unfold y in H. assert (400 = 100 * (4 + x)) by (rewrite <- H at 1; field; lra). lra. }
    subst x. rewrite erfcxR_0. replace (1 - 1) with 0 by ring. rewrite Rabs_R0.
    assert (0 <= IZR num / IZR (10 ^ den)) by (apply Rdiv_le_0_compat; [apply IZR_le; lia|apply IZR_lt; apply Z.pow_pos_nonneg; lia]). nra.
  - destruct (nth_error cs (Z.to_nat k)) as [c|] eqn:En.
    2:{ exfalso. apply nth_error_None in En. lia. }
    exists (nestR (800 / (4 + x) - (2 * IZR k + 1)) c). split.
    { change (a_sub earith (a_mul earith (a_ofZ earith 2) (Fin y)) (a_ofZ earith (2 * k + 1))) with (Fin (2 * y - IZR (2 * k + 1))).
      rewrite nested_val. do 3 f_equal. rewrite plus_IZR, mult_IZR. unfold y. field. lra. }
    replace (Z.to_nat k) with (3 + s + (Z.to_nat k - 3 - s))%nat in En by lia. rewrite <- nth_skipn in En.
    destruct (tchecks_nth num den _ _ _ _ C En) as (q & Eq & Tc). rewrite nth_skipn in Eq.
    assert (Ek : k = (3 + Z.of_nat (s + (Z.to_nat k - 3 - s)))%Z) by lia.
    set (i := (s + (Z.to_nat k - 3 - s))%nat) in *. 
    eapply Rle_trans; [rewrite Ek; apply (cell_table num den c q i x Hden Hnum Tc Eq Hx0)|apply Rmult_le_compat_r; [left; apply erfcxR_pos|exact He]].
    rewrite <- Ek. unfold in_cell. assert (0 < IZR k) by (apply IZR_lt; lia).
    assert (E4 : 4 + x = 400 / y) by (unfold y; field; lra).
    assert (400 / (IZR k + 1) <= 400 / y /\ 400 / y <= 400 / IZR k); [|lra]. split; apply Rmult_le_compat_l; try lra; apply Rinv_le_contravar; lra.
Qed.

(** ** ln 2 from above *)
Fixpoint hor (x : R) (i n : nat) : R := match n with O => 1 | S n' => 1 + x / INR (S i) * hor x (S i) n' end.
Lemma hor_sum x : forall n i, hor x i n = sum_f_R0 (fun k => x ^ k * INR (fact i) / INR (fact (i + k))) n.
Proof.
  induction n as [|n IH]; intros i.
  - cbn [hor sum_f_R0 pow]. rewrite Nat.add_0_r. field. apply INR_fact_neq_0.
  - cbn [hor]. rewrite decomp_sum by lia. cbn [pred]. rewrite IH, Nat.add_0_r. cbn [pow]. f_equal; [field; apply INR_fact_neq_0|].
    rewrite scal_sum. apply sum_eq. intros k _. replace (i + S k)%nat with (S i + k)%nat by lia.
    change (fact (S i)) with (S i * fact i)%nat. rewrite mult_INR. cbn [pow]. field. split; [apply INR_fact_neq_0|apply not_0_INR; lia].
Qed.
Lemma hor_exp x n : 0 <= x -> hor x 0 n <= exp x.
Proof.
  intros H. rewrite hor_sum. pose proof (sum_incr (fun k => x ^ k / INR (fact k)) n (exp x)) as S.
  replace (sum_f_R0 (fun k => x ^ k * INR (fact 0) / INR (fact (0 + k))) n) with (sum_f_R0 (fun k => x ^ k / INR (fact k)) n).
  - apply S; [|intros k; apply Rdiv_le_0_compat; [apply pow_le, H|apply INR_fact_lt_0]].
    intros e He. destruct (E1_cvg x e He) as [N HN]. exists N. intros m Hm. specialize (HN m Hm). unfold E1 in HN.
    erewrite sum_eq; [exact HN|]. intros k _. cbv beta. field. apply INR_fact_neq_0.
  - apply sum_eq. intros k _. cbn [Nat.add fact]. change (INR 1) with 1. field. apply INR_fact_neq_0.
Qed.
(** num/den below the partial sum, x = a/s *)
Fixpoint horz (a s : Z) (i : Z) (n : nat) : Z * Z :=
  match n with O => (1, 1)%Z | S n' => let (u, d) := horz a s (i + 1) n' in ((d * (s * (i + 1)) + a * u), d * (s * (i + 1)))%Z end.
Lemma horz_spec a s : (0 < s)%Z -> forall n i, (0 < snd (horz a s (Z.of_nat i) n))%Z /\ hor (IZR a / IZR s) i n = IZR (fst (horz a s (Z.of_nat i) n)) / IZR (snd (horz a s (Z.of_nat i) n)).
Proof.
  intros Hs. induction n as [|n IH]; intros i; [cbn; split; [lia|field]|].
  cbn [hor horz]. specialize (IH (S i)). replace (Z.of_nat (S i)) with (Z.of_nat i + 1)%Z in IH by lia.
  destruct (horz a s (Z.of_nat i + 1) n) as [u d]. cbn [fst snd] in *. destruct IH as [P E]. rewrite E. split; [nia|].
  rewrite plus_IZR, !mult_IZR, plus_IZR, S_INR, INR_IZR_INZ. apply IZR_lt in P. apply IZR_lt in Hs. assert (0 <= IZR (Z.of_nat i)) by (apply IZR_le; lia).
  field. lra.
Qed.
Definition L2 : Z := 693147180559945309417233%Z.
Lemma ln2_upper : ln 2 <= IZR L2 / IZR (10 ^ 24).
Proof.
  rewrite <- (ln_exp (IZR L2 / IZR (10 ^ 24))). apply Rcomplements.ln_le; [lra|].
  destruct (horz_spec L2 (10 ^ 24) ltac:(reflexivity) 25 0) as [P E].
  assert (H : 0 <= IZR L2 / IZR (10 ^ 24)). { apply Rdiv_le_0_compat; [apply IZR_le; discriminate|apply IZR_lt; reflexivity]. }
  eapply Rle_trans; [|apply (hor_exp _ 25 H)]. rewrite E.
  change (Z.of_nat 0) with 0%Z in *.
  assert (C : (2 * snd (horz L2 (10 ^ 24) 0 25) <= fst (horz L2 (10 ^ 24) 0 25))%Z) by (vm_compute; discriminate).
  apply IZR_le in C. rewrite mult_IZR in C. apply IZR_lt in P.
  set (u := IZR (fst _)) in *. set (d := IZR (snd _)) in *. clearbody u d.
  apply (Rmult_le_reg_r d); [lra|]. unfold Rdiv. rewrite Rmult_assoc, Rinv_l by lra. lra.
Qed.
(** exp(x^2) against a power of 2, for x < -l, l = m * 10^-e *)
Lemma exp_sq_pow2 m e n d w x : (0 <= e)%Z -> (0 <= m)%Z -> (0 <= n)%Z -> (0 <= d)%Z -> (0 < w)%Z ->
  (n * L2 * 10 ^ (2 * e) * w <= (m * m * w + d * 10 ^ (2 * e)) * 10 ^ 24)%Z ->
  x < - (IZR m * powerRZ 10 (- e)) -> (1 - IZR d / IZR w) * powerRZ 2 n <= exp (x * x).
Proof.
  intros He Hm Hn Hd Hw C Hx. set (l := IZR m * powerRZ 10 (- e)) in *.
  assert (P : 0 < powerRZ 10 (- e)) by (apply powerRZ_lt; lra).
  assert (L0 : 0 <= l) by (apply Rmult_le_pos; [apply IZR_le; lia|lra]).
  assert (X : l * l <= x * x) by nra.
  apply Rle_trans with (exp (l * l)); [|apply Raux.exp_le; exact X].
  assert (E : powerRZ 2 n = exp (IZR n * ln 2)).
  { rewrite <- (exp_ln (powerRZ 2 n)) by (apply powerRZ_lt; lra). f_equal. rewrite <- (Z2Nat.id n Hn), <- pow_powerRZ, ln_pow, INR_IZR_INZ by lra. reflexivity. }
  rewrite E. replace (l * l) with ((l * l - IZR n * ln 2) + IZR n * ln 2) by ring. rewrite exp_plus.
  apply Rmult_le_compat_r; [left; apply exp_pos|].
  eapply Rle_trans; [|apply exp_ineq1_le].
  assert (N2 : IZR n * ln 2 <= IZR n * (IZR L2 / IZR (10 ^ 24))) by (apply Rmult_le_compat_l; [apply IZR_le; lia|apply ln2_upper]).
  apply IZR_le in C. rewrite !mult_IZR, plus_IZR, !mult_IZR in C.
  assert (T : 0 < IZR (10 ^ 24)) by (apply IZR_lt; reflexivity).
  assert (Q : l * l * IZR (10 ^ (2 * e)) = IZR m * IZR m).
  { unfold l. rewrite p10Z by lia. replace (2 * e)%Z with (e + e)%Z by lia. rewrite powerRZ_add by lra.
    replace (IZR m * powerRZ 10 (- e) * (IZR m * powerRZ 10 (- e)) * (powerRZ 10 e * powerRZ 10 e)) with (IZR m * IZR m * ((powerRZ 10 (- e) * powerRZ 10 e) * (powerRZ 10 (- e) * powerRZ 10 e))) by ring.
    rewrite <- powerRZ_add by lra. replace (- e + e)%Z with 0%Z by lia. rewrite powerRZ_O. ring. }
  assert (P2 : 0 < IZR (10 ^ (2 * e))) by (apply IZR_lt, Z.pow_pos_nonneg; lia). apply IZR_lt in Hw.
  set (t := IZR (10 ^ 24)) in *. set (p := IZR (10 ^ (2 * e))) in *. set (L := IZR L2) in *. set (ln := ln 2) in *.
  clearbody t p L ln. clear E.
  assert (K : IZR n * (L / t) <= l * l + IZR d / IZR w).
  { apply (Rmult_le_reg_r (t * (p * IZR w))); [repeat apply Rmult_lt_0_compat; lra|].
    replace (IZR n * (L / t) * (t * (p * IZR w))) with (IZR n * L * p * IZR w) by (field; lra).
    replace ((l * l + IZR d / IZR w) * (t * (p * IZR w))) with ((l * l * p * IZR w + IZR d * p) * t) by (field; lra). rewrite Q. exact C. }
  lra.
Qed.

(** ** the function *)
Lemma ediv_pos a b : 0 < b -> ediv (Fin a) (Fin b) = Fin (a / b).
Proof. intros H. unfold ediv. rewrite Raux.Rcompare_Gt by lra. reflexivity. Qed.
Definition ispR : R := IZR ispi * powerRZ 10 (-37).
Lemma cf_val x : 0 < x -> erfcx_cf earith elit (Fin x) = Fin (ispR * (N4 x / D4 x)).
Proof.
  intros H. unfold erfcx_cf. cbn [a_div a_add a_ofZ earith]. unfold elit. change (IZR 5641895835477562869480794515607725858 * powerRZ 10 (-37)) with ispR.
  replace (IZR 5 * powerRZ 10 (-1)) with (/ 2) by (change (powerRZ 10 (-1)) with (/ (10 * 1)); field).
  replace (IZR 15 * powerRZ 10 (-1)) with (3 / 2) by (change (powerRZ 10 (-1)) with (/ (10 * 1)); field).
  rewrite (ediv_pos 2 x) by lra. cbn [eadd].
  assert (A1 : 0 < 2 / x) by (apply Rdiv_lt_0_compat; lra). rewrite (ediv_pos (3 / 2)) by lra. cbn [eadd].
  assert (A2 : 0 < 3 / 2 / (x + 2 / x)) by (apply Rdiv_lt_0_compat; lra). rewrite (ediv_pos 1) by lra. cbn [eadd].
  assert (A3 : 0 < 1 / (x + 3 / 2 / (x + 2 / x))) by (apply Rdiv_lt_0_compat; lra). rewrite (ediv_pos (/ 2)) by lra. cbn [eadd].
  assert (A4 : 0 < / 2 / (x + 1 / (x + 3 / 2 / (x + 2 / x)))) by (apply Rdiv_lt_0_compat; lra). rewrite ediv_pos by lra.
  f_equal. pose proof (D4_pos x H). unfold N4, D4 in *. clear - H H0.
  field. repeat split; nra.
Qed.
Lemma isp_near : Rabs (ispR - B) <= / 10 ^ 37.
Proof.
  unfold ispR. pose proof B_near as [L U]. rewrite minus_IZR in L. rewrite plus_IZR in U.
  replace (powerRZ 10 (-37)) with (/ 10 ^ 37) by reflexivity. assert (T : 0 < 10 ^ 37) by (apply pow_lt; lra). set (w := 10 ^ 37) in *. clearbody w.
  set (i := IZR ispi) in *. clearbody i.
  assert (0 < / w) by (apply Rinv_0_lt_compat; lra).
  replace (i * / w - B) with ((i - w * B) * / w) by (field; lra). rewrite Rabs_mult, (Rabs_right (/ w)) by lra.
  rewrite <- (Rmult_1_l (/ w)) at 2. apply Rmult_le_compat_r; [lra|]. apply Rabs_le. lra.
Qed.
Lemma cf_accurate b x e : 0 < b -> b <= x -> 15 / 4 / (D4 b * D4 b) * (1 + 1 / 10 ^ 36) + 2 / 10 ^ 36 <= e -> 
  Rabs (ispR * (N4 x / D4 x) - erfcxR x) <= e * erfcxR x.
Proof.
  intros Hb Hx He. pose proof (g4_bounds x ltac:(lra)) as [G1 G2]. pose proof isp_near as I. pose proof B_half as HB.
  pose proof (D4_pos b Hb) as Pb. pose proof (D4_pos x ltac:(lra)) as Px. pose proof (erfcxR_pos x) as F.
  pose proof (inv_sq_le (D4 b) (D4 x) ltac:(split; [lra|apply D4_mono; lra])) as M.
  assert (E : N4 x / D4 x = g4 x / B) by (unfold g4; field; lra). rewrite E.
  assert (K : 15 / 4 / (D4 x * D4 x) <= 15 / 4 / (D4 b * D4 b)) by (unfold Rdiv; apply Rmult_le_compat_l; lra).
  set (h := 15 / 4 / (D4 b * D4 b)) in *. set (hx := 15 / 4 / (D4 x * D4 x)) in *. 
  assert (Hh : 0 <= hx) by (unfold hx; apply Rdiv_le_0_compat; [lra|nra]).
  clearbody h hx. set (f := erfcxR x) in *. set (g := g4 x) in *. clearbody f g.
  assert (V : 0 < / 10 ^ 37) by (apply Rinv_0_lt_compat, pow_lt; lra).
  assert (Q : Rabs (ispR / B - 1) <= 2 * / 10 ^ 37).
  { replace (ispR / B - 1) with ((ispR - B) * / B) by (field; lra). rewrite Rabs_mult, (Rabs_right (/ B)) by (left; apply Rinv_0_lt_compat; lra).
    assert (/ B <= 2). { replace 2 with (/ (1 / 2)) by field. apply Rinv_le_contravar; lra. } 
    assert (0 < / B) by (apply Rinv_0_lt_compat; lra). rewrite Rmult_comm. apply Rmult_le_compat; try lra. apply Rabs_pos. }
  replace (ispR * (g / B) - f) with ((ispR / B - 1) * g + (g - f)) by (field; lra).
  eapply Rle_trans; [apply Rabs_triang|]. rewrite Rabs_mult, (Rabs_right g) by lra. rewrite (Rabs_right (g - f)) by lra.
  replace (1 / 10 ^ 36) with (10 * / 10 ^ 37) in He by field. replace (2 / 10 ^ 36) with (20 * / 10 ^ 37) in He by field.
  set (v := / 10 ^ 37) in *. clearbody v.
  assert (Rabs (ispR / B - 1) * g <= 2 * v * ((1 + h) * f)) by (apply Rmult_le_compat; try lra; [apply Rabs_pos|nra]).
  assert (g - f <= h * f) by nra.
  apply Rle_trans with ((h * (1 + 10 * v) + 20 * v) * f); [|apply Rmult_le_compat_r; lra].
  assert (0 <= h) by lra. assert (0 <= h * v) by nra. assert (0 <= v * f) by nra. assert (0 <= h * v * f) by (apply Rmult_le_pos; lra). nra.
Qed.
Lemma erfcx_ge_1 x : x <= 0 -> 1 <= erfcxR x.
Proof.
  intros H. unfold erfcxR. assert (1 <= exp (x * x)) by (pose proof (exp_ineq1_le (x * x)); nra).
  assert (1 <= erfcR x) by (rewrite <- erfcR_0; apply erfcR_decr; exact H). nra.
Qed.
Section Of.
  Context (cs : list (list (Z * Z))) (s : nat) (bound : Z) (m : Z) (le : Z) (e1 e2 : R).
  Context (Hy : accurate e1 (erfcx_y100 earith elit etoint cs) (Z.of_nat s)).
  Context (Hb : (1 <= bound)%Z) (Hb2 : IZR bound <= 400 / IZR (3 + Z.of_nat s) - 4) (Hm : (0 <= m)%Z).
  Context (Hl2 : IZR m * powerRZ 10 (- le) <= 400 / IZR (3 + Z.of_nat s) - 4).
  Context (He2 : 15 / 4 / (D4 (IZR bound) * D4 (IZR bound)) * (1 + 1 / 10 ^ 36) + 2 / 10 ^ 36 <= e2) (He1 : 0 <= e1).
  Let fn := erfcx_of earith elit etoint eexp cs bound (elit (- m) (- le)).
  Lemma lower_val : elit (- m) (- le) = Fin (- (IZR m * powerRZ 10 (- le))).
  Proof. unfold elit. rewrite opp_IZR. f_equal. ring. Qed.
  Lemma of_pos x : 0 < x <= IZR bound -> exists r, fn (Fin x) = ret (Fin r) /\ Rabs (r - erfcxR x) <= e1 * erfcxR x.
  Proof.
    intros Hx. unfold fn, erfcx_of, gtb, ltb. cbn [a_cmp a_ofZ earith ecmp]. rewrite Raux.Rcompare_Gt by lra.
    replace (match Raux.Rcompare x (IZR bound) with Gt => true | _ => false end) with false.
    2:{ destruct (Raux.Rcompare_spec x (IZR bound)); [reflexivity|reflexivity|lra]. }
    destruct (Hy x ltac:(lra)) as (r & E & A). exists r. split; [|exact A]. exact E.
  Qed.
  Lemma of_big x : IZR bound < x -> exists r, fn (Fin x) = ret (Fin r) /\ Rabs (r - erfcxR x) <= e2 * erfcxR x.
  Proof.
    intros Hx. assert (1 <= IZR bound) by (apply IZR_le, Hb).
    unfold fn, erfcx_of, gtb, ltb. cbn [a_cmp a_ofZ earith ecmp]. rewrite !Raux.Rcompare_Gt by lra.
    exists (ispR * (N4 x / D4 x)). split; [rewrite cf_val by lra; reflexivity|]. apply (cf_accurate (IZR bound)); lra.
  Qed.
  Lemma of_neg x : - (IZR m * powerRZ 10 (- le)) <= x <= 0 -> exists r, fn (Fin x) = ret (Fin r) /\ Rabs (r - erfcxR x) <= e1 * erfcxR (- x).
  Proof.
    intros Hx. unfold fn, erfcx_of, gtb, ltb. rewrite lower_val. cbn [a_cmp a_ofZ earith ecmp].
    replace (match Raux.Rcompare x 0 with Gt => true | _ => false end) with false.
    2:{ destruct (Raux.Rcompare_spec x 0); [reflexivity|reflexivity|lra]. }
    replace (match Raux.Rcompare x (- (IZR m * powerRZ 10 (- le))) with Lt => true | _ => false end) with false.
    2:{ destruct (Raux.Rcompare_spec x (- (IZR m * powerRZ 10 (- le)))); [lra|reflexivity|reflexivity]. }
    destruct (Hy (- x) ltac:(lra)) as (r & E & A). 
    change (a_div earith (Fin 400) (a_sub earith (Fin 4) (Fin x))) with (ediv (Fin 400) (Fin (4 + - x))). rewrite E.
    exists (2 * exp (x * x) - r). split; [reflexivity|].
    replace (2 * exp (x * x) - r - erfcxR x) with (- (r - erfcxR (- x))) by (rewrite (erfcxR_reflect x); ring).
    rewrite Rabs_Ropp. exact A.
  Qed.
  Lemma of_low x : x < - (IZR m * powerRZ 10 (- le)) -> fn (Fin x) = ret PInf.
  Proof.
    intros Hx. assert (0 <= IZR m * powerRZ 10 (- le)) by (apply Rmult_le_pos; [apply IZR_le, Hm|left; apply powerRZ_lt; lra]).
    unfold fn, erfcx_of, gtb, ltb. rewrite lower_val. cbn [a_cmp a_ofZ earith ecmp]. rewrite !Raux.Rcompare_Lt by lra. reflexivity.
  Qed.
  Lemma y100_100 : length cs = 100%nat -> erfcx_y100 earith elit etoint cs (Fin 100) = ret (Fin 1).
  Proof.
    intros L. unfold erfcx_y100, etoint. replace (Raux.Ztrunc 100) with 100%Z by (symmetry; apply (Raux.Ztrunc_IZR 100)).
    change (in_int 100) with true. cbv beta iota delta [bind ret]. change (100 <? 0)%Z with false. cbv iota.
    destruct (nth_error cs (Z.to_nat 100)) eqn:En; [|reflexivity].
    exfalso. assert (H : nth_error cs (Z.to_nat 100) <> None) by congruence. apply nth_error_Some in H. rewrite L in H. change (Z.to_nat 100) with 100%nat in H. lia.
  Qed.
  Lemma of_zero : length cs = 100%nat -> fn (Fin 0) = ret (Fin 1).
  Proof.
    intros L. unfold fn, erfcx_of, gtb, ltb. rewrite lower_val. cbn [a_cmp a_ofZ earith ecmp].
    assert (0 <= IZR m * powerRZ 10 (- le)) by (apply Rmult_le_pos; [apply IZR_le, Hm|left; apply powerRZ_lt; lra]).
    rewrite (Raux.Rcompare_Eq 0 0) by reflexivity.
    replace (match Raux.Rcompare 0 (- (IZR m * powerRZ 10 (- le))) with Lt => true | _ => false end) with false.
    2:{ destruct (Raux.Rcompare_spec 0 (- (IZR m * powerRZ 10 (- le)))); [lra|reflexivity|reflexivity]. }
    change (a_div earith (Fin 400) (a_sub earith (Fin 4) (Fin 0))) with (ediv (Fin 400) (Fin (4 + - 0))). rewrite ediv_pos by lra.
    replace (400 / (4 + - 0)) with 100 by field. rewrite y100_100 by exact L. cbn. do 2 f_equal. rewrite Rmult_0_l, exp_0. ring.
  Qed.
  Lemma of_special : fn PInf = ret (Fin 0) /\ fn NInf = ret PInf /\ fn ENaN = ub.
  Proof.
    unfold fn, erfcx_of. rewrite lower_val. repeat split; try reflexivity.
  Qed.
  Lemma of_all x : - (IZR m * powerRZ 10 (- le)) <= x -> exists r, fn (Fin x) = ret (Fin r) /\
    Rabs (r - erfcxR x) <= Rmax e1 e2 * erfcxR x /\ (x <= IZR bound -> Rabs (r - erfcxR x) <= e1 * erfcxR x).
  Proof.
    intros Hx. pose proof (erfcxR_pos x) as F.
    assert (K : forall e r, e = e1 \/ e = e2 -> Rabs (r - erfcxR x) <= e * erfcxR x -> Rabs (r - erfcxR x) <= Rmax e1 e2 * erfcxR x).
    { intros e r He A. eapply Rle_trans; [exact A|]. apply Rmult_le_compat_r; [lra|]. destruct He as [-> | ->]; [apply Rmax_l|apply Rmax_r]. }
    destruct (Rle_lt_dec x 0) as [H0|H0].
    - destruct (of_neg x ltac:(lra)) as (r & E & A). exists r. split; [exact E|].
      assert (A' : Rabs (r - erfcxR x) <= e1 * erfcxR x).
      { eapply Rle_trans; [exact A|]. apply Rmult_le_compat_l; [exact He1|]. pose proof (erfcx_ge_1 x H0).
        assert (erfcxR (- x) <= 1) by (rewrite <- erfcxR_0; apply erfcx_decr; lra). lra. }
      split; [apply (K e1); auto|auto].
    - destruct (Rle_lt_dec x (IZR bound)) as [H1|H1].
      + destruct (of_pos x ltac:(lra)) as (r & E & A). exists r. split; [exact E|]. split; [apply (K e1); auto|auto].
      + destruct (of_big x H1) as (r & E & A). exists r. split; [exact E|]. split; [apply (K e2); auto|lra].
  Qed.
  Lemma of_overflow d w n x : (0 <= le)%Z -> (20 <= n)%Z -> (0 <= d)%Z -> (0 < w)%Z ->
    (n * L2 * 10 ^ (2 * le) * w <= (m * m * w + d * 10 ^ (2 * le)) * 10 ^ 24)%Z ->
    x < - (IZR m * powerRZ 10 (- le)) -> (1 - IZR d / IZR w) * powerRZ 2 (n + 1) - 1 <= erfcxR x.
  Proof.
    intros Hle Hn Hd Hw C Hx. pose proof (exp_sq_pow2 m le n d w x Hle Hm ltac:(lia) Hd Hw C Hx) as H.
    assert (0 <= IZR m * powerRZ 10 (- le)) by (apply Rmult_le_pos; [apply IZR_le, Hm|left; apply powerRZ_lt; lra]).
    rewrite <- (Ropp_involutive x) at 1. rewrite erfcxR_reflect.
    assert (erfcxR (- x) <= 1) by (rewrite <- erfcxR_0; apply erfcx_decr; lra).
    replace (- x * - x) with (x * x) by ring. rewrite powerRZ_add by lra. change (powerRZ 2 1) with (2 * 1). lra.
  Qed.
End Of.

Lemma cells_len : length erfcx_cells_f = 100%nat /\ length erfcx_cells_d = 100%nat /\ length erfcx_cells_l = 100%nat.
Proof. repeat split; vm_compute; reflexivity. Qed.
Lemma float_y100 : accurate (365 / 10 ^ 10) (erfcx_y100 earith elit etoint erfcx_cells_f) 0.
Proof.
  apply (table_accurate 364 10 0 erfcx_cells_f); [lia|lia|apply float_checked|apply cells_len|].
  replace (IZR (10 ^ 10)) with (10 ^ 10) by (rewrite pow_IZR; reflexivity). lra.
Qed.
Lemma double_y100 : accurate (167 / 10 ^ 19) (erfcx_y100 earith elit etoint erfcx_cells_d) 4.
Proof.
  apply (table_accurate 166 19 4 erfcx_cells_d); [lia|lia|apply double_checked|apply cells_len|].
  replace (IZR (10 ^ 19)) with (10 ^ 19) by (rewrite pow_IZR; reflexivity). lra.
Qed.
Lemma long_y100 : accurate (551 / 10 ^ 22) (erfcx_y100 earith elit etoint erfcx_cells_l) 0.
Proof.
  apply (table_accurate 550 22 0 erfcx_cells_l); [lia|lia|apply long_checked|apply cells_len|].
  replace (IZR (10 ^ 22)) with (10 ^ 22) by (rewrite pow_IZR; reflexivity). lra.
Qed.
Lemma cf_eps b n d e : D4 b = n -> 0 < n -> 0 < d -> 15 / 4 * (1 + 1 / 10 ^ 36) <= (e - 2 / 10 ^ 36) * (n * n) -> 15 / 4 / (D4 b * D4 b) * (1 + 1 / 10 ^ 36) + 2 / 10 ^ 36 <= e.
Proof.
  intros -> Hn _ H. assert (0 < n * n) by nra.
  assert (15 / 4 / (n * n) * (1 + 1 / 10 ^ 36) <= e - 2 / 10 ^ 36); [|lra].
  apply (Rmult_le_reg_r (n * n)); [lra|]. replace (15 / 4 / (n * n) * (1 + 1 / 10 ^ 36) * (n * n)) with (15 / 4 * (1 + 1 / 10 ^ 36)) by (field; lra). exact H.
Qed.
Lemma low_f : IZR 9382413 * powerRZ 10 (- 6) = 9382413 / 10 ^ 6. Proof. reflexivity. Qed.
Lemma low_d : IZR 26628735713751485 * powerRZ 10 (- 15) = 26628735713751485 / 10 ^ 15. Proof. reflexivity. Qed.
Lemma low_l : IZR 10656373801210984173 * powerRZ 10 (- 17) = 10656373801210984173 / 10 ^ 17. Proof. reflexivity. Qed.
Lemma rmax a b : a <= b -> Rmax a b = b. Proof. apply Rmax_right. Qed.
Lemma erfcx_float_accurate x v : is_erfcx x v -> - (9382413 / 10 ^ 6) <= x ->
  exists r, erfcx_float earith elit etoint eexp (Fin x) = ret (Fin r) /\ Rabs (r - v) <= 265 / 10 ^ 9 * v /\ (x <= 5 -> Rabs (r - v) <= 365 / 10 ^ 10 * v).
Proof.
  intros E Hx. apply is_erfcx_eq in E. subst v. rewrite <- low_f in Hx.
  destruct (of_all erfcx_cells_f 0 5 9382413 6 (365 / 10 ^ 10) (265 / 10 ^ 9)) with (x := x) as (r & E & A & A2);
    [apply float_y100|lia|cbn [Z.of_nat Z.add]; lra|eapply Rle_trans; [right; exact low_f|]; cbn [Z.of_nat Z.add]; lra| |lra|exact Hx|].
  { apply (cf_eps 5 (3768 + 3 / 4) 1); [unfold D4; field|lra|lra|lra]. }
  rewrite rmax in A by lra. exists r. split; [exact E|]. split; [exact A|exact A2].
Qed.
Lemma erfcx_double_accurate x v : is_erfcx x v -> - (26628735713751485 / 10 ^ 15) <= x ->
  exists r, erfcx_double earith elit etoint eexp (Fin x) = ret (Fin r) /\ Rabs (r - v) <= 383 / 10 ^ 19 * v /\ (x <= 50 -> Rabs (r - v) <= 167 / 10 ^ 19 * v).
Proof.
  intros E Hx. apply is_erfcx_eq in E. subst v. rewrite <- low_d in Hx.
  destruct (of_all erfcx_cells_d 4 50 26628735713751485 15 (167 / 10 ^ 19) (383 / 10 ^ 19)) with (x := x) as (r & E & A & A2);
    [apply double_y100|lia|cbn [Z.of_nat Pos.of_succ_nat Pos.succ Z.add Pos.add]; lra|eapply Rle_trans; [right; exact low_d|]; cbn [Z.of_nat Pos.of_succ_nat Pos.succ Z.add Pos.add]; lra| |lra|exact Hx|].
  { apply (cf_eps 50 (313125187 + 1 / 2) 1); [unfold D4; field|lra|lra|lra]. }
  rewrite rmax in A by lra. exists r. split; [exact E|]. split; [exact A|exact A2].
Qed.
Lemma erfcx_longdouble_accurate x v : is_erfcx x v -> - (10656373801210984173 / 10 ^ 17) <= x ->
  exists r, erfcx_longdouble earith elit etoint eexp (Fin x) = ret (Fin r) /\ Rabs (r - v) <= 551 / 10 ^ 22 * v.
Proof.
  intros E Hx. apply is_erfcx_eq in E. subst v. rewrite <- low_l in Hx.
  destruct (of_all erfcx_cells_l 0 100 10656373801210984173 17 (551 / 10 ^ 22) (375 / 10 ^ 22)) with (x := x) as (r & E & A & A2);
    [apply long_y100|lia|cbn [Z.of_nat Z.add]; lra|eapply Rle_trans; [right; exact low_l|]; cbn [Z.of_nat Z.add]; lra| |lra|exact Hx|].
  { apply (cf_eps 100 (10005000375) 1); [unfold D4; field|lra|lra|lra]. }
  rewrite Rmax_left in A by lra. exists r. split; [exact E|exact A].
Qed.
Lemma erfcx_overflow x v : is_erfcx x v ->
  (x < - (9382413 / 10 ^ 6) -> erfcx_float earith elit etoint eexp (Fin x) = ret PInf /\ (1 - 19 / 10 ^ 6) * powerRZ 2 128 - 1 <= v) /\
  (x < - (26628735713751485 / 10 ^ 15) -> erfcx_double earith elit etoint eexp (Fin x) = ret PInf /\ (1 - 25 / 10 ^ 14) * powerRZ 2 1024 - 1 <= v) /\
  (x < - (10656373801210984173 / 10 ^ 17) -> erfcx_longdouble earith elit etoint eexp (Fin x) = ret PInf /\ (1 - 14 / 10 ^ 16) * powerRZ 2 16384 - 1 <= v).
Proof.
  intros E. apply is_erfcx_eq in E. subst v.
  assert (P : forall k, IZR (10 ^ Z.of_nat k) = 10 ^ k) by (intros k; rewrite pow_IZR; reflexivity).
  repeat split.
  - apply (of_low erfcx_cells_f 5 9382413 6); [lia|exact H].
  - change 128%Z with (127 + 1)%Z. rewrite <- (P 6%nat). apply (of_overflow 9382413 6); try lia; try exact H; vm_compute; discriminate.
  - apply (of_low erfcx_cells_d 50 26628735713751485 15); [lia|exact H].
  - change 1024%Z with (1023 + 1)%Z. rewrite <- (P 14%nat). apply (of_overflow 26628735713751485 15); try lia; try exact H; vm_compute; discriminate.
  - apply (of_low erfcx_cells_l 100 10656373801210984173 17); [lia|exact H].
  - change 16384%Z with (16383 + 1)%Z. rewrite <- (P 16%nat). apply (of_overflow 10656373801210984173 17); try lia; try exact H; vm_compute; discriminate.
Qed.
Lemma erfcx_special :
  (forall f, f = erfcx_float earith elit etoint eexp \/ f = erfcx_double earith elit etoint eexp \/ f = erfcx_longdouble earith elit etoint eexp ->
    f (Fin 0) = ret (Fin 1) /\ f PInf = ret (Fin 0) /\ f NInf = ret PInf).
Proof.
  destruct cells_len as (L1 & L2 & L3). intros f [->|[->| ->]].
  - split; [apply (of_zero erfcx_cells_f 5 9382413 6); [lia|exact L1]|split; apply (of_special erfcx_cells_f 5 9382413 6)].
  - split; [apply (of_zero erfcx_cells_d 50 26628735713751485 15); [lia|exact L2]|split; apply (of_special erfcx_cells_d 50 26628735713751485 15)].
  - split; [apply (of_zero erfcx_cells_l 100 10656373801210984173 17); [lia|exact L3]|split; apply (of_special erfcx_cells_l 100 10656373801210984173 17)].
Qed.
Lemma erfcx_nan_refuted :
  erfcx_float earith elit etoint eexp ENaN = ub /\ erfcx_double earith elit etoint eexp ENaN = ub /\ erfcx_longdouble earith elit etoint eexp ENaN = ub.
Proof.
  split; [apply (of_special erfcx_cells_f 5 9382413 6)|split; [apply (of_special erfcx_cells_d 50 26628735713751485 15)|apply (of_special erfcx_cells_l 100 10656373801210984173 17)]].
Qed.
(** the float version just above 5 is off by more than 2^-23 *)
Lemma erfcx_float_five_refuted : exists x v r, 5 < x /\ is_erfcx x v /\ erfcx_float earith elit etoint eexp (Fin x) = ret (Fin r) /\ / 2 ^ 23 * v < Rabs (r - v).
Proof.
  set (x := 5 + / 1024). exists x, (erfcxR x), (ispR * (N4 x / D4 x)).
  assert (Hx : 5 < x) by (unfold x; lra).
  split; [exact Hx|]. split; [apply is_erfcx_eq; reflexivity|]. split.
  { unfold erfcx_float, erfcx_of, gtb, ltb. cbn [a_cmp a_ofZ earith ecmp]. rewrite !Raux.Rcompare_Gt by lra. rewrite cf_val by lra. reflexivity. }
  pose proof B_half as HB. pose proof isp_near as I. apply Rabs_le_between in I.
  assert (V : / 10 ^ 37 < / 10 ^ 20) by lra.
  set (e := 45 / 4 / (D5 x * D5 x)).
  assert (Ee : e <= 1 / 10 ^ 7).
  { unfold e. assert (20000 <= D5 x) by (unfold D5, x; lra). assert (400000000 <= D5 x * D5 x) by nra.
    apply (Rmult_le_reg_r (D5 x * D5 x)); [lra|]. replace (45 / 4 / (D5 x * D5 x) * (D5 x * D5 x)) with (45 / 4) by (field; lra). lra. }
  destruct (g5_bounds x ltac:(lra) ltac:(fold e; lra)) as [G1 G2]. fold e in G1.
  pose proof (erfcxR_pos x) as F. unfold g5 in G1, G2.
  assert (Q : N5 x / D5 x * (1 + 24 / 10 ^ 8) <= N4 x / D4 x) by (unfold N5, D5, N4, D4, x; lra).
  assert (Q0 : 0 < N5 x / D5 x) by (apply Rdiv_lt_0_compat; unfold N5, D5, x; lra).
  assert (Q1 : N5 x / D5 x <= 1) by (unfold N5, D5, x; lra).
  replace (B * N5 x / D5 x) with (B * (N5 x / D5 x)) in * by (unfold Rdiv; ring).
  set (q := N5 x / D5 x) in *. set (p := N4 x / D4 x) in *. set (f := erfcxR x) in *. 
  assert (P0 : 0 <= p) by nra. assert (P1 : p <= 2 * q) by (unfold p, q, N5, D5, N4, D4, x; lra). clearbody q p f e.
  assert (K1 : (1 - 1 / 10 ^ 7) * f <= B * q) by nra.
  assert (K2 : B * (q * (1 + 24 / 10 ^ 8)) <= B * p) by (apply Rmult_le_compat_l; lra).
  assert (K3 : (B - / 10 ^ 20) * p <= ispR * p) by (apply Rmult_le_compat_r; lra).
  assert (K4 : / 10 ^ 20 * p <= 4 / 10 ^ 20 * (B * q)) by nra.
  assert (L : (1 + 13 / 10 ^ 8) * f <= ispR * p) by lra.
  rewrite Rabs_right by lra. lra.
Qed.

(** ** the logarithm of the normal distribution function *)
Definition rs2R : R := IZR 7071067811865475244008443621048490393 * powerRZ 10 (- 37).
Lemma rs2_near : Rabs (sqrt 2 * rs2R - 1) <= 2 / 10 ^ 37.
Proof.
  pose proof sqrt2_pos as S. pose proof sqrt2_sq as S2. unfold rs2R. change (powerRZ 10 (- 37)) with (/ 10 ^ 37).
  set (a := IZR 7071067811865475244008443621048490393).
  assert (A : Rabs (2 * (a * a) - 10 ^ 37 * 10 ^ 37) <= 2 * 10 ^ 37).
  { unfold a. apply Rabs_le. lra. }
  assert (A1 : 0 < a) by (unfold a; lra). clearbody a.
  assert (T : 0 < 10 ^ 37) by (apply pow_lt; lra). set (w := 10 ^ 37) in *. clearbody w.
  assert (E : (sqrt 2 * (a * / w) - 1) * (w * (sqrt 2 * a + w)) = 2 * (a * a) - w * w).
  { rewrite <- S2 at 3. field. lra. }
  assert (P : w * w <= w * (sqrt 2 * a + w)) by (assert (0 < sqrt 2 * a) by (apply Rmult_lt_0_compat; lra); apply Rmult_le_compat_l; lra).
  assert (Q : Rabs (sqrt 2 * (a * / w) - 1) * (w * (sqrt 2 * a + w)) <= 2 * w).
  { rewrite <- (Rabs_right (w * (sqrt 2 * a + w))) by (apply Rle_ge; apply Rle_trans with (w * w); [nra|exact P]). rewrite <- Rabs_mult, E. exact A. }
  pose proof (Rabs_pos (sqrt 2 * (a * / w) - 1)) as R0. set (u := Rabs (sqrt 2 * (a * / w) - 1)) in *. clearbody u.
  apply (Rmult_le_reg_r (w * w)); [nra|]. replace (2 / w * (w * w)) with (2 * w) by (field; lra). apply (Rmult_le_compat_l u) in P; lra.
Qed.
Lemma ln_rel r f e : 0 < f -> 0 <= e <= 1 / 2 -> Rabs (r - f) <= e * f -> 0 < r /\ Rabs (ln r - ln f) <= 2 * e.
Proof.
  intros Hf He H. apply Rabs_le_between in H. assert (Hr : 0 < r) by nra. split; [exact Hr|].
  assert (U : forall a b, 0 < a -> 0 < b -> ln a - ln b <= (a - b) / b).
  { intros a b Ha Hb. assert (K : ln (a / b) <= a / b - 1).
    { pose proof (exp_ineq1_le (ln (a / b))) as X. rewrite exp_ln in X by (apply Rdiv_lt_0_compat; lra). lra. }
    unfold Rdiv in K at 1. rewrite ln_mult, ln_Rinv in K by (try apply Rinv_0_lt_compat; lra). replace ((a - b) / b) with (a / b - 1) by (field; lra). lra. }
  apply Rabs_le. split.
  - pose proof (U f r Hf Hr) as K. assert ((f - r) / r <= 2 * e); [|lra].
    apply (Rmult_le_reg_r r); [lra|]. unfold Rdiv. rewrite Rmult_assoc, Rinv_l by lra. nra.
  - pose proof (U r f Hr Hf) as K. assert ((r - f) / f <= e); [|lra].
    apply (Rmult_le_reg_r f); [lra|]. unfold Rdiv. rewrite Rmult_assoc, Rinv_l by lra. lra.
Qed.
Lemma PhiR_pos x : 0 < PhiR x. Proof. unfold PhiR. pose proof (erfcR_pos (- (x / sqrt 2))). lra. Qed.
Lemma elog_pos r : 0 < r -> elog (Fin r) = Fin (ln r).
Proof. intros H. unfold elog. rewrite Raux.Rcompare_Gt by lra. reflexivity. Qed.
Lemma logcdf_accurate erfc erfcx e x : exact_erfc erfc -> 0 <= e <= 1 / 2 ->
  (forall y, 0 < y -> exists r, erfcx (Fin y) = ret (Fin r) /\ Rabs (r - erfcxR y) <= e * erfcxR y) ->
  exists x' r, Rabs (x' - x) <= 2 / 10 ^ 37 * Rabs x /\ logcdf_with earith elit (lift1 erfc) elog elog1p erfcx (Fin x) = ret (Fin r) /\
    (forall v, is_normal_cdf x' v -> 0 < v /\ Rabs (r - ln v) <= 2 * e).
Proof.
  intros HE He HX. pose proof sqrt2_pos as S. pose proof sqrt2_sq as S2.
  set (t := x * rs2R). exists (sqrt 2 * t).
  assert (C : Rabs (sqrt 2 * t - x) <= 2 / 10 ^ 37 * Rabs x).
  { unfold t. replace (sqrt 2 * (x * rs2R) - x) with ((sqrt 2 * rs2R - 1) * x) by ring. rewrite Rabs_mult. apply Rmult_le_compat_r; [apply Rabs_pos|apply rs2_near]. }
  assert (EP : PhiR (sqrt 2 * t) = erfcR (- t) / 2) by (unfold PhiR; do 3 f_equal; field; lra).
  assert (R0 : 0 < rs2R) by (unfold rs2R; apply Rmult_lt_0_compat; [lra|apply powerRZ_lt; lra]).
  unfold logcdf_with, ltb, recip_sqrt2, elit. fold rs2R.
  change (a_mul earith (Fin x) (Fin rs2R)) with (Fin t). cbn [a_cmp a_ofZ earith ecmp].
  destruct (Raux.Rcompare_spec x (-1)) as [H|H|H].
  - assert (T : t < 0) by (unfold t; nra). cbn [a_opp eopp earith]. destruct (HX (- t) ltac:(lra)) as (r & E & A). rewrite E.
    destruct (ln_rel r (erfcxR (- t)) e (erfcxR_pos _) He A) as [Pr B1].
    exists (ln (r / 2) - t * t). split; [exact C|]. split.
    + cbn [bind ret]. unfold bind, ret. cbn [a_div a_sub a_mul earith]. rewrite ediv_pos, elog_pos by lra. reflexivity.
    + intros v Hv. apply is_cdf_eq in Hv. subst v. rewrite EP. pose proof (erfcR_pos (- t)) as Pe. split; [lra|].
      unfold erfcxR in B1. rewrite ln_mult, ln_exp in B1 by (try apply exp_pos; lra).
      unfold Rdiv. rewrite !ln_mult by lra. replace (- t * - t) with (t * t) in B1 by ring.
      replace (ln r + ln (/ 2) - t * t - (ln (erfcR (- t)) + ln (/ 2))) with (ln r - (t * t + ln (erfcR (- t)))) by ring. exact B1.
  - subst x. exists (ln (erfcR (- t) / 2)). split; [exact C|]. split.
    + cbn [a_opp eopp earith lift1 a_div]. rewrite ediv_pos by lra. specialize (HE t). apply is_erfc_eq in HE. rewrite HE. pose proof (erfcR_pos (- t)) as Pe. rewrite erfcR_reflect in *.
      unfold elog1p. rewrite Raux.Rcompare_Gt by lra. do 3 f_equal. field.
    + intros v Hv. apply is_cdf_eq in Hv. subst v. rewrite EP. pose proof (erfcR_pos (- t)) as Pe. split; [lra|]. unfold Rminus. rewrite Rplus_opp_r, Rabs_R0. lra.
  - exists (ln (erfcR (- t) / 2)). split; [exact C|]. split.
    + cbn [a_opp eopp earith lift1 a_div]. rewrite ediv_pos by lra. specialize (HE t). apply is_erfc_eq in HE. rewrite HE. pose proof (erfcR_pos (- t)) as Pe. rewrite erfcR_reflect in *.
      unfold elog1p. rewrite Raux.Rcompare_Gt by lra. do 3 f_equal. field.
    + intros v Hv. apply is_cdf_eq in Hv. subst v. rewrite EP. pose proof (erfcR_pos (- t)) as Pe. split; [lra|]. unfold Rminus. rewrite Rplus_opp_r, Rabs_R0. lra.
Qed.
Lemma logcdf_double erfc x : exact_erfc erfc ->
  exists x' r, Rabs (x' - x) <= 2 / 10 ^ 37 * Rabs x /\ logcdf_with earith elit (lift1 erfc) elog elog1p (erfcx_double earith elit etoint eexp) (Fin x) = ret (Fin r) /\
    (forall v, is_normal_cdf x' v -> 0 < v /\ Rabs (r - ln v) <= 8 / 10 ^ 17).
Proof.
  intros HE. destruct (logcdf_accurate erfc (erfcx_double earith elit etoint eexp) (4 / 10 ^ 17) x HE ltac:(lra)) as (x' & r & A & E & V).
  { intros y Hy. destruct (erfcx_double_accurate y (erfcxR y)) as (r & E & A & _); [apply is_erfcx_eq; reflexivity|lra|]. exists r. split; [exact E|].
    pose proof (erfcxR_pos y). eapply Rle_trans; [exact A|]. apply Rmult_le_compat_r; lra. }
  exists x', r. split; [exact A|]. split; [exact E|]. intros v Hv. destruct (V v Hv) as [P Q]. split; [exact P|lra].
Qed.
Lemma logcdf_float erfc x : exact_erfc erfc ->
  exists x' r, Rabs (x' - x) <= 2 / 10 ^ 37 * Rabs x /\ logcdf_with earith elit (lift1 erfc) elog elog1p (erfcx_float earith elit etoint eexp) (Fin x) = ret (Fin r) /\
    (forall v, is_normal_cdf x' v -> 0 < v /\ Rabs (r - ln v) <= 53 / 10 ^ 8).
Proof.
  intros HE. destruct (logcdf_accurate erfc (erfcx_float earith elit etoint eexp) (265 / 10 ^ 9) x HE ltac:(lra)) as (x' & r & A & E & V).
  { intros y Hy. destruct (erfcx_float_accurate y (erfcxR y)) as (r & E & A & _); [apply is_erfcx_eq; reflexivity|lra|]. exists r. split; [exact E|exact A]. }
  exists x', r. split; [exact A|]. split; [exact E|]. intros v Hv. destruct (V v Hv) as [P Q]. split; [exact P|lra].
Qed.
Lemma logcdf_longdouble erfc x : exact_erfc erfc ->
  exists x' r, Rabs (x' - x) <= 2 / 10 ^ 37 * Rabs x /\ logcdf_with earith elit (lift1 erfc) elog elog1p (erfcx_longdouble earith elit etoint eexp) (Fin x) = ret (Fin r) /\
    (forall v, is_normal_cdf x' v -> 0 < v /\ Rabs (r - ln v) <= 12 / 10 ^ 20).
Proof.
  intros HE. destruct (logcdf_accurate erfc (erfcx_longdouble earith elit etoint eexp) (6 / 10 ^ 20) x HE ltac:(lra)) as (x' & r & A & E & V).
  { intros y Hy. destruct (erfcx_longdouble_accurate y (erfcxR y)) as (r & E & A); [apply is_erfcx_eq; reflexivity|lra|]. exists r. split; [exact E|].
    pose proof (erfcxR_pos y). eapply Rle_trans; [exact A|]. apply Rmult_le_compat_r; lra. }
  exists x', r. split; [exact A|]. split; [exact E|]. intros v Hv. destruct (V v Hv) as [P Q]. split; [exact P|lra].
Qed.
Lemma PhiR_opp x : PhiR (- x) = 1 - PhiR x.
Proof. unfold PhiR. replace (- (- x / sqrt 2)) with (- (- (x / sqrt 2))) by (unfold Rdiv; ring). rewrite (erfcR_reflect (- (x / sqrt 2))). field. Qed.
Lemma logsf_double erfc x : exact_erfc erfc ->
  exists x' r, Rabs (x' - x) <= 2 / 10 ^ 37 * Rabs x /\ logsf_with earith elit (lift1 erfc) elog elog1p (erfcx_double earith elit etoint eexp) (Fin x) = ret (Fin r) /\
    (forall v, is_normal_cdf x' v -> v < 1 /\ Rabs (r - ln (1 - v)) <= 8 / 10 ^ 17).
Proof.
  intros HE. destruct (logcdf_double erfc (- x) HE) as (x' & r & A & E & V). exists (- x'), r. split; [|split; [exact E|]].
  - replace (- x' - x) with (- (x' - - x)) by ring. rewrite Rabs_Ropp. rewrite Rabs_Ropp in A. exact A.
  - intros v Hv. apply is_cdf_eq in Hv. subst v. rewrite PhiR_opp. replace (1 - (1 - PhiR x')) with (PhiR x') by ring.
    destruct (V (PhiR x') (is_cdf_PhiR x')) as [P Q]. split; [lra|exact Q].
Qed.
Lemma logcdf_special erfc : let f := logcdf_with earith elit erfc elog elog1p (erfcx_double earith elit etoint eexp) in
  f NInf = ret NInf /\ (erfc PInf = Fin 0 -> f PInf = ret (Fin 0)) /\ (erfc ENaN = ENaN -> f ENaN = ret ENaN).
Proof.
  assert (R0 : 0 < rs2R) by (unfold rs2R; apply Rmult_lt_0_compat; [lra|apply powerRZ_lt; lra]).
  assert (M : forall b, scale_inf rs2R b = if b then PInf else NInf) by (intros b; unfold scale_inf; rewrite Raux.Rcompare_Gt by lra; reflexivity).
  intros f. unfold f, logcdf_with. change (recip_sqrt2 elit) with (Fin rs2R). split; [|split].
  - change (a_mul earith NInf (Fin rs2R)) with (scale_inf rs2R false). rewrite M.
    change (ltb (a_cmp earith) NInf (a_ofZ earith (-1))) with true. cbv iota zeta. change (a_opp earith NInf) with PInf.
    rewrite (proj1 (proj2 (erfcx_special (erfcx_double earith elit etoint eexp) (or_intror (or_introl eq_refl))))).
    cbv beta iota delta [bind ret]. change (a_div earith (Fin 0) (a_ofZ earith 2)) with (ediv (Fin 0) (Fin 2)). rewrite ediv_pos by lra. unfold elog. rewrite Raux.Rcompare_Eq by lra. reflexivity.
  - intros E. change (a_mul earith PInf (Fin rs2R)) with (scale_inf rs2R true). rewrite M.
    change (ltb (a_cmp earith) PInf (a_ofZ earith (-1))) with false. cbv iota zeta. rewrite E.
    change (a_div earith (a_opp earith (Fin 0)) (a_ofZ earith 2)) with (ediv (Fin (- 0)) (Fin 2)). rewrite ediv_pos by lra. unfold elog1p. rewrite Raux.Rcompare_Gt by lra. do 2 f_equal. replace (1 + - 0 / 2) with 1 by field. apply ln_1.
  - intros E. cbn. rewrite E. reflexivity.
Qed.

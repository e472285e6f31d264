(** * P_LogFact: accuracy of logfactorial in exact arithmetic (C51) *)
From Coq Require Import ZArith Reals List Bool Lia Lra.
From Coquelicot Require Import Coquelicot.
From Flocq Require Raux.
From Verif Require Import CSem Num NumP M_Special S_Special.
Import ListNotations.
Open Scope R_scope.

(** ** atanh series *)
Fixpoint Sn (n : nat) (z : R) : R := match n with O => 0 | S n' => Sn n' z + z ^ (2 * n' + 1) / INR (2 * n' + 1) end.
Fixpoint Gn (n : nat) (z : R) : R := match n with O => 0 | S n' => Gn n' z + z ^ (2 * n') end.
Lemma Gn_geo n z : (1 - z * z) * Gn n z = 1 - z ^ (2 * n).
Proof.
  induction n; [cbn; ring|]. cbn [Gn]. rewrite Rmult_plus_distr_l, IHn.
  replace (2 * S n)%nat with (2 * n + 2)%nat by lia. rewrite pow_add. cbn. ring.
Qed.
Lemma Sn_derive n z : is_derive (Sn n) z (Gn n z).
Proof.
  induction n; cbn [Sn Gn]; [apply @is_derive_const|].
  apply (is_derive_plus (Sn n) (fun z => z ^ (2 * n + 1) / INR (2 * n + 1)) z (Gn n z) (z ^ (2 * n)) IHn).
  assert (N : INR (2 * n + 1) <> 0) by (apply not_0_INR; lia).
  assert (Hp : pred (2 * n + 1) = (2 * n)%nat) by lia. set (m := (2 * n + 1)%nat) in *. clearbody m.
  auto_derive; [exact I|]. rewrite Hp. field. exact N.
Qed.
Lemma Sn_0 n : Sn n 0 = 0.
Proof. induction n; cbn [Sn]; [reflexivity|]. rewrite IHn, pow_i by lia. unfold Rdiv. ring. Qed.
Definition atanh_ (z : R) := (ln (1 + z) - ln (1 - z)) / 2.

Lemma mono_from_0 (f f' : R -> R) z : 0 < z -> (forall c, 0 <= c <= z -> is_derive f c (f' c)) -> (forall c, 0 <= c <= z -> 0 <= f' c) ->
  f 0 = 0 -> 0 <= f z.
Proof.
  intros Hz D P E. destruct (MVT_cor2 f f' 0 z Hz) as (c & E1 & Hc).
  { intros c Hc. apply is_derive_Reals. now apply D. }
  assert (0 <= f' c) by (apply P; lra). rewrite E in E1. nra.
Qed.
Lemma atanh_lower n z : 0 < z < 1 -> Sn n z <= atanh_ z.
Proof.
  intros Hz. enough (0 <= atanh_ z - Sn n z) by lra.
  apply (mono_from_0 (fun z => atanh_ z - Sn n z) (fun z => z ^ (2 * n) / (1 - z * z))); [lra| | |].
  - intros c Hc. assert (1 - c * c <> 0) by nra.
    replace (c ^ (2 * n) / (1 - c * c)) with (1 / (1 - c * c) - Gn n c).
    2:{ pose proof (Gn_geo n c) as E. replace (c ^ (2 * n)) with (1 - (1 - c * c) * Gn n c) by lra. field. exact H. }
    apply (is_derive_minus atanh_ (Sn n) c); [|apply Sn_derive].
    unfold atanh_. auto_derive; [repeat split; lra|]. field. repeat split; nra.
  - intros c Hc. apply Rmult_le_pos; [apply pow_le; lra|]. apply Rlt_le, Rinv_0_lt_compat. nra.
  - unfold atanh_. rewrite Sn_0, Rplus_0_r, !Rminus_0_r, ln_1. lra.
Qed.
Lemma atanh_upper n z : 0 < z < 1 -> atanh_ z <= Sn n z + z ^ (2 * n + 1) / (INR (2 * n + 1) * (1 - z * z)).
Proof.
  intros Hz. enough (0 <= z ^ (2 * n + 1) / (INR (2 * n + 1) * (1 - z * z)) - (atanh_ z - Sn n z)) by lra.
  assert (N : 0 < INR (2 * n + 1)) by (apply lt_0_INR; lia).
  apply (mono_from_0 (fun z => z ^ (2 * n + 1) / (INR (2 * n + 1) * (1 - z * z)) - (atanh_ z - Sn n z))
          (fun z => z ^ (2 * n + 1) * (2 * z) / (INR (2 * n + 1) * ((1 - z * z) * (1 - z * z))))); [lra| | |].
  - intros c Hc. assert (H : 1 - c * c <> 0) by nra. assert (N' : INR (2 * n + 1) <> 0) by lra.
    replace (c ^ (2 * n + 1) * (2 * c) / (INR (2 * n + 1) * ((1 - c * c) * (1 - c * c)))) with
      (c ^ (2 * n) / (1 - c * c) + c ^ (2 * n + 1) * (2 * c) / (INR (2 * n + 1) * ((1 - c * c) * (1 - c * c))) - (1 / (1 - c * c) - Gn n c)).
    2:{ pose proof (Gn_geo n c) as E. replace (c ^ (2 * n)) with (1 - (1 - c * c) * Gn n c) by lra. field. split; assumption. }
    apply (is_derive_minus (fun z => z ^ (2 * n + 1) / (INR (2 * n + 1) * (1 - z * z))) (fun z => atanh_ z - Sn n z) c).
    + assert (EP := pow_add c (2 * n) 1). assert (Hp : pred (2 * n + 1) = (2 * n)%nat) by lia. set (m := (2 * n + 1)%nat) in *. clearbody m.
      auto_derive; [intros X; apply Rmult_integral in X; destruct X; [now apply N'|apply H; lra]|]. rewrite Hp, EP. field. split; assumption.
    + apply (is_derive_minus atanh_ (Sn n) c); [|apply Sn_derive].
      unfold atanh_. auto_derive; [repeat split; lra|]. field. repeat split; nra.
  - intros c Hc. apply Rmult_le_pos; [apply Rmult_le_pos; [apply pow_le|]; lra|].
    apply Rlt_le, Rinv_0_lt_compat. apply Rmult_lt_0_compat; [exact N|]. apply Rmult_lt_0_compat; nra.
  - unfold atanh_. rewrite Sn_0, Rplus_0_r, !Rminus_0_r, ln_1, pow_i by lia. unfold Rdiv. ring.
Qed.

(** ln((k+1)/k) = 2 atanh(1/(2k+1)) *)
Lemma ln_ratio k : 0 < k -> ln (k + 1) - ln k = 2 * atanh_ (1 / (2 * k + 1)).
Proof.
  intros Hk. unfold atanh_. replace (1 + 1 / (2 * k + 1)) with ((k + 1) * (2 / (2 * k + 1))) by (field; lra).
  replace (1 - 1 / (2 * k + 1)) with (k * (2 / (2 * k + 1))) by (field; lra).
  assert (0 < 2 / (2 * k + 1)) by (apply Rdiv_lt_0_compat; lra).
  rewrite !ln_mult by lra. lra.
Qed.

(** ** fixed-point logarithms: the value of [lnI k] over [D] is ln k *)
Definition D : Z := (10 ^ 36)%Z.
Local Opaque D.
Lemma D_pos : 0 < IZR D. Proof. apply IZR_lt. vm_compute. reflexivity. Qed.
Fixpoint lo (n : nat) (q : Z) : Z :=
  match n with O => 0%Z | S n' => (lo n' q + 2 * D / ((2 * Z.of_nat n' + 1) * q ^ (2 * Z.of_nat n' + 1)))%Z end.
Lemma div_bounds a b : (0 < b)%Z -> IZR (a / b) <= IZR a / IZR b <= IZR (a / b) + 1.
Proof.
  intros Hb. pose proof (Z.div_mod a b ltac:(lia)) as E. pose proof (Z.mod_pos_bound a b Hb) as M.
  assert (B : 0 < IZR b) by now apply IZR_lt.
  assert (E' : IZR a = IZR b * IZR (a / b) + IZR (a mod b)) by (rewrite <- mult_IZR, <- plus_IZR; now f_equal).
  assert (0 <= IZR (a mod b) <= IZR b) by (split; apply IZR_le; lia).
  rewrite E'. split; apply (Rmult_le_reg_l (IZR b)); auto; unfold Rdiv;
    replace (IZR b * ((IZR b * IZR (a / b) + IZR (a mod b)) * / IZR b)) with (IZR b * IZR (a / b) + IZR (a mod b)) by (field; lra); nra.
Qed.
Lemma lo_Sn n q : (0 < q)%Z -> IZR (lo n q) <= 2 * IZR D * Sn n (1 / IZR q) <= IZR (lo n q) + INR n.
Proof.
  intros Hq. assert (Q : 0 < IZR q) by now apply IZR_lt.
  induction n as [|n IH]; [cbn [lo Sn INR]; rewrite Rmult_0_r; lra|]. cbn [lo Sn]. set (w := (2 * Z.of_nat n + 1)%Z).
  assert (Hw : (0 < w)%Z) by (unfold w; lia).
  pose proof (div_bounds (2 * D) (w * q ^ w) ltac:(apply Z.mul_pos_pos; [lia|apply Z.pow_pos_nonneg; lia])) as B.
  assert (E : IZR (2 * D) / IZR (w * q ^ w) = 2 * IZR D * ((1 / IZR q) ^ (2 * n + 1) / INR (2 * n + 1))).
  { rewrite !mult_IZR. assert (EW : IZR w = INR (2 * n + 1)) by (rewrite INR_IZR_INZ; f_equal; unfold w; lia).
    rewrite EW. replace w with (Z.of_nat (2 * n + 1)) by (unfold w; lia). rewrite <- pow_IZR.
    replace (1 / IZR q) with (/ IZR q) by (field; lra). rewrite <- Rinv_pow by lra. field. split; [apply pow_nonzero; lra|apply not_0_INR; lia]. }
  rewrite E in B. rewrite plus_IZR, S_INR, Rmult_plus_distr_l. lra.
Qed.
(** the same sum with a running power *)
Fixpoint lor (n : nat) (w p q2 acc : Z) : Z :=
  match n with O => acc | S n' => lor n' (w + 2) (q2 * p) q2 (acc + 2 * D / (w * p)) end.
Lemma lor_lo n q : forall i, lor n (2 * Z.of_nat i + 1) (q ^ (2 * Z.of_nat i + 1)) (q * q) (lo i q) = lo (i + n) q.
Proof.
  induction n as [|n IH]; intros i; [now rewrite Nat.add_0_r|]. cbn [lor]. replace (i + S n)%nat with (S i + n)%nat by lia. rewrite <- (IH (S i)).
  cbn [lo]. rewrite Nat2Z.inj_succ. replace (2 * Z.succ (Z.of_nat i) + 1)%Z with (2 + (2 * Z.of_nat i + 1))%Z by lia.
  rewrite (Z.pow_add_r q 2) by lia. replace (q ^ 2)%Z with (q * q)%Z by (rewrite Z.pow_2_r; reflexivity). f_equal. lia.
Qed.
(** one step: ln(j+1) - ln j *)
Definition nT : nat := 40.
Definition loF (q : Z) : Z := lor nT 1 q (q * q) 0.
Lemma loF_lo q : loF q = lo nT q.
Proof. unfold loF. pose proof (lor_lo nT q 0) as H. cbn [Z.of_nat Z.mul Z.add lo] in H. rewrite Z.pow_1_r in H. exact H. Qed.
Lemma step_bounds j : (1 <= j)%Z ->
  IZR (loF (2 * j + 1)) <= IZR D * (ln (IZR j + 1) - ln (IZR j)) <= IZR (loF (2 * j + 1)) + 41.
Proof.
  intros Hj. rewrite loF_lo. assert (J : 1 <= IZR j) by (apply IZR_le; lia). rewrite ln_ratio by lra.
  assert (Q : IZR (2 * j + 1) = 2 * IZR j + 1) by (rewrite plus_IZR, mult_IZR; reflexivity).
  pose proof (lo_Sn nT (2 * j + 1) ltac:(lia)) as B. rewrite Q in B. set (z := 1 / (2 * IZR j + 1)) in *.
  assert (Hz : 0 < z <= / 3).
  { unfold z. split; [apply Rdiv_lt_0_compat; lra|]. unfold Rdiv. rewrite Rmult_1_l. apply Rinv_le_contravar; lra. }
  pose proof (atanh_lower nT z ltac:(lra)) as L. pose proof (atanh_upper nT z ltac:(lra)) as U.
  assert (HD : 0 < IZR D) by exact D_pos.
  assert (R : 2 * IZR D * (z ^ (2 * nT + 1) / (INR (2 * nT + 1) * (1 - z * z))) <= 1).
  { assert (z ^ (2 * nT + 1) <= (/ 3) ^ 81) by (apply pow_incr; lra).
    assert (H1 : z ^ (2 * nT + 1) / (INR (2 * nT + 1) * (1 - z * z)) <= (/ 3) ^ 81).
    { apply Rle_trans with (z ^ (2 * nT + 1) / 1); [|lra]. unfold Rdiv. apply Rmult_le_compat_l; [apply pow_le; lra|].
      apply Rinv_le_contravar; [lra|]. assert (81 <= INR (2 * nT + 1)) by (rewrite INR_IZR_INZ; apply IZR_le; vm_compute; discriminate).
      assert (z * z <= / 9) by nra. apply Rle_trans with (81 * (8 / 9)); [lra|apply Rmult_le_compat; lra]. }
    apply Rle_trans with (2 * IZR D * (/ 3) ^ 81); [apply Rmult_le_compat_l; lra|].
    rewrite pow_inv, pow_IZR. apply (Rmult_le_reg_r (IZR (3 ^ Z.of_nat 81))); [apply IZR_lt; reflexivity|].
    rewrite Rmult_assoc, Rinv_l, Rmult_1_r, Rmult_1_l by (apply IZR_neq; vm_compute; discriminate).
    rewrite <- mult_IZR. apply IZR_le. vm_compute. discriminate. }
  assert (INR nT = 40) by (rewrite INR_IZR_INZ; reflexivity).
  assert (2 * IZR D * Sn nT z <= 2 * IZR D * atanh_ z) by (apply Rmult_le_compat_l; lra).
  assert (2 * IZR D * atanh_ z <= 2 * IZR D * (Sn nT z + z ^ (2 * nT + 1) / (INR (2 * nT + 1) * (1 - z * z)))) by (apply Rmult_le_compat_l; lra).
  lra.
Qed.

(** running ln k and ln k! : pairs (D ln k, D ln k!) for k = 1, 2, ... *)
Fixpoint lnrun (n : nat) : Z * Z * Z :=
  match n with
  | O => (1, 0, 0)%Z
  | S n' => let '(k, a, f) := lnrun n' in let a' := (a + loF (2 * k + 1))%Z in ((k + 1)%Z, a', (f + a')%Z)
  end.
Lemma lnrun_k n : fst (fst (lnrun n)) = (Z.of_nat n + 1)%Z.
Proof. induction n; [reflexivity|]. cbn [lnrun]. destruct (lnrun n) as [[k a] f]. cbn [fst] in *. lia. Qed.
Lemma ln_fact_S n : ln_fact (S n) = ln_fact n + ln (INR n + 1).
Proof.
  unfold ln_fact. rewrite fact_simpl, mult_INR, S_INR. pose proof (pos_INR n).
  rewrite ln_mult; [ring|lra|]. apply lt_0_INR, lt_O_fact.
Qed.
Lemma lnrun_bounds n : let '(k, a, f) := lnrun n in
  IZR a <= IZR D * ln (INR n + 1) <= IZR a + 41 * INR n /\
  IZR f <= IZR D * ln_fact (S n) <= IZR f + 41 * INR n * (INR n + 1).
Proof.
  induction n as [|n IH].
  - cbn [lnrun]. rewrite ln_fact_S. unfold ln_fact. cbn. rewrite Rplus_0_l, ln_1. lra.
  - pose proof (lnrun_k n) as K. cbn [lnrun]. destruct (lnrun n) as [[k a] f]. cbn [fst] in K. destruct IH as [Ha Hf].
    pose proof (step_bounds k ltac:(lia)) as B.
    assert (EK : IZR k = INR n + 1) by (rewrite K, plus_IZR, <- INR_IZR_INZ; reflexivity).
    rewrite EK in B. rewrite (ln_fact_S (S n)), !S_INR, !plus_IZR. pose proof (pos_INR n). nra.
Qed.

(** the table *)
Definition lit_scaled (p : Z * Z) : Z := (fst p * 10 ^ (36 + snd p))%Z.
Fixpoint check_table (l : list (Z * Z)) (k a f : Z) : bool :=
  match l with
  | [] => true
  | p :: l' =>
      (* p is the entry for k, and (a, f) the run at k *)
      let a' := (a + loF (2 * k + 1))%Z in
      ((-36 <=? snd p) && (snd p <=? 0) && (Z.abs (lit_scaled p - f) * 10 ^ 18 + 2 * 10 ^ 24 <=? 140 * f))%Z
      && check_table l' (k + 1) a' (f + a')
  end.
Lemma table_checked : check_table (skipn 2 logfact) 2 (loF 3) (loF 3) = true.
Proof. vm_compute. reflexivity. Qed.

Lemma powerRZ_scaled m e : (-36 <= e <= 0)%Z -> IZR m * powerRZ 10 e * IZR D = IZR (m * 10 ^ (36 + e)).
Proof.
  intros He. replace e with (- (- e))%Z by lia. set (j := (- e)%Z) in *. assert (Hj : (0 <= j <= 36)%Z) by lia. clearbody j.
  replace (36 + - j)%Z with (36 - j)%Z by lia.
  assert (E : IZR D = IZR (10 ^ (36 - j)) * IZR (10 ^ j)).
  { rewrite <- mult_IZR, <- Z.pow_add_r by lia. replace (36 - j + j)%Z with 36%Z by lia. reflexivity. }
  rewrite powerRZ_neg', E, mult_IZR.
  assert (P : powerRZ 10 j = IZR (10 ^ j)).
  { rewrite <- (Z2Nat.id j) at 1 by lia. rewrite <- pow_powerRZ, pow_IZR, Z2Nat.id by lia. reflexivity. }
  rewrite P. field. apply IZR_neq. pose proof (Z.pow_pos_nonneg 10 j). lia.
Qed.

Lemma check_table_spec l : forall n a f, lnrun n = (Z.of_nat n + 1, a, f)%Z -> (1 <= n <= 200)%nat ->
  check_table l (Z.of_nat n + 1) a f = true ->
  forall i p, nth_error l i = Some p -> (n + i <= 200)%nat ->
    Rabs (IZR (fst p) * powerRZ 10 (snd p) - ln_fact (S (n + i))) <= 140 / 10 ^ 18 * ln_fact (S (n + i)).
Proof.
  induction l as [|q l IH]; intros n a f E Hn H i p Hi HI; [now destruct i|].
  cbn [check_table] in H. apply andb_prop in H. destruct H as [H HR]. destruct i as [|i].
  - injection Hi as <-. rewrite Nat.add_0_r. rewrite !andb_true_iff, !Z.leb_le in H. destruct H as [[H1 H2] H3].
    pose proof (lnrun_bounds n) as B. rewrite E in B. destruct B as [_ B].
    pose proof (powerRZ_scaled (fst q) (snd q) (conj H1 H2)) as PS. unfold lit_scaled in H3.
    set (m := (fst q * 10 ^ (36 + snd q))%Z) in *. apply IZR_le in H3. rewrite plus_IZR, !mult_IZR, abs_IZR, minus_IZR in H3.
    set (v := IZR (fst q) * powerRZ 10 (snd q)) in *. set (L := ln_fact (S n)) in *.
    pose proof D_pos as DP.
    assert (HN : 41 * INR n * (INR n + 1) <= 41 * 200 * 201).
    { assert (0 <= INR n <= 200) by (split; [apply pos_INR|rewrite INR_IZR_INZ; apply IZR_le; lia]).
      apply Rmult_le_compat; lra. }
    apply (Rmult_le_reg_r (IZR D)); [exact DP|].
    rewrite <- (Rabs_right (IZR D)) at 1 by lra. rewrite <- Rabs_mult. replace ((v - L) * IZR D) with (IZR m - IZR D * L) by (rewrite <- PS; ring).
    assert (P18 : IZR (10 ^ 18) = 10 ^ 18) by (change (10 ^ 18)%Z with (10 ^ Z.of_nat 18)%Z; symmetry; apply pow_IZR).
    assert (P24 : IZR (10 ^ 24) = 10 ^ 18 * 1000000) by (change (10 ^ 24)%Z with (10 ^ Z.of_nat 24)%Z; rewrite <- pow_IZR; cbn [pow]; ring).
    rewrite P18, P24 in H3. assert (T : 0 < 10 ^ 18) by (apply pow_lt; lra). set (t := 10 ^ 18) in *. clearbody t.
    replace (140 / t * L * IZR D) with (140 * (IZR D * L) / t) by (field; lra).
    apply (Rmult_le_reg_r t); [exact T|]. replace (140 * (IZR D * L) / t * t) with (140 * (IZR D * L)) by (field; lra).
    assert (TB : Rabs (IZR m - IZR D * L) <= Rabs (IZR m - IZR f) + 1648200).
    { replace (IZR m - IZR D * L) with ((IZR m - IZR f) + - (IZR D * L - IZR f)) by ring.
      eapply Rle_trans; [apply Rabs_triang|]. rewrite Rabs_Ropp. apply Rplus_le_compat_l. apply Rabs_le. lra. }
    assert (T6 : 1648200 * t <= t * 1000000 * 2) by lra.
    assert (Rabs (IZR m - IZR D * L) * t <= (Rabs (IZR m - IZR f) + 1648200) * t) by (apply Rmult_le_compat_r; lra).
    lra.
  - cbn [nth_error] in Hi. replace (n + S i)%nat with (S n + i)%nat by lia.
    refine (IH (S n) _ _ _ _ _ i p Hi _); [|lia| |lia].
    + cbn [lnrun]. rewrite E. rewrite Nat2Z.inj_succ. unfold Z.succ. reflexivity.
    + replace (Z.of_nat (S n) + 1)%Z with (Z.of_nat n + 1 + 1)%Z by lia. exact HR.
Qed.

(** ** Stirling's series with two correction terms *)
Definition half_ln_2pi : R := IZR 9189385332046728 * powerRZ 10 (-16).
Definition hS (x : R) : R := 1 / x * (1 / 12 - 1 / (360 * x * x)).
Definition St (x : R) : R := (x + / 2) * ln x - x + (half_ln_2pi + hS x).

Lemma stirling_step x : 126 <= x -> let z := 1 / (2 * x + 1) in
  0 <= St (x + 1) - St x - ln (x + 1) <= z ^ 6 / 3.
Proof.
  intros Hx z. assert (Hz : 0 < z <= / 253).
  { unfold z. split; [apply Rdiv_lt_0_compat; lra|]. unfold Rdiv. rewrite Rmult_1_l. apply Rinv_le_contravar; lra. }
  assert (EX : x = (1 - z) / (2 * z)) by (unfold z; field; lra).
  assert (E : St (x + 1) - St x - ln (x + 1) = (x + / 2) * (ln (x + 1) - ln x) - 1 + (hS (x + 1) - hS x)) by (unfold St; ring).
  rewrite E, ln_ratio by lra. fold z. clear E.
  set (w := z * z). assert (Hw : 0 < w <= / 253 * / 253) by (unfold w; split; [nra|apply Rmult_le_compat; lra]).
  assert (EH : hS (x + 1) - hS x = - w / (3 * (1 - w)) + w * w * (6 + 2 * w) / (45 * ((1 - w) * (1 - w) * (1 - w)))).
  { unfold hS, w. rewrite EX. field. repeat split; nra. }
  assert (EA : (x + / 2) * (2 * atanh_ z) = atanh_ z / z) by (rewrite EX; field; lra).
  rewrite EH, EA. pose proof (atanh_lower 4 z ltac:(lra)) as L. pose proof (atanh_upper 3 z ltac:(lra)) as U.
  assert (L' : 1 + w / 3 + w * w / 5 + w * w * w / 7 <= atanh_ z / z).
  { apply (Rmult_le_reg_r z); [lra|]. replace (atanh_ z / z * z) with (atanh_ z) by (field; lra).
    eapply Rle_trans; [|exact L]. right. unfold w. cbn [Sn Nat.mul Nat.add INR pow]. field. }
  assert (U' : atanh_ z / z <= 1 + w / 3 + w * w / 5 + w * w * w / (7 * (1 - w))).
  { apply (Rmult_le_reg_r z); [lra|]. replace (atanh_ z / z * z) with (atanh_ z) by (field; lra).
    eapply Rle_trans; [exact U|]. right. unfold w. cbn [Sn Nat.mul Nat.add INR pow]. field. nra. }
  replace (z ^ 6) with (w * w * w) by (unfold w; ring). clear EX EH EA L U. clearbody w. clear Hz. set (a := atanh_ z / z) in *. clearbody a.
  set (o := (1 - w) * (1 - w) * (1 - w)) in *. assert (O : 0 < o) by (unfold o; apply Rmult_lt_0_compat; nra).
  assert (W3 : 0 < w * w * w) by (apply Rmult_lt_0_compat; nra).
  split.
  - eapply Rle_trans; [|apply Rplus_le_compat_r, Rplus_le_compat_r; exact L'].
    apply (Rmult_le_reg_r o); [exact O|]. rewrite Rmult_0_l.
    replace ((1 + w / 3 + w * w / 5 + w * w * w / 7 + - (1) + (- w / (3 * (1 - w)) + w * w * (6 + 2 * w) / (45 * o))) * o)
      with (w * w * w * (16 / 63 - 17 / 105 * w + 8 / 35 * (w * w) - 1 / 7 * (w * w * w))) by (unfold o; field; lra).
    apply Rmult_le_pos; [lra|]. assert (0 <= w * w <= w) by nra. assert (0 <= w * w * w <= w * w) by (split; nra). lra.
  - eapply Rle_trans; [apply Rplus_le_compat_r, Rplus_le_compat_r; exact U'|].
    apply (Rmult_le_reg_r o); [exact O|]. apply Rminus_le_0.
    replace (w * w * w / 3 * o - (1 + w / 3 + w * w / 5 + w * w * w / (7 * (1 - w)) + - (1) + (- w / (3 * (1 - w)) + w * w * (6 + 2 * w) / (45 * o))) * o)
      with (w * w * w * (5 / 63 - 103 / 105 * w + 37 / 35 * (w * w) - 1 / 3 * (w * w * w))) by (unfold o; field; lra).
    apply Rmult_le_pos; [lra|]. assert (0 <= w * w <= w) by nra. assert (0 <= w * w * w <= w * w) by (split; nra). lra.
Qed.

Definition BS (x : R) : R := 1 / (30 * (2 * x) ^ 5).
Lemma BS_step x : 126 <= x -> (1 / (2 * x + 1)) ^ 6 / 3 <= BS x - BS (x + 1).
Proof.
  intros Hx. set (z := 1 / (2 * x + 1)). assert (Hz : 0 < z <= / 253).
  { unfold z. split; [apply Rdiv_lt_0_compat; lra|]. unfold Rdiv. rewrite Rmult_1_l. apply Rinv_le_contravar; lra. }
  assert (EX : x = (1 - z) / (2 * z)) by (unfold z; field; lra).
  assert (E : BS x - BS (x + 1) = z ^ 6 * (10 + 20 * (z * z) + 2 * (z * z * (z * z))) / (30 * (1 - z * z) ^ 5)).
  { unfold BS. rewrite EX. field. repeat split; nra. }
  rewrite E. set (w := z * z). assert (Hw : 0 < w < 1) by (unfold w; nra).
  assert (0 < z ^ 6) by (apply pow_lt; lra). assert (P : 0 < (1 - w) ^ 5 <= 1).
  { split; [apply pow_lt; lra|]. rewrite <- (pow1 5). apply pow_incr. lra. }
  set (p := (1 - w) ^ 5) in *. clearbody p.
  apply (Rmult_le_reg_r (30 * p)); [lra|]. replace (z ^ 6 * (10 + 20 * w + 2 * (w * w)) / (30 * p) * (30 * p)) with (z ^ 6 * (10 + 20 * w + 2 * (w * w))) by (field; lra).
  replace (z ^ 6 / 3 * (30 * p)) with (z ^ 6 * (10 * p)) by field. apply Rmult_le_compat_l; nra.
Qed.

Lemma lnrun_125 : lnrun 125 = (126, 4836281906951477997313075338746407117, 486709261136839412225824753027975275176)%Z.
Proof. vm_compute. reflexivity. Qed.
Lemma stirling_anchor : - (26 / 10 ^ 15) <= St 126 - ln_fact 126 <= - (24 / 10 ^ 15).
Proof.
  pose proof (lnrun_bounds 125) as B. 
  pose proof lnrun_125 as E. rewrite E in B. destruct B as [A F]. clear E. 
  assert (N : INR 125 = 125) by (rewrite INR_IZR_INZ; reflexivity). rewrite N in A, F.
  replace (125 + 1) with 126 in A, F by lra.
  assert (DV : IZR D = 1000000000000000000000000000000000000) by (f_equal; reflexivity).
  unfold St, hS. set (l := ln 126) in *. set (f := ln_fact 126) in *. clearbody l f. rewrite DV in A, F.
  unfold half_ln_2pi. cbn [powerRZ]. replace (Pos.to_nat 16) with 16%nat by reflexivity. cbn [pow]. lra.
Qed.

Lemma stirling_all n : - (26 / 10 ^ 15) <= St (INR (126 + n)) - ln_fact (126 + n) <= 9 / 10 ^ 15 - BS (INR (126 + n)).
Proof.
  induction n as [|n IH].
  - rewrite Nat.add_0_r. replace (INR 126) with 126 by (rewrite INR_IZR_INZ; reflexivity). pose proof stirling_anchor as S.
    unfold BS. cbn [pow] in *. lra.
  - replace (126 + S n)%nat with (S (126 + n)) by lia. assert (K : 126 <= INR (126 + n)) by (rewrite INR_IZR_INZ; apply IZR_le; lia).
    rewrite ln_fact_S, S_INR. set (x := INR (126 + n)) in *. pose proof (stirling_step x K) as S. pose proof (BS_step x K) as B. cbn zeta in S. lra.
Qed.
Lemma BS_pos x : 126 <= x -> 0 < BS x.
Proof. intros H. apply Rdiv_lt_0_compat; [lra|]. apply Rmult_lt_0_compat; [lra|]. apply pow_lt. lra. Qed.
Lemma ln_fact_mono n m : (n <= m)%nat -> ln_fact n <= ln_fact m.
Proof. intros H. apply ln_le; [apply lt_0_INR, lt_O_fact|]. apply le_INR, fact_le, H. Qed.
Lemma ln_fact_126 : 480 <= ln_fact 126.
Proof.
  pose proof (lnrun_bounds 125) as B.
  pose proof lnrun_125 as E. rewrite E in B. destruct B as [_ F]. assert (DV : IZR D = 1000000000000000000000000000000000000) by (f_equal; reflexivity).
  rewrite DV in F. set (f := ln_fact 126) in *. clearbody f. lra.
Qed.

Lemma table_entry k p : (k <= 125)%nat -> nth_error logfact k = Some p ->
  Rabs (IZR (fst p) * powerRZ 10 (snd p) - ln_fact k) <= 140 / 10 ^ 18 * ln_fact k.
Proof.
  intros Hk E. destruct k as [|[|k]].
  - injection E as <-. unfold ln_fact. cbn [fst snd fact INR powerRZ]. rewrite ln_1. replace (0 * 1 - 0) with 0 by ring. rewrite Rabs_R0. lra.
  - injection E as <-. unfold ln_fact. cbn [fst snd fact Nat.mul Nat.add INR powerRZ]. rewrite ln_1. replace (0 * 1 - 0) with 0 by ring. rewrite Rabs_R0. lra.
  - change (nth_error (skipn 2 logfact) k = Some p) in E.
    refine (check_table_spec (skipn 2 logfact) 1 _ _ _ _ table_checked k p E _); [|lia|lia]. reflexivity.
Qed.

Lemma logfactorial_acc k : (0 <= k)%Z ->
  exists v, logfactorial earith elit elog k = ret (Fin v) /\
    Rabs (v - ln_fact (Z.to_nat k)) <= 140 / 10 ^ 18 * ln_fact (Z.to_nat k).
Proof.
  intros Hk. unfold logfactorial. change (Z.of_nat (length logfact)) with 126%Z. destruct (Z.ltb_spec k 126).
  - destruct (Z.ltb_spec k 0); [lia|]. destruct (nth_error logfact (Z.to_nat k)) as [p|] eqn:E.
    + exists (IZR (fst p) * powerRZ 10 (snd p)). split; [reflexivity|]. apply table_entry; [lia|exact E].
    + apply nth_error_None in E. change (length logfact) with 126%nat in E. lia.
  - set (n := Z.to_nat k). assert (EK : IZR k = INR (126 + (n - 126))) by (rewrite INR_IZR_INZ; f_equal; lia).
    exists (St (IZR k)). split.
    + assert (K : 126 <= IZR k) by (apply IZR_le; lia).
      assert (QK : IZR k <> 0) by lra.
      assert (EL : elog (Fin (IZR k)) = Fin (ln (IZR k))) by (cbn [elog]; destruct (Raux.Rcompare_spec (IZR k) 0); [lra|lra|reflexivity]).
      cbn [a_ofZ a_add a_sub a_mul a_div earith]. rewrite EL.
      change (emul (emul (Fin 360) (Fin (IZR k))) (Fin (IZR k))) with (Fin (360 * IZR k * IZR k)).
      rewrite !ediv_Fin by (try lra; nra). unfold ret. f_equal. unfold elit, esub. cbn [eadd emul eopp]. f_equal.
      unfold St, half_ln_2pi, hS.
      replace (IZR 5 * powerRZ 10 (-1)) with (/ 2) by (cbn [powerRZ]; change (Pos.to_nat 1) with 1%nat; cbn [pow]; lra). ring.
    + rewrite EK. pose proof (stirling_all (n - 126)) as B. replace (126 + (n - 126))%nat with n in * by lia.
      assert (N : 126 <= INR n) by (rewrite INR_IZR_INZ; apply IZR_le; lia).
      pose proof (BS_pos (INR n) N). pose proof (ln_fact_mono 126 n ltac:(lia)). pose proof ln_fact_126.
      set (L := ln_fact n) in *. clearbody L. apply Rabs_le.
      assert (26 / 10 ^ 15 <= 140 / 10 ^ 18 * L).
      { apply Rle_trans with (140 / 10 ^ 18 * 480); [cbn [pow]; lra|]. apply Rmult_le_compat_l; [|lra]. cbn [pow]. lra. }
      assert (9 / 10 ^ 15 <= 26 / 10 ^ 15) by (cbn [pow]; lra). lra.
Qed.

(** the loops never read outside the table, and never return anything but a number (or NaN below 0) *)
Lemma logfactorial_elem_neg {T} (A : arith T) lit log k : (k < 0)%Z -> logfactorial_elem A lit log k = ret (a_nan A).
Proof. intros H. unfold logfactorial_elem. apply Z.ltb_lt in H. now rewrite H. Qed.
Lemma logfactorial_elem_defined {T} (A : arith T) lit log k : logfactorial_elem A lit log k <> ub.
Proof.
  unfold logfactorial_elem, logfactorial. destruct (k <? 0)%Z eqn:E; [discriminate|].
  destruct (Z.ltb_spec k (Z.of_nat (length logfact))); [|discriminate].
  destruct (nth_error logfact (Z.to_nat k)) eqn:N; [discriminate|]. apply nth_error_None in N. apply Z.ltb_ge in E. lia.
Qed.
Lemma logfactorial_elem_acc k : (0 <= k)%Z ->
  exists v, logfactorial_elem earith elit elog k = ret (Fin v) /\ Rabs (v - ln_fact (Z.to_nat k)) <= 140 / 10 ^ 18 * ln_fact (Z.to_nat k).
Proof. intros H. unfold logfactorial_elem. replace (k <? 0)%Z with false by (symmetry; apply Z.ltb_ge, H). now apply logfactorial_acc. Qed.

(** * P_ExpintF: expint1 and logexpint1 in IEEE double: rounding errors (C51) *)
From Coq Require Import ZArith Reals List Bool Lia Lra.
From Flocq Require Import Core BinarySingleNaN Relative.
From Verif Require Import CSem CSemP Num NumP NumF M_Log1p S_Log1p P_Log1p P_Log1pF M_Special S_Special P_Expint P_SpecialF.
Import ListNotations.
Open Scope R_scope.

#[local] Instance p53 : Prec_gt_0 53 := eq_refl.
#[local] Instance v53 : Valid_exp fexp64 := FLT_exp_valid _ _.

Definition u : R := / 9007199254740992.
Lemma u_pow : pow2 (-53) = u. Proof. reflexivity. Qed.
Definition eta : R := pow2 (-1075).
Lemma eta_small : 0 < eta <= / 10 ^ 36.
Proof.
  split; [apply bpow_gt_0|]. apply Rle_trans with (pow2 (-120)); [apply bpow_le; lia|].
  change (pow2 (-120)) with (/ 1329227995784915872903807060280344576). lra.
Qed.
Lemma rerr x : Rabs (rn x - x) <= u * Rabs x + eta.
Proof. rewrite <- u_pow. apply rn_err_le. lra. Qed.

(** ** relative errors of positive numbers *)
Definition re (e b y : R) : Prop := Rabs (y - b) <= e * b.
Lemma re_rn e1 e b y z : 0 < b -> 0 <= e1 <= / 10 -> re e1 b y -> Rabs (z - y) <= u * Rabs y + eta -> / 10 ^ 6 <= b ->
  e1 * (1 + u) + u + / 10 ^ 30 <= e -> re e b z.
Proof.
  unfold re. intros B E1 H Z BB E. pose proof eta_small as [ET0 ET]. apply Rabs_le_inv in H. assert (Y : 0 <= y) by nra.
  rewrite (Rabs_pos_eq y) in Z by exact Y. apply Rabs_le_inv in Z. assert (U : 0 < u < 1) by (unfold u; lra).
  assert (T : eta <= / 10 ^ 30 * b) by (cbn [pow] in *; lra).
  assert (u * y <= u * (b + e1 * b)) by (apply Rmult_le_compat_l; lra).
  assert ((e1 * (1 + u) + u + / 10 ^ 30) * b <= e * b) by (apply Rmult_le_compat_r; lra).
  apply Rabs_le. set (t := / 10 ^ 30 * b) in *. replace ((e1 * (1 + u) + u + / 10 ^ 30) * b) with (e1 * b + u * (b + e1 * b) + t) in H1 by (unfold t; ring). lra.
Qed.
Lemma re_inv e e' b y k : 0 < b -> 0 <= e < 1 -> 0 <= k -> re e b y -> e <= e' * (1 - e) -> 0 < y /\ re e' (k / b) (k / y).
Proof.
  unfold re. intros B E K H E'. apply Rabs_le_inv in H. assert (Y : (1 - e) * b <= y <= (1 + e) * b) by lra.
  assert (Y0 : 0 < y) by nra. split; [exact Y0|]. 
  assert (I : Rabs (/ y - / b) <= e' * / b).
  { replace (/ y - / b) with ((b - y) * (/ y * / b)) by (field; lra). rewrite Rabs_mult. rewrite (Rabs_pos_eq (/ y * / b)).
    2:{ apply Rmult_le_pos; left; apply Rinv_0_lt_compat; lra. }
    apply (Rmult_le_reg_r (y * b)); [nra|]. replace (Rabs (b - y) * (/ y * / b) * (y * b)) with (Rabs (b - y)) by (field; lra).
    replace (e' * / b * (y * b)) with (e' * y) by (field; lra). rewrite Rabs_minus_sym.
    assert (0 <= e'). { destruct (Rle_dec 0 e') as [G|G]; [exact G|]. nra. }
    apply Rle_trans with (e * b); [apply Rabs_le; lra|]. apply Rle_trans with (e' * ((1 - e) * b)); [nra|]. apply Rmult_le_compat_l; lra. }
  unfold Rdiv. replace (k * / y - k * / b) with (k * (/ y - / b)) by ring. rewrite Rabs_mult, (Rabs_pos_eq k) by exact K. nra.
Qed.
Lemma re_trans e1 e2 e a b c : 0 <= a -> 0 <= e2 -> re e1 a b -> re e2 b c -> e1 + e2 * (1 + e1) <= e -> re e a c.
Proof.
  unfold re. intros A E2 H1 H2 E. replace (c - a) with ((c - b) + (b - a)) by ring. eapply Rle_trans; [apply Rabs_triang|].
  apply Rabs_le_inv in H1. assert (e2 * b <= e2 * (a + e1 * a)) by (apply Rmult_le_compat_l; lra).
  assert ((e1 + e2 * (1 + e1)) * a <= e * a) by (apply Rmult_le_compat_r; lra). assert (Rabs (b - a) <= e1 * a) by (apply Rabs_le; lra). lra.
Qed.
Lemma re_mono e e' b y : 0 <= b -> e <= e' -> re e b y -> re e' b y.
Proof. unfold re. intros B E H. eapply Rle_trans; [exact H|]. now apply Rmult_le_compat_r. Qed.
Lemma re_refl b : re 0 b b.
Proof. unfold re. rewrite Rminus_diag_eq, Rabs_R0 by reflexivity. lra. Qed.

(** ** one step of the continued fraction *)
Definition d4 : R := 4002 / 1000 * u.
Lemma cf_round k D Dh qh s r : 1 <= k <= 101 -> 1 <= D ->
  Rabs (Dh - D) <= u * Rabs D + eta -> Rabs (qh - k / Dh) <= u * Rabs (k / Dh) + eta -> Rabs (s - (1 + qh)) <= u * Rabs (1 + qh) + eta ->
  Rabs (r - k / s) <= u * Rabs (k / s) + eta ->
  re (40015 / 10000 * u) (k / (1 + k / D)) r.
Proof.
  intros K HD H1 H2 H3 H4. pose proof eta_small as [ET0 ET].
  assert (R1 : re (1001 / 1000 * u) D Dh).
  { eapply (re_rn 0 _ D D); [lra|lra|apply re_refl|exact H1|cbn [pow]; lra|unfold u; cbn [pow]; lra]. }
  destruct (re_inv (1001 / 1000 * u) (10011 / 10000 * u) D Dh k ltac:(lra) ltac:(unfold u; lra) ltac:(lra) R1 ltac:(unfold u; lra)) as [DP R2].
  set (Q := k / D) in *. assert (Q0 : 0 < Q) by (unfold Q; apply Rdiv_lt_0_compat; lra).
  assert (Q1 : 0 < k / Dh) by (apply Rdiv_lt_0_compat; lra).
  rewrite (Rabs_pos_eq (k / Dh)) in H2 by lra. unfold re in R2. set (q1 := k / Dh) in *. clearbody q1.
  assert (R3 : re (20012 / 10000 * u) (1 + Q) (1 + qh)).
  { unfold re. replace (1 + qh - (1 + Q)) with ((qh - q1) + (q1 - Q)) by ring. eapply Rle_trans; [apply Rabs_triang|].
    apply Rabs_le_inv in R2. assert (u * q1 <= u * (Q + 10011 / 10000 * u * Q)) by (apply Rmult_le_compat_l; [unfold u; lra|lra]).
    assert (Rabs (q1 - Q) <= 10011 / 10000 * u * Q) by (apply Rabs_le; lra).
    assert (eta <= 1 / 10000 * u) by (unfold u; cbn [pow] in ET; lra).
    assert (u * (10011 / 10000 * u * Q) <= u * (/ 10 ^ 10 * Q)) by (apply Rmult_le_compat_l; [unfold u; lra|]; apply Rmult_le_compat_r; [lra|]; unfold u; cbn [pow]; lra).
    assert (0 < u * Q) by (apply Rmult_lt_0_compat; [unfold u|]; lra). cbn [pow] in *. lra. }
  assert (R4 : re (30013 / 10000 * u) (1 + Q) s).
  { eapply (re_rn (20012 / 10000 * u)); [lra|unfold u; lra|exact R3|exact H3|cbn [pow]; lra|unfold u; cbn [pow]; lra]. }
  destruct (re_inv (30013 / 10000 * u) (30014 / 10000 * u) (1 + Q) s k ltac:(lra) ltac:(unfold u; lra) ltac:(lra) R4 ltac:(unfold u; lra)) as [SP R5].
  assert (QB : Q <= 101). { unfold Q. apply (Rmult_le_reg_r D); [lra|]. unfold Rdiv. rewrite Rmult_assoc, Rinv_l by lra. lra. }
  assert (B : / 102 <= k / (1 + Q)). { apply (Rmult_le_reg_r (1 + Q)); [lra|]. unfold Rdiv. rewrite Rmult_assoc, Rinv_l by lra. lra. }
  eapply (re_rn (30014 / 10000 * u)); [lra|unfold u; lra|exact R5|exact H4|cbn [pow]; lra|unfold u; cbn [pow]; lra].
Qed.
(** the map t -> k/(1 + k/(x+t)) contracts relative errors by k/(k+2) *)
Lemma cf_contract k x t t' e : 1 <= k -> 1 <= x -> 0 <= t <= k + 1 -> 0 <= t' -> 0 <= e -> re e t t' ->
  re (k / (k + 2) * e) (k / (1 + k / (x + t))) (k / (1 + k / (x + t'))).
Proof.
  unfold re. intros K X T T' E H. rewrite !cstep_eq by lra.
  replace (k * (x + t') / (x + t' + k) - k * (x + t) / (x + t + k)) with ((t' - t) * (k * (x + t) / (x + t + k) * (k * / ((x + t) * (x + t' + k))))) by (field; lra).
  set (n := k * (x + t) / (x + t + k)). assert (N : 0 < n) by (unfold n; apply Rdiv_lt_0_compat; nra).
  assert (M : 0 < k * / ((x + t) * (x + t' + k))) by (apply Rmult_lt_0_compat; [lra|apply Rinv_0_lt_compat; nra]).
  rewrite Rabs_mult, (Rabs_pos_eq (n * _)) by (apply Rmult_le_pos; lra).
  apply Rle_trans with (e * t * (n * (k * / ((x + t) * (x + t' + k))))).
  { apply Rmult_le_compat_r; [apply Rmult_le_pos; lra|exact H]. }
  replace (e * t * (n * (k * / ((x + t) * (x + t' + k))))) with ((e * n) * (t * (k * / ((x + t) * (x + t' + k))))) by ring.
  replace (k / (k + 2) * e * n) with ((e * n) * (k / (k + 2))) by ring. apply Rmult_le_compat_l; [apply Rmult_le_pos; lra|].
  apply (Rmult_le_reg_r ((k + 2) * ((x + t) * (x + t' + k)))); [apply Rmult_lt_0_compat; nra|].
  replace (t * (k * / ((x + t) * (x + t' + k))) * ((k + 2) * ((x + t) * (x + t' + k)))) with (k * (t * (k + 2))) by (field; lra).
  replace (k / (k + 2) * ((k + 2) * ((x + t) * (x + t' + k)))) with (k * ((x + t) * (x + t' + k))) by (field; lra).
  apply Rmult_le_compat_l; [lra|]. apply Rle_trans with ((1 + t) * (1 + k)); [nra|]. apply Rmult_le_compat; lra.
Qed.
Lemma cf_step k x t t' e Dh qh s r : 1 <= k <= 101 -> 1 <= x -> 0 <= t <= k + 1 -> 0 <= t' -> 0 <= e <= (k + 2) * d4 -> re e t t' ->
  Rabs (Dh - (x + t')) <= u * Rabs (x + t') + eta -> Rabs (qh - k / Dh) <= u * Rabs (k / Dh) + eta -> Rabs (s - (1 + qh)) <= u * Rabs (1 + qh) + eta ->
  Rabs (r - k / s) <= u * Rabs (k / s) + eta ->
  re ((k + 1) * d4) (k / (1 + k / (x + t))) r.
Proof.
  intros K X T T' E H H1 H2 H3 H4. pose proof (cf_round k (x + t') Dh qh s r K ltac:(lra) H1 H2 H3 H4) as R.
  pose proof (cf_contract k x t t' e ltac:(lra) X T T' ltac:(lra) H) as C.
  assert (N : 0 <= k / (1 + k / (x + t))) by (apply cstep_pos; lra).
  assert (CE : 0 <= k / (k + 2) * e <= k * d4).
  { split; [apply Rmult_le_pos; [apply Rlt_le, Rdiv_lt_0_compat; lra|lra]|].
    replace (k * d4) with (k / (k + 2) * ((k + 2) * d4)) by (field; lra). apply Rmult_le_compat_l; [apply Rlt_le, Rdiv_lt_0_compat; lra|lra]. }
  eapply (re_trans _ (40015 / 10000 * u)); [exact N|unfold u; lra|exact C|exact R|]. set (c := k / (k + 2) * e) in *. clearbody c.
  assert (k * d4 <= 101 * d4) by (apply Rmult_le_compat_r; [unfold d4, u|]; lra).
  assert (40015 / 10000 * u * c <= 40015 / 10000 * u * (101 * d4)) by (apply Rmult_le_compat_l; [unfold u|]; lra).
  assert (40015 / 10000 * u * (101 * d4) <= 1 / 10000 * u) by (unfold d4, u; lra). unfold d4 in *. lra.
Qed.

(** ** the loop *)
Lemma rep_big (f : f64) r : f2e f64_prec f64_emax f = frnd f64_prec f64_emax r -> Rabs (rn r) < pow2 1024 -> rep 1024 f (rn r).
Proof.
  intros E H. unfold frnd in E. rewrite Rlt_bool_true in E by exact H. apply f2e_fin_finite in E. destruct E as [E1 E2].
  split; [exact E1|]. split; [exact E2|]. left. exact H.
Qed.
Lemma rn_near_format x d : format x -> Rabs (rn (x + d) - (x + d)) <= Rabs d.
Proof.
  intros F. pose proof (round_N_pt radix2 fexp64 (fun z => negb (Z.even z)) (x + d)) as [_ N]. specialize (N x F). 
  eapply Rle_trans; [exact N|]. right. replace (x - (x + d)) with (- d) by ring. apply Rabs_Ropp.
Qed.
Lemma add_big (x : f64) fd d : is_finite x = true -> rep 20 fd d -> rep 1024 (a_add f64_arith x fd) (rn (B2R x + d)).
Proof.
  intros Fx (D1 & <- & D3). apply rep_big; [now apply (f2e_plus _ _ f64_Hp f64_He)|].
  pose proof (abs_B2R_le_emax_minus_prec f64_prec f64_emax f64_Hp x) as M. change (Rabs (B2R x) <= pow2 1024 - pow2 971) in M.
  pose proof (rn_near_format (B2R x) (B2R fd) (generic_format_B2R f64_prec f64_emax x)) as N.
  assert (B : 4 * pow2 20 < pow2 971). { change 4 with (pow2 2). rewrite <- bpow_plus. apply bpow_lt. lia. }
  assert (0 < pow2 20) by apply bpow_gt_0.
  set (a := B2R x) in *. set (b := B2R fd) in *. set (r := rn (a + b)) in *.
  replace r with ((r - (a + b)) + (a + b)) by ring. eapply Rle_lt_trans; [apply Rabs_triang|]. eapply Rle_lt_trans; [apply Rplus_le_compat_l, Rabs_triang|]. lra.
Qed.
Lemma rep_tight k j f r : rep k f r -> Rabs r <= pow2 j -> rep j f r.
Proof. intros (A & B & _) C. now split. Qed.
Lemma rn_ge1 a : 1 <= a -> 1 <= rn a.
Proof. intros H. rewrite <- (rn_IZR 1) by lia. now apply rn_mono. Qed.
Lemma rn_ge0 a : 0 <= a -> 0 <= rn a.
Proof. intros H. rewrite <- rn_0. now apply rn_mono. Qed.

Lemma cf_loop (x : f64) : is_finite x = true -> 1 <= B2R x -> forall k (th : f64) t tr, (k <= 101)%nat -> rep 7 th tr -> 0 <= tr -> 0 <= t <= INR k + 1 ->
  re ((INR k + 2) * d4) t tr ->
  exists r, rep 7 (expint1_cf f64_arith k x th) r /\ 0 <= r /\ 0 <= cfr k (B2R x) t <= 1 /\ re (2 * d4) (cfr k (B2R x) t) r.
Proof.
  intros F X. induction k as [|k IH]; intros th t tr K Ht T0 T1 RE.
  - exists tr. cbn [expint1_cf cfr]. cbn [INR] in *. split; [exact Ht|]. split; [exact T0|]. split; [lra|]. eapply re_mono; [lra| |exact RE]. lra.
  - cbn [expint1_cf cfr]. rewrite INR_IZR_INZ. set (z := Z.of_nat (S k)) in *. rewrite INR_IZR_INZ in T1, RE. fold z in T1, RE.
    assert (Z1 : (1 <= z <= 101)%Z) by lia. assert (ZR : 1 <= IZR z <= 101) by (split; apply IZR_le; lia).
    assert (D0 : 0 < d4) by (unfold d4, u; lra).
    pose proof (add_big x th tr F (rep_weaken 7 20 _ _ ltac:(lia) Ht)) as A1. set (D := rn (B2R x + tr)) in *.
    assert (DG : 1 <= D) by (apply rn_ge1; lra).
    assert (QB : 0 <= IZR z / D <= 101). { split; [apply Rlt_le, Rdiv_lt_0_compat; lra|]. apply (Rmult_le_reg_r D); [lra|]. unfold Rdiv. rewrite Rmult_assoc, Rinv_l by lra. lra. }
    pose proof (rep_div 7 1024 _ _ _ _ (rep_ofZ z 7 ltac:(lia) ltac:(lia)) A1 ltac:(lra) ltac:(rewrite Rabs_pos_eq by lra; change (pow2 7) with 128; lra) ltac:(lia)) as A2.
    set (q := rn (IZR z / D)) in *. assert (Q0 : 0 <= q) by (apply rn_ge0; lra).
    pose proof (rep_add 1 7 _ _ _ _ (rep_ofZ 1 1 ltac:(lia) ltac:(lia)) A2 ltac:(lia)) as A3. cbn [Z.max Z.compare Pos.compare Pos.compare_cont Z.add Pos.add] in A3.
    set (s := rn (1 + q)) in *. assert (S1 : 1 <= s) by (apply rn_ge1; lra).
    assert (SB : 0 <= IZR z / s <= 101). { split; [apply Rlt_le, Rdiv_lt_0_compat; lra|]. apply (Rmult_le_reg_r s); [lra|]. unfold Rdiv. rewrite Rmult_assoc, Rinv_l by lra. lra. }
    pose proof (rep_div 7 _ _ _ _ _ (rep_ofZ z 7 ltac:(lia) ltac:(lia)) A3 ltac:(lra) ltac:(rewrite Rabs_pos_eq by lra; change (pow2 7) with 128; lra) ltac:(lia)) as A4.
    set (r := rn (IZR z / s)) in *. assert (R0 : 0 <= r) by (apply rn_ge0; lra).
    assert (ST : re ((IZR z + 1) * d4) (IZR z / (1 + IZR z / (B2R x + t))) r).
    { apply (cf_step (IZR z) (B2R x) t tr ((IZR z + 2) * d4) D q s r); try lra; try apply rerr; try exact RE. nra. }
    assert (NK : INR k = IZR z - 1) by (unfold z; rewrite <- INR_IZR_INZ, S_INR; ring).
    destruct (IH _ (IZR z / (1 + IZR z / (B2R x + t))) r ltac:(lia) A4 R0) as (r' & P); [|rewrite NK; replace (IZR z - 1 + 2) with (IZR z + 1) by ring; exact ST|exists r'; exact P].
    rewrite NK. split; [apply cstep_pos; lra|]. rewrite cstep_eq by lra. apply (Rmult_le_reg_r (B2R x + t + IZR z)); [lra|].
    unfold Rdiv. rewrite Rmult_assoc, Rinv_l by lra. nra.
Qed.
Lemma gap_100 : gap_check 100 1 1 24 (10 ^ 17) = true.
Proof. vm_compute. reflexivity. Qed.
Lemma toint_80_bound (x : f64) : is_finite x = true -> 1 < B2R x ->
  exists j, (j <= 80)%nat /\ f64_toint (a_div f64_arith (a_ofZ f64_arith 80) x) = ret (Z.of_nat j) /\ 80 / (INR j + 1) <= B2R x.
Proof.
  intros F X. assert (Q : 0 < 80 / B2R x <= 80).
  { split; [apply Rdiv_lt_0_compat; lra|]. apply (Rmult_le_reg_r (B2R x)); [lra|]. unfold Rdiv. rewrite Rmult_assoc, Rinv_l by lra. lra. }
  pose proof (rep_div 7 1024 _ x _ _ (rep_ofZ 80 7 ltac:(lia) ltac:(lia)) (fin_rep x F) ltac:(lra) ltac:(rewrite Rabs_pos_eq by lra; change (pow2 7) with 128; lra) ltac:(lia)) as R.
  assert (R80 : 0 <= rn (80 / B2R x) <= 80).
  { split; [apply rn_ge0; lra|]. apply Rle_trans with (rn 80); [apply rn_mono; lra|rewrite (rn_IZR 80) by lia; lra]. }
  assert (FL : Ztrunc (rn (80 / B2R x)) = Zfloor (rn (80 / B2R x))) by (apply Ztrunc_floor; lra).
  pose proof (Zfloor_lb (rn (80 / B2R x))) as L1. pose proof (Zfloor_ub (rn (80 / B2R x))) as L2. set (z := Zfloor (rn (80 / B2R x))) in *.
  assert (Z0 : (0 <= z)%Z). { apply Z.lt_succ_r, lt_IZR. unfold Z.succ. rewrite plus_IZR. lra. }
  assert (Z1 : (z <= 80)%Z) by (apply le_IZR; lra).
  exists (Z.to_nat z). split; [lia|]. rewrite Z2Nat.id by lia. split.
  - rewrite <- FL. eapply toint_rep; [exact R|]. apply in_int_R, Rabs_le. lra.
  - rewrite INR_IZR_INZ, Z2Nat.id by lia. pose proof (IZR_le _ _ Z0) as ZR. change (IZR 0) with 0 in ZR.
    assert (G : 80 / B2R x <= IZR z + 1).
    { apply Rnot_lt_le. intros C. assert (IZR z + 1 <= rn (80 / B2R x)); [|lra].
      apply Rle_trans with (rn (IZR (z + 1))); [rewrite rn_IZR by lia; rewrite plus_IZR; lra|]. apply rn_mono. rewrite plus_IZR. lra. }
    apply (Rmult_le_reg_r (IZR z + 1)); [lra|]. replace (80 / (IZR z + 1) * (IZR z + 1)) with 80 by (field; lra).
    replace 80 with (80 / B2R x * B2R x) by (field; lra). rewrite Rmult_comm. apply Rmult_le_compat_l; lra.
Qed.
(** the factor of E1 computed for x > 1 *)
Lemma expint1_t_ieee (x : f64) v : is_finite x = true -> 1 < B2R x -> is_E1 (B2R x) v ->
  exists t T, expint1_t f64_arith f64_toint x = ret t /\ rep 1 t (B2R t) /\ 0 < T /\ T * B2R x <= 1 /\ 1 <= T * (B2R x + 1) /\
    v <= exp (- B2R x) * T <= v * (1 + 24 / 10 ^ 17) /\ 0 <= B2R t /\ Rabs (B2R t - T) <= 601 / 100 * u * T + eta.
Proof.
  intros F X V. destruct (toint_80_bound x F X) as (j & J & E & B). unfold expint1_t. rewrite E. cbn [bind ret].
  replace (Z.to_nat (20 + Z.of_nat j)) with (20 + j)%nat by lia.
  assert (D0 : 0 < d4) by (unfold d4, u; lra).
  destruct (cf_loop x F ltac:(lra) (20 + j)%nat (a_ofZ f64_arith 0) 0 0 ltac:(lia) (rep_ofZ 0 7 ltac:(lia) ltac:(lia)) ltac:(lra)) as (t0 & R0 & P0 & C0 & RE).
  { pose proof (pos_INR (20 + j)). lra. }
  { eapply re_mono; [lra| |apply re_refl]. pose proof (pos_INR (20 + j)). nra. }
  set (c := cfr (20 + j) (B2R x) 0) in *.
  pose proof (add_big x _ _ F (rep_weaken 7 20 _ _ ltac:(lia) R0)) as A1. set (s := rn (B2R x + t0)) in *.
  assert (S1 : 1 <= s) by (apply rn_ge1; lra).
  assert (SB : 0 <= 1 / s <= 1). { split; [apply Rlt_le, Rdiv_lt_0_compat; lra|]. apply (Rmult_le_reg_r s); [lra|]. unfold Rdiv. rewrite Rmult_assoc, Rinv_l by lra. lra. }
  pose proof (rep_div 1 1024 _ _ _ _ (rep_ofZ 1 1 ltac:(lia) ltac:(lia)) A1 ltac:(lra) ltac:(rewrite Rabs_pos_eq by lra; change (pow2 1) with 2; lra) ltac:(lia)) as A2.
  exists (a_div f64_arith (a_ofZ f64_arith 1) (a_add f64_arith x (expint1_cf f64_arith (20 + j) x (a_ofZ f64_arith 0)))), (1 / (B2R x + c)).
  split; [reflexivity|]. set (f := a_div f64_arith _ _) in *. pose proof A2 as (F1 & F2 & F3). rewrite F2.
  split; [exact A2|]. assert (TP : 0 < 1 / (B2R x + c)) by (apply Rdiv_lt_0_compat; lra). split; [exact TP|].
  assert (TE : 1 / (B2R x + c) * (B2R x + c) = 1) by (field; lra).
  assert (TC : 0 <= 1 / (B2R x + c) * c <= 1 / (B2R x + c)) by (split; [apply Rmult_le_pos; lra|]; rewrite <- (Rmult_1_r (1 / (B2R x + c))) at 2; apply Rmult_le_compat_l; lra).
  split; [lra|]. split; [lra|].
  split; [|split; [apply rn_ge0; lra|]].
  - assert (PN : IZR (10 ^ 17) = 10 ^ 17) by (change (10 ^ 17)%Z with (10 ^ Z.of_nat 17)%Z; symmetry; apply pow_IZR).
    rewrite <- PN. apply (cf_value (B2R x) v (20 + j) 24 (10 ^ 17) V); [lra|reflexivity|]. destruct (Nat.eq_dec j 80) as [->|NJ].
    + apply (gap_check_spec 100 1 1); [lia|lia|reflexivity|exact gap_100|lra].
    + pose proof (proj1 (forallb_forall _ _) gap_checked j ltac:(apply in_seq; lia)) as G. cbn beta in G.
      apply (gap_check_spec _ 80 (Z.of_nat j + 1)); [lia|lia|reflexivity|exact G|]. rewrite plus_IZR, <- INR_IZR_INZ. exact B.
  - assert (R1 : re d4 (B2R x + c) (B2R x + t0)).
    { unfold re in *. replace (B2R x + t0 - (B2R x + c)) with (t0 - c) by ring. eapply Rle_trans; [exact RE|]. nra. }
    assert (R2 : re (5004 / 1000 * u) (B2R x + c) s).
    { eapply (re_rn d4); [lra|unfold d4, u; lra|exact R1|apply rerr|cbn [pow]; lra|unfold d4, u; cbn [pow]; lra]. }
    destruct (re_inv (5004 / 1000 * u) (5005 / 1000 * u) (B2R x + c) s 1 ltac:(lra) ltac:(unfold u; lra) ltac:(lra) R2 ltac:(unfold u; lra)) as [_ R3].
    unfold re in R3. set (T := 1 / (B2R x + c)) in *. pose proof (rerr (1 / s)) as RR. rewrite (Rabs_pos_eq (1 / s)) in RR by lra.
    set (a := 1 / s) in *. set (b := rn a) in *. clearbody a b T. apply Rabs_le_inv in R3. apply Rabs_le_inv in RR. 
    assert (u * a <= u * (T + 5005 / 1000 * u * T)) by (apply Rmult_le_compat_l; [unfold u|]; lra). apply Rabs_le. unfold u in *. lra.
Qed.

(** ** the series for x <= 1 *)
Definition ha (i : nat) : R := (/ 2) ^ i.
Lemma ha_S i : ha (S i) = ha i / 2. Proof. unfold ha. cbn [pow]. lra. Qed.
Lemma ha_pos i : 0 < ha i <= 1.
Proof. induction i; [unfold ha; cbn; lra|]. rewrite ha_S. lra. Qed.
Lemma ha_low i : (i <= 25)%nat -> / 10 ^ 8 <= ha i.
Proof.
  intros H. unfold ha. rewrite pow_inv. apply Rinv_le_contravar; [apply pow_lt; lra|]. apply Rle_trans with (2 ^ 25); [apply Rle_pow; [lra|exact H]|cbn [pow]; lra].
Qed.
Lemma ratio_quarter i : INR (S i) <= / 4 * (INR (S (S i)) * INR (S (S i))).
Proof. rewrite !S_INR. pose proof (pos_INR i). nra. Qed.
Lemma rk_next i x : 0 < x <= 1 -> Rabs (rk (S i) x) <= / 4 * Rabs (rk i x).
Proof.
  intros X. rewrite <- rk_step. pose proof (ratio_quarter i) as Q. pose proof (pos_INR i) as P. set (N := INR (S (S i)) * INR (S (S i))) in *.
  assert (N0 : 0 < N) by (unfold N; rewrite !S_INR; nra). assert (K0 : 0 < INR (S i)) by (rewrite S_INR; lra).
  replace (- rk i x * INR (S i) * x / N) with (- (rk i x * (INR (S i) * x * / N))) by (field; lra).
  rewrite Rabs_Ropp, Rabs_mult, (Rabs_pos_eq (INR (S i) * x * / N)) by (apply Rmult_le_pos; [nra|left; now apply Rinv_0_lt_compat]).
  rewrite (Rmult_comm (/ 4)). apply Rmult_le_compat_l; [apply Rabs_pos|]. apply (Rmult_le_reg_r N); [exact N0|]. rewrite Rmult_assoc, Rinv_l by lra. nra.
Qed.
Lemma rk_bound i x : 0 < x <= 1 -> Rabs (rk i x) <= ha i * ha i.
Proof.
  intros X. induction i.
  - unfold rk, ha. rewrite fac_1. cbn. replace (1 / (1 * 1)) with 1 by field. rewrite Rabs_R1. lra.
  - rewrite ha_S. pose proof (rk_next i x X). lra.
Qed.
Lemma rk_val x : rk 0 x = 1 /\ rk 1 x = - x / 4 /\ rk 2 x = x * x / 18.
Proof.
  unfold rk. rewrite !fac_S, fac_0. cbn. repeat split; field.
Qed.
Lemma rk_bound2 i x : 0 < x <= 1 -> Rabs (rk (S (S i)) x) <= x / 18 * (ha i * ha i).
Proof.
  intros X. induction i.
  - destruct (rk_val x) as (_ & _ & ->). unfold ha. cbn [pow]. rewrite Rabs_pos_eq by nra. nra.
  - rewrite ha_S. pose proof (rk_next (S (S i)) x X). lra.
Qed.
Lemma es_bounds i x : 0 < x <= 1 -> 6 / 10 <= es i x <= 1.
Proof.
  intros X. destruct i as [|i]; [cbn [es]; rewrite (proj1 (rk_val x)); lra|].
  assert (H : 1 - x / 4 - x * (2 / 27) * (1 - ha i * ha i) <= es (S i) x <= 1 - x / 4 + x * (2 / 27) * (1 - ha i * ha i)).
  { induction i.
    - cbn [es]. destruct (rk_val x) as (-> & -> & _). unfold ha. cbn [pow]. lra.
    - change (es (S (S i)) x) with (es (S i) x + rk (S (S i)) x). pose proof (rk_bound2 i x X) as B. apply Rabs_le_inv in B. rewrite ha_S.
      set (h := ha i * ha i) in *. replace (ha i / 2 * (ha i / 2)) with (h / 4) by (unfold h; field). lra. }
  assert (Q : 0 <= ha i * ha i <= 1) by (pose proof (ha_pos i); nra). set (h := ha i * ha i) in *. clearbody h.
  assert (0 <= x * (1 - h) <= x) by nra. lra.
Qed.
Lemma es_tail n : forall i x, 0 < x <= 1 -> Rabs (es (i + n) x - es i x) <= 4 / 3 * Rabs (rk (S i) x).
Proof.
  intros i x X.
  assert (H : Rabs (es (i + n) x - es i x) <= 4 / 3 * Rabs (rk (S i) x) * (1 - ha n * ha n) /\ Rabs (rk (S (i + n)) x) <= Rabs (rk (S i) x) * (ha n * ha n)).
  { induction n as [|n [IH1 IH2]].
    - rewrite Nat.add_0_r, Rminus_diag_eq, Rabs_R0 by reflexivity. unfold ha. cbn [pow]. lra.
    - rewrite Nat.add_succ_r. change (es (S (i + n)) x) with (es (i + n) x + rk (S (i + n)) x). rewrite ha_S.
      pose proof (rk_next (S (i + n)) x X). set (h := ha n * ha n) in *. replace (ha n / 2 * (ha n / 2)) with (h / 4) by (unfold h; field).
      split; [|lra]. replace (es (i + n) x + rk (S (i + n)) x - es i x) with ((es (i + n) x - es i x) + rk (S (i + n)) x) by ring.
      eapply Rle_trans; [apply Rabs_triang|]. lra. }
  destruct H as [H _]. eapply Rle_trans; [exact H|]. pose proof (ha_pos n). pose proof (Rabs_pos (rk (S i) x)). nra.
Qed.

(** one term of the series *)
Lemma term_round k N x r rh a m1 m2 r' : 1 <= k -> 1 <= N -> k <= / 4 * N -> 0 < x <= 1 -> / 10 ^ 8 <= a <= 1 -> Rabs r <= a * a -> Rabs (rh - r) <= 4 * u * (a - a * a) ->
  Rabs (m1 - (- rh) * k) <= u * Rabs ((- rh) * k) + eta -> Rabs (m2 - m1 * x) <= u * Rabs (m1 * x) + eta -> Rabs (r' - m2 / N) <= u * Rabs (m2 / N) + eta ->
  Rabs (r' - - r * k * x / N) <= 4 * u * (a / 2 - a / 2 * (a / 2)).
Proof.
  intros K HN KN X A R D H1 H2 H3. pose proof eta_small as [E0 E1]. set (c := Rabs rh) in *. assert (C0 : 0 <= c) by apply Rabs_pos.
  assert (U0 : 0 < u <= / 10 ^ 15) by (unfold u; cbn [pow]; lra).
  rewrite Rabs_mult, Rabs_Ropp, (Rabs_pos_eq k) in H1 by lra. fold c in H1. set (P := c * k) in *. assert (P0 : 0 <= P) by (unfold P; nra).
  set (e1 := m1 - - rh * k) in *. rewrite Rabs_mult, (Rabs_pos_eq x) in H2 by lra.
  assert (M1 : Rabs m1 <= P + Rabs e1).
  { replace m1 with (- rh * k + e1) by (unfold e1; ring). eapply Rle_trans; [apply Rabs_triang|]. rewrite Rabs_mult, Rabs_Ropp, (Rabs_pos_eq k) by lra. unfold P, c. lra. }
  assert (UP : u * (u * P) <= / 10 ^ 15 * (u * P)) by (apply Rmult_le_compat_r; [nra|lra]).
  assert (UE : u * eta <= eta) by (cbn [pow] in *; nra).
  assert (H2' : Rabs (m2 - - rh * k * x) <= 20001 / 10000 * (u * P) + 3 * eta).
  { replace (m2 - - rh * k * x) with ((m2 - m1 * x) + e1 * x) by (unfold e1; ring). eapply Rle_trans; [apply Rabs_triang|]. rewrite Rabs_mult, (Rabs_pos_eq x) by lra.
    pose proof (Rabs_pos e1). pose proof (Rabs_pos m1). assert (Rabs e1 * x <= Rabs e1) by nra. assert (Rabs m1 * x <= Rabs m1) by nra.
    assert (u * (Rabs m1 * x) <= u * (P + (u * P + eta))) by (apply Rmult_le_compat_l; lra). cbn [pow] in *. nra. }
  assert (MB : Rabs m2 <= P + (20001 / 10000 * (u * P) + 3 * eta)).
  { replace m2 with (- rh * k * x + (m2 - - rh * k * x)) by ring. eapply Rle_trans; [apply Rabs_triang|]. rewrite !Rabs_mult, Rabs_Ropp, (Rabs_pos_eq k), (Rabs_pos_eq x) by lra. fold c. fold P.
    assert (P * x <= P) by nra. lra. }
  assert (IN : 0 < / N <= 1). { split; [apply Rinv_0_lt_compat; lra|]. rewrite <- Rinv_1. apply Rinv_le_contravar; lra. }
  unfold Rdiv in H3. rewrite Rabs_mult, (Rabs_pos_eq (/ N)) in H3 by lra.
  assert (PN : P * / N <= / 4 * c). { apply (Rmult_le_reg_r N); [lra|]. rewrite Rmult_assoc, Rinv_l by lra. unfold P. nra. }
  assert (PN0 : 0 <= P * / N) by nra.
  assert (S3 : Rabs (r' - - rh * k * x / N) <= 30003 / 10000 * u * (P * / N) + 8 * eta).
  { replace (r' - - rh * k * x / N) with ((r' - m2 * / N) + (m2 - - rh * k * x) * / N) by (field; lra). eapply Rle_trans; [apply Rabs_triang|].
    rewrite Rabs_mult, (Rabs_pos_eq (/ N)) by lra.
    assert (T1 : Rabs (m2 - - rh * k * x) * / N <= (20001 / 10000 * (u * P) + 3 * eta) * / N) by (apply Rmult_le_compat_r; lra).
    assert (T2 : Rabs m2 * / N <= (P + (20001 / 10000 * (u * P) + 3 * eta)) * / N) by (apply Rmult_le_compat_r; lra).
    assert (T3 : eta * / N <= eta) by nra. replace ((20001 / 10000 * (u * P) + 3 * eta) * / N) with (20001 / 10000 * (u * (P * / N)) + 3 * (eta * / N)) in T1 by ring.
    replace ((P + (20001 / 10000 * (u * P) + 3 * eta)) * / N) with (P * / N + (20001 / 10000 * (u * (P * / N)) + 3 * (eta * / N))) in T2 by ring.
    set (p := P * / N) in *. set (en := eta * / N) in *. assert (EN : 0 <= en) by (unfold en; nra).
    assert (T4 : u * (Rabs m2 * / N) <= u * (p + (20001 / 10000 * (u * p) + 3 * en))) by (apply Rmult_le_compat_l; lra).
    assert (T5 : u * (u * p) <= / 10 ^ 15 * (u * p)) by (apply Rmult_le_compat_r; [nra|lra]). assert (T6 : u * en <= eta) by (cbn [pow] in *; nra).
    assert (0 <= u * p) by nra. cbn [pow] in *. nra. }
  assert (G : 0 <= k * x * / N <= / 4). { split; [apply Rmult_le_pos; nra|]. apply (Rmult_le_reg_r N); [lra|]. rewrite Rmult_assoc, Rinv_l by lra. nra. }
  assert (S4 : Rabs (- rh * k * x / N - - r * k * x / N) <= / 4 * (4 * u * (a - a * a))).
  { replace (- rh * k * x / N - - r * k * x / N) with (- ((rh - r) * (k * x * / N))) by (field; lra). rewrite Rabs_Ropp, Rabs_mult, (Rabs_pos_eq (k * x * / N)) by lra.
    pose proof (Rabs_pos (rh - r)). nra. }
  assert (CB : c <= a * a + 4 * u * a).
  { unfold c. replace rh with ((rh - r) + r) by ring. eapply Rle_trans; [apply Rabs_triang|]. assert (0 <= u * (a * a)) by nra. lra. }
  assert (S5 : 30003 / 10000 * u * (P * / N) <= 751 / 1000 * u * (a * a + 4 * u * a)).
  { apply Rle_trans with (30003 / 10000 * u * (/ 4 * c)); [apply Rmult_le_compat_l; [lra|exact PN]|]. assert (0 <= u * (a * a + 4 * u * a)) by nra.
    assert (u * c <= u * (a * a + 4 * u * a)) by (apply Rmult_le_compat_l; lra). lra. }
  replace (r' - - r * k * x / N) with ((r' - - rh * k * x / N) + (- rh * k * x / N - - r * k * x / N)) by ring.
  eapply Rle_trans; [apply Rabs_triang|].
  assert (UA : u * (a * a) <= u * a) by (apply Rmult_le_compat_l; nra). assert (UUA : u * (4 * u * a) <= / 100 * (u * a)) by (cbn [pow] in *; nra).
  assert (L : 8 * eta <= / 100 * (u * a)). { assert (u * / 10 ^ 8 <= u * a) by (apply Rmult_le_compat_l; lra). unfold u in *. cbn [pow] in *. lra. }
  lra.
Qed.
Definition Acc (i : nat) : R := 1002 / 1000 * u * INR i + 4 * u * (1 - ha i - (1 - ha i * ha i) / 3).
Lemma Acc_bound i : (i <= 25)%nat -> 0 <= Acc i <= 28 * u.
Proof.
  intros H. unfold Acc. apply le_INR in H. pose proof (pos_INR i). replace (INR 25) with 25 in H by (rewrite INR_IZR_INZ; reflexivity). pose proof (ha_pos i).
  set (h := ha i) in *. assert (0 <= 1 - h - (1 - h * h) / 3 <= 2 / 3) by nra. unfold u. lra.
Qed.
Lemma series_ieee (x : f64) : is_finite x = true -> 0 < B2R x <= 1 -> forall n i (eh rh : f64) er rr, (n + i = 25)%nat -> rep 1 eh er -> rep 1 rh rr ->
  Rabs (rr - rk i (B2R x)) <= 4 * u * (ha i - ha i * ha i) -> Rabs (er - es i (B2R x)) <= Acc i ->
  exists r, rep 1 (expint1_series f64_arith n x eh rh) r /\ Rabs (r - es 25 (B2R x)) <= 29 * u.
Proof.
  intros F X. induction n as [|n IH]; intros i eh rh er rr NI E R HR HE.
  - assert (i = 25%nat) by lia. subst i. exists er. split; [exact E|]. pose proof (Acc_bound 25 ltac:(lia)). unfold u in *. lra.
  - cbn [expint1_series]. replace (26 - Z.of_nat (S n))%Z with (Z.of_nat (S i)) by lia. replace (Z.of_nat (S i) + 1)%Z with (Z.of_nat (S (S i))) by lia.
    set (k := Z.of_nat (S i)). set (k1 := Z.of_nat (S (S i))). assert (KB : (1 <= k <= 25)%Z) by lia. assert (K1 : (2 <= k1 <= 26)%Z) by lia.
    assert (KR : INR (S i) = IZR k) by (unfold k; apply INR_IZR_INZ). assert (K1R : INR (S (S i)) = IZR k1) by (unfold k1; apply INR_IZR_INZ).
    pose proof (ha_pos i) as HA. pose proof (ha_low i ltac:(lia)) as HL. pose proof (rk_bound i (B2R x) X) as RB.
    assert (KRB : 1 <= IZR k <= 25) by (split; apply IZR_le; lia). assert (K1B : 2 <= IZR k1 <= 26) by (split; apply IZR_le; lia).
    assert (RX : rep 0 x (B2R x)) by (apply rep_intro; [exact F|]; rewrite Rabs_pos_eq by lra; change (pow2 0) with 1; lra).
    assert (U0 : 0 < u <= / 10 ^ 15) by (unfold u; cbn [pow]; lra).
    assert (RO : rep 1 (a_opp f64_arith rh) (- rr)).
    { destruct R as (R1 & R2 & R3). split; [exact (eq_trans (is_finite_Bopp _ _ rh) R1)|]. split; [rewrite <- R2; exact (B2R_Bopp _ _ rh)|now rewrite Rabs_Ropp]. }
    pose proof (rep_mul _ _ _ _ _ _ RO (rep_ofZ k 5 ltac:(lia) ltac:(lia)) ltac:(lia)) as A1. cbn [Z.add Pos.add] in A1. set (m1 := rn (- rr * IZR k)) in *.
    pose proof (rep_mul _ _ _ _ _ _ A1 RX ltac:(lia)) as A2. cbn [Z.add Pos.add] in A2. set (m2 := rn (m1 * B2R x)) in *.
    assert (NB : (1 <= k1 * k1 <= 2 ^ 10)%Z) by nia. assert (NR : 1 <= IZR (k1 * k1)) by (apply IZR_le; lia).
    assert (M2B : Rabs m2 <= pow2 6) by apply A2.
    pose proof (rep_div 6 10 _ _ _ _ A2 (rep_ofZ (k1 * k1) 10 ltac:(lia) ltac:(lia)) ltac:(lra)) as A3.
    assert (QB : Rabs (m2 / IZR (k1 * k1)) <= pow2 6).
    { unfold Rdiv. rewrite Rabs_mult. assert (IN : 0 < / IZR (k1 * k1) <= 1) by (split; [apply Rinv_0_lt_compat; lra|rewrite <- Rinv_1; apply Rinv_le_contravar; lra]).
      rewrite (Rabs_pos_eq (/ _)) by lra. pose proof (Rabs_pos m2). nra. }
    specialize (A3 QB ltac:(lia)). set (r' := rn (m2 / IZR (k1 * k1))) in *.
    assert (T : Rabs (r' - rk (S i) (B2R x)) <= 4 * u * (ha (S i) - ha (S i) * ha (S i))).
    { rewrite <- rk_step, KR, K1R, ha_S. rewrite <- mult_IZR. apply (term_round (IZR k) (IZR (k1 * k1)) (B2R x) (rk i (B2R x)) rr (ha i) m1 m2 r'); try lra; try apply rerr; try assumption.
      rewrite mult_IZR, <- KR, <- K1R. apply ratio_quarter. }
    assert (T' : Rabs (rk (S i) (B2R x)) <= / 4). { pose proof (rk_bound (S i) (B2R x) X) as B. rewrite ha_S in B. nra. }
    pose proof (ha_pos (S i)) as HS. set (h := ha (S i)) in *. assert (HH : 0 <= h - h * h <= 1 / 4). { clear - HS. pose proof (Rle_0_sqr (h - 1 / 2)). unfold Rsqr in *. split; nra. }
    assert (D1 : 4 * u * (h - h * h) <= u). { apply Rle_trans with (4 * u * (1 / 4)); [apply Rmult_le_compat_l; lra|lra]. }
    assert (RB' : Rabs r' <= 3 / 10). { replace r' with ((r' - rk (S i) (B2R x)) + rk (S i) (B2R x)) by ring. eapply Rle_trans; [apply Rabs_triang|]. cbn [pow] in U0. lra. }
    assert (A3' : rep 0 (a_div f64_arith (a_mul f64_arith (a_mul f64_arith (a_opp f64_arith rh) (a_ofZ f64_arith k)) x) (a_ofZ f64_arith (k1 * k1))) r').
    { eapply rep_tight; [exact A3|]. change (pow2 0) with 1. lra. }
    clear A3. set (rf := a_div f64_arith _ _) in *.
    pose proof (es_bounds i (B2R x) X) as EB. pose proof (es_bounds (S i) (B2R x) X) as EB'. change (es (S i) (B2R x)) with (es i (B2R x) + rk (S i) (B2R x)) in EB'.
    pose proof (Acc_bound i ltac:(lia)) as AB.
    assert (SE' : Rabs (er + r' - (es i (B2R x) + rk (S i) (B2R x))) <= Acc i + 4 * u * (h - h * h)).
    { replace (er + r' - (es i (B2R x) + rk (S i) (B2R x))) with ((er - es i (B2R x)) + (r' - rk (S i) (B2R x))) by ring. eapply Rle_trans; [apply Rabs_triang|]. lra. }
    assert (SB : Rabs (er + r') <= 1001 / 1000). { apply Rabs_le_inv in SE'. apply Rabs_le. cbn [pow] in U0. lra. }
    pose proof (rep_add _ _ _ _ _ _ E A3' ltac:(lia)) as A4. cbn [Z.max Z.compare Pos.compare Pos.compare_cont Z.add Pos.add] in A4.
    pose proof (rerr (er + r')) as RR. set (e' := rn (er + r')) in *.
    assert (RR' : Rabs (e' - (er + r')) <= 1002 / 1000 * u).
    { eapply Rle_trans; [exact RR|]. pose proof eta_small as [_ ES]. assert (u * Rabs (er + r') <= u * (1001 / 1000)) by (apply Rmult_le_compat_l; lra). unfold u in *. cbn [pow] in ES. lra. }
    destruct (eqb (a_cmp f64_arith) (a_add f64_arith eh rf) eh) eqn:Q.
    + exists er. split; [exact E|]. rewrite eqb_d, !d_fin in Q by (apply A4 || apply E). apply eqb_Fin in Q.
      destruct A4 as (_ & A42 & _). destruct E as (_ & E2 & _). rewrite A42, E2 in Q.
      assert (RS : Rabs r' <= 1002 / 1000 * u). { replace r' with (- (e' - (er + r'))) by lra. now rewrite Rabs_Ropp. }
      pose proof (es_tail (S n) i (B2R x) X) as TL. replace (i + S n)%nat with 25%nat in TL by lia.
      assert (RK : Rabs (rk (S i) (B2R x)) <= 1002 / 1000 * u + 4 * u * (h - h * h)).
      { replace (rk (S i) (B2R x)) with (r' - (r' - rk (S i) (B2R x))) by ring. eapply Rle_trans; [apply Rabs_triang|]. rewrite Rabs_Ropp. lra. }
      assert (IL : INR i <= 24) by (replace 24 with (INR 24) by (rewrite INR_IZR_INZ; reflexivity); apply le_INR; lia).
      assert (AC : Acc i + 4 / 3 * (4 * u * (h - h * h)) <= (1002 / 1000 * 24 + 27 / 10) * u + u / 10).
      { unfold Acc. assert (HH2 : ha i = 2 * h) by (unfold h; rewrite ha_S; field). rewrite HH2.
        assert (1002 / 1000 * u * INR i <= 1002 / 1000 * u * 24) by (apply Rmult_le_compat_l; lra).
        assert (4 * (1 - 2 * h - (1 - 2 * h * (2 * h)) / 3) + 16 / 3 * (h - h * h) <= 27 / 10) by (replace (4 * (1 - 2 * h - (1 - 2 * h * (2 * h)) / 3) + 16 / 3 * (h - h * h)) with (8 / 3 - 8 / 3 * h) by field; lra).
        assert (u * (4 * (1 - 2 * h - (1 - 2 * h * (2 * h)) / 3) + 16 / 3 * (h - h * h)) <= u * (27 / 10)) by (apply Rmult_le_compat_l; lra). lra. }
      replace (er - es 25 (B2R x)) with ((er - es i (B2R x)) - (es 25 (B2R x) - es i (B2R x))) by ring. eapply Rle_trans; [apply Rabs_triang|]. rewrite Rabs_Ropp. lra.
    + apply (IH (S i) _ _ e' r'); [lia| |eapply rep_weaken; [|exact A3']; lia|exact T|].
      * eapply rep_tight; [exact A4|]. change (pow2 1) with 2. replace e' with ((e' - (er + r')) + (er + r')) by ring. eapply Rle_trans; [apply Rabs_triang|]. cbn [pow] in U0. lra.
      * change (es (S i) (B2R x)) with (es i (B2R x) + rk (S i) (B2R x)).
        replace (e' - (es i (B2R x) + rk (S i) (B2R x))) with ((e' - (er + r')) + (er + r' - (es i (B2R x) + rk (S i) (B2R x)))) by ring.
        eapply Rle_trans; [apply Rabs_triang|]. unfold Acc in *. fold h. rewrite S_INR. assert (HH2 : ha i = 2 * h) by (unfold h; rewrite ha_S; field). rewrite HH2 in SE'.
        replace (1002 / 1000 * u * (INR i + 1) + 4 * u * (1 - h - (1 - h * h) / 3)) with (1002 / 1000 * u + (1002 / 1000 * u * INR i + 4 * u * (1 - 2 * h - (1 - 2 * h * (2 * h)) / 3) + 4 * u * (h - h * h))) by field. lra.
Qed.

(** ** the last step for x <= 1, through the long double format or in double *)
Definition gamma_lit : R := IZR 577215664901532860606512090082402431042159 * powerRZ 10 (-42).
Lemma gamma_lit_gam : gamma_lit = gam. Proof. reflexivity. Qed.
Lemma gam_bounds : 577 / 1000 <= gam <= 578 / 1000.
Proof. unfold gam. change (-42)%Z with (- Z.of_nat 42)%Z. rewrite p10. cbn [pow]. lra. Qed.
Definition good_comb (c : f64 -> f64 -> f64) : Prop := forall a b : f64, is_finite a = true -> is_finite b = true -> Rabs (B2R a) <= pow2 10 -> Rabs (B2R b) <= 2 ->
  is_finite (c a b) = true /\
  Rabs (B2R (c a b) - (- gam - B2R a + B2R b)) <= 1002 / 1000 * u * (gam + Rabs (gam + B2R a) + Rabs (- gam - B2R a + B2R b)) + / 10 ^ 30.
Lemma comb_arith w g t1 t2 t3 a b eu : 0 <= w <= / 10 ^ 10 -> 577 / 1000 <= g <= 578 / 1000 -> Rabs a <= 1024 -> Rabs b <= 2 ->
  Rabs (eu - g) <= w * g + / 10 ^ 36 -> Rabs (t1 - (- eu - a)) <= w * Rabs (- eu - a) + / 10 ^ 36 ->
  Rabs (t2 - (t1 + b)) <= w * Rabs (t1 + b) + / 10 ^ 36 -> Rabs (t3 - t2) <= / 10 ^ 10 * Rabs t2 + / 10 ^ 36 ->
  Rabs (t2 - (- g - a + b)) <= w * (1 + / 10 ^ 9) * (g + Rabs (g + a) + Rabs (- g - a + b)) + / 10 ^ 35 /\ Rabs (- eu - a) <= 1030 /\ Rabs (t1 + b) <= 1040.
Proof.
  intros W G A B E1 E2 E3 _.
  set (m := / 10 ^ 36) in *. assert (M : 0 < m <= / 10 ^ 20 /\ 10 * m = / 10 ^ 35) by (unfold m; cbn [pow]; lra). destruct M as [M M35]. rewrite <- M35. clearbody m.
  set (q1 := Rabs (g + a)) in *. assert (Q1 : 0 <= q1) by apply Rabs_pos. set (q2 := Rabs (- g - a + b)) in *. assert (Q2 : 0 <= q2) by apply Rabs_pos.
  assert (F1 : Rabs (- eu - a) <= q1 + (w * g + m)).
  { replace (- eu - a) with (- (g + a) + - (eu - g)) by ring. eapply Rle_trans; [apply Rabs_triang|]. rewrite !Rabs_Ropp. fold q1. lra. }
  assert (QA : q1 <= 1025) by (unfold q1; eapply Rle_trans; [apply Rabs_triang|]; rewrite (Rabs_pos_eq g) by lra; lra).
  assert (WG : 0 <= w * g <= / 10 ^ 10 * 1) by (split; [apply Rmult_le_pos; lra|apply Rmult_le_compat; lra]).
  assert (S1 : Rabs (t1 - (- g - a)) <= w * g + w * (q1 + (w * g + m)) + 2 * m).
  { replace (t1 - (- g - a)) with ((t1 - (- eu - a)) + - (eu - g)) by ring. eapply Rle_trans; [apply Rabs_triang|]. rewrite Rabs_Ropp.
    assert (w * Rabs (- eu - a) <= w * (q1 + (w * g + m))) by (apply Rmult_le_compat_l; lra). lra. }
  assert (WQ : 0 <= w * q1 <= / 10 ^ 10 * 1025) by (split; [apply Rmult_le_pos; lra|apply Rmult_le_compat; lra]).
  assert (WM : 0 <= w * m <= m) by (split; [apply Rmult_le_pos; lra|]; rewrite <- (Rmult_1_l m) at 2; apply Rmult_le_compat_r; cbn [pow] in *; lra).
  assert (WWG : 0 <= w * (w * g) <= / 10 ^ 10 * (w * g)) by (split; [apply Rmult_le_pos; lra|apply Rmult_le_compat_r; lra]).
  assert (WWQ : 0 <= w * (w * q1) <= / 10 ^ 10 * (w * q1)) by (split; [apply Rmult_le_pos; lra|apply Rmult_le_compat_r; lra]).
  set (s1 := w * g + w * (q1 + (w * g + m)) + 2 * m) in *. assert (S1' : s1 <= (1 + / 10 ^ 10) * (w * g) + w * q1 + 3 * m) by (unfold s1; lra).
  assert (F2 : Rabs (t1 + b) <= q2 + s1).
  { replace (t1 + b) with ((- g - a + b) + (t1 - (- g - a))) by ring. eapply Rle_trans; [apply Rabs_triang|]. fold q2. lra. }
  assert (QB : q2 <= 1028) by (unfold q2; replace (- g - a + b) with (- (g + a) + b) by ring; eapply Rle_trans; [apply Rabs_triang|]; rewrite Rabs_Ropp; fold q1; lra).
  split; [|split; cbn [pow] in *; lra].
  replace (t2 - (- g - a + b)) with ((t2 - (t1 + b)) + (t1 - (- g - a))) by ring. eapply Rle_trans; [apply Rabs_triang|].
  assert (WW : w * Rabs (t1 + b) <= w * (q2 + ((1 + / 10 ^ 10) * (w * g) + w * q1 + 3 * m))) by (apply Rmult_le_compat_l; lra).
  set (wwg := w * (w * g)) in *. set (wwq := w * (w * q1)) in *. set (wm := w * m) in *. 
  replace (w * (q2 + ((1 + / 10 ^ 10) * (w * g) + w * q1 + 3 * m))) with (w * q2 + ((1 + / 10 ^ 10) * wwg + wwq + 3 * wm)) in WW by (unfold wwg, wwq, wm; ring).
  replace (w * (1 + / 10 ^ 9) * (g + q1 + q2)) with ((1 + / 10 ^ 9) * (w * g) + (1 + / 10 ^ 9) * (w * q1) + (1 + / 10 ^ 9) * (w * q2)) by ring.
  assert (0 <= w * q2) by (apply Rmult_le_pos; lra). set (wq := w * q1) in *. set (wg := w * g) in *. set (wq2 := w * q2) in *. clearbody wwg wwq wm wq wg wq2. cbn [pow] in *. lra.
Qed.
Lemma comb_64 : good_comb f64_euler_64.
Proof.
  intros a b Fa Fb A B. pose proof gam_bounds as G. pose proof eta_small as [E0 E1].
  assert (RA : rep 10 a (B2R a)) by now apply rep_intro. assert (RB : rep 1 b (B2R b)) by (apply rep_intro; [exact Fb|exact B]).
  pose proof (lit_rep 577215664901532860606512090082402431042159 (-42) 0 ltac:(lia)) as L. fold gamma_lit in L. rewrite gamma_lit_gam in L.
  specialize (L ltac:(rewrite Rabs_pos_eq by lra; change (pow2 0) with 1; lra)).
  unfold f64_euler_64, euler_sum. cbv zeta. set (el := f64_lit _ _) in *. pose proof (rerr gam) as R0. rewrite (Rabs_pos_eq gam) in R0 by lra. set (eu := rn gam) in *.
  assert (LO : rep 0 (a_opp f64_arith el) (- eu)).
  { destruct L as (L1 & L2 & L3). split; [exact (eq_trans (is_finite_Bopp _ _ el) L1)|]. split; [rewrite <- L2; exact (B2R_Bopp _ _ el)|now rewrite Rabs_Ropp]. }
  pose proof (rep_sub _ _ _ _ _ _ LO RA ltac:(lia)) as S1. cbn [Z.max Z.compare Pos.compare Pos.compare_cont Z.add Pos.add] in S1. pose proof (rerr (- eu - B2R a)) as R1. set (t1 := rn (- eu - B2R a)) in *.
  pose proof (rep_add _ _ _ _ _ _ S1 RB ltac:(lia)) as S2. cbn [Z.max Z.compare Pos.compare Pos.compare_cont Z.add Pos.add] in S2. pose proof (rerr (t1 + B2R b)) as R2. set (t2 := rn (t1 + B2R b)) in *.
  destruct S2 as (S21 & S22 & _). split; [exact S21|]. rewrite S22.
  assert (EE : eta <= / 10 ^ 36) by exact E1. change (pow2 10) with 1024 in A.
  destruct (comb_arith u gam t1 t2 t2 (B2R a) (B2R b) eu) as (C & _); try lra; [unfold u; cbn [pow]; lra|rewrite Rminus_diag_eq, Rabs_R0 by reflexivity; pose proof (Rabs_pos t2); cbn [pow]; lra|].
  eapply Rle_trans; [exact C|]. apply Rplus_le_compat; [|cbn [pow]; lra]. apply Rmult_le_compat_r; [|unfold u; cbn [pow]; lra].
  pose proof (Rabs_pos (gam + B2R a)). pose proof (Rabs_pos (- gam - B2R a + B2R b)). lra.
Qed.

Notation rnL := (rnd f80_prec f80_emax).
#[local] Instance pL : Prec_gt_0 f80_prec := eq_refl.
Lemma rnL_err x : Rabs (rnL x - x) <= u / 1000 * Rabs x + eta.
Proof.
  destruct (error_N_FLT radix2 (3 - f80_emax - f80_prec) f80_prec ltac:(reflexivity) (fun t => negb (Z.even t)) x) as (eps & et & He & Hn & _ & E).
  change (rnL x) with (round radix2 (FLT_exp (3 - f80_emax - f80_prec) f80_prec) (Znearest (fun t => negb (Z.even t))) x). rewrite E.
  replace (x * (1 + eps) + et - x) with (x * eps + et) by ring. eapply Rle_trans; [apply Rabs_triang|]. rewrite Rabs_mult.
  assert (H1 : Rabs eps <= u / 1000). { eapply Rle_trans; [exact He|]. unfold f80_prec, u. cbn. lra. }
  assert (H2 : Rabs et <= eta).
  { eapply Rle_trans; [exact Hn|]. apply Rle_trans with (bpow radix2 (3 - f80_emax - f80_prec)); [pose proof (bpow_gt_0 radix2 (3 - f80_emax - f80_prec)); lra|].
    unfold eta. apply bpow_le. unfold f80_emax, f80_prec. lia. }
  pose proof (Rabs_pos x). rewrite Rmult_comm. apply Rplus_le_compat; [now apply Rmult_le_compat_r|exact H2].
Qed.
Definition repL (f : f80) (r : R) : Prop := is_finite f = true /\ B2R f = r.
Lemma repL_rnd (f : f80) r : f2e f80_prec f80_emax f = frnd f80_prec f80_emax r -> Rabs r <= pow2 1024 -> repL f (rnL r).
Proof.
  intros E H. destruct (frnd_small f80_prec f80_emax f80_Hp r 1024) as [E1 _]; [unfold f80_prec, f80_emax; lia|exact H|].
  rewrite E1 in E. now apply f2e_fin_finite in E.
Qed.
Lemma repL_up (x : f64) : is_finite x = true -> repL (f64_to_f80 x) (B2R x).
Proof.
  intros F. destruct x as [s|s| |s m e H]; try discriminate; [split; reflexivity|]. set (x := B754_finite s m e H : f64) in *.
  assert (G : generic_format radix2 (FLT_exp (3 - f80_emax - f80_prec) f80_prec) (B2R x)).
  { destruct (FLT_format_B2R f64_prec f64_emax f64_Hp x) as [f F1 F2 F3]. apply generic_format_FLT. exists f; [exact F1| |].
    - eapply Z.lt_le_trans; [exact F2|]. unfold f64_prec, f80_prec. apply Z.pow_le_mono_r; reflexivity || lia.
    - eapply Z.le_trans; [|exact F3]. unfold f64_prec, f64_emax, f80_prec, f80_emax, SpecFloat.emin. lia. }
  assert (P := repL_rnd (f64_to_f80 x) (B2R x)). rewrite rnd_generic in P by exact G. apply P.
  - unfold f64_to_f80, fconv, x. rewrite f2e_normalize. reflexivity.
  - left. exact (abs_B2R_lt_emax f64_prec f64_emax x).
Qed.
Lemma rep_down (y : f80) r k : repL y r -> (-1074 <= k <= 1000)%Z -> Rabs r <= pow2 k -> rep k (f80_to_f64 y) (rn r).
Proof.
  intros [F <-] K B. apply rep_of_frnd; [exact K| |exact B]. destruct y as [s|s| |s m e H]; try discriminate.
  - change (f80_to_f64 (B754_zero s)) with (B754_zero s : f64). change (B2R (B754_zero s : f80)) with 0. change (f2e f64_prec f64_emax (B754_zero s)) with (Fin 0).
    unfold frnd. rewrite rnd_rn, rn_0, Rabs_R0, Rlt_bool_true; [reflexivity|apply bpow_gt_0].
  - unfold f80_to_f64, fconv. rewrite f2e_normalize. reflexivity.
Qed.
Lemma lit80 m e : Rabs (IZR m * powerRZ 10 e) <= 1 -> repL (f80_lit m e) (rnL (IZR m * powerRZ 10 e)).
Proof.
  intros H. unfold f80_lit. set (r := IZR m * powerRZ 10 e) in *. cbv zeta. set (x := round _ _ _ r). change x with (rnL r). clear x. 
  assert (FR : generic_format radix2 (FLT_exp (3 - f80_emax - f80_prec) f80_prec) (rnL r)) by (apply generic_format_round; typeclasses eauto).
  set (mm := Ztrunc _). set (ee := cexp _ _ _).
  assert (E : F2R (Float radix2 mm ee) = rnL r). { symmetry. exact FR. }
  rewrite <- (rnd_generic f80_prec f80_emax (rnL r) FR). apply repL_rnd.
  - rewrite f2e_normalize. now rewrite E.
  - pose proof (rnL_err r) as B. pose proof eta_small as [E0 E1]. apply Rabs_le_inv in B. apply Rabs_le_inv in H.
    assert (Rabs r <= 1) by (apply Rabs_le; lra). assert (u / 1000 * Rabs r <= 1) by (unfold u; lra).
    apply Rle_trans with 4; [apply Rabs_le; cbn [pow] in E1; lra|]. change 4 with (pow2 2). apply bpow_le. lia.
Qed.
Lemma comb_80 : good_comb f64_euler_80.
Proof.
  intros a b Fa Fb A B. pose proof gam_bounds as G. pose proof eta_small as [E0 E1]. change (pow2 10) with 1024 in A.
  pose proof (repL_up a Fa) as RA. pose proof (repL_up b Fb) as RB.
  pose proof (lit80 577215664901532860606512090082402431042159 (-42)) as L. fold gamma_lit in L. rewrite gamma_lit_gam in L.
  specialize (L ltac:(rewrite Rabs_pos_eq by lra; lra)).
  unfold f64_euler_80, euler_sum. cbv zeta. set (el := f80_lit _ _) in *. pose proof (rnL_err gam) as R0. rewrite (Rabs_pos_eq gam) in R0 by lra. set (eu := rnL gam) in *.
  assert (U3 : u / 1000 * (1 + / 10 ^ 9) <= u / 900) by (unfold u; cbn [pow]; lra).
  assert (P11 : 2048 <= pow2 1024) by (change 2048 with (pow2 11); apply bpow_le; lia).
  assert (LO : repL (a_opp f80_arith el) (- eu)).
  { destruct L as (L1 & L2). split; [exact (eq_trans (is_finite_Bopp _ _ el) L1)|]. rewrite <- L2. exact (B2R_Bopp _ _ el). }
  assert (E1B : Rabs (- eu - B2R a) <= 1040).
  { replace (- eu - B2R a) with (- (eu - gam) + (- gam - B2R a)) by ring. eapply Rle_trans; [apply Rabs_triang|]. rewrite Rabs_Ropp.
    assert (Rabs (- gam - B2R a) <= 1 + 1024) by (unfold Rminus; eapply Rle_trans; [apply Rabs_triang|]; rewrite !Rabs_Ropp, (Rabs_pos_eq gam) by lra; lra).
    unfold u in R0. cbn [pow] in E1. lra. }
  assert (S1 : repL (a_sub f80_arith (a_opp f80_arith el) (f64_to_f80 a)) (rnL (- eu - B2R a))).
  { destruct LO as [LO1 LO2], RA as [RA1 RA2]. apply repL_rnd; [|lra]. rewrite <- LO2, <- RA2. now apply (f2e_minus _ _ f80_Hp f80_He). }
  pose proof (rnL_err (- eu - B2R a)) as R1. set (t1 := rnL (- eu - B2R a)) in *.
  assert (T1B : Rabs (t1 + B2R b) <= 1045).
  { replace (t1 + B2R b) with ((t1 - (- eu - B2R a)) + ((- eu - B2R a) + B2R b)) by ring. eapply Rle_trans; [apply Rabs_triang|].
    assert (Rabs (- eu - B2R a + B2R b) <= 1042) by (eapply Rle_trans; [apply Rabs_triang|]; lra).
    assert (u / 1000 * Rabs (- eu - B2R a) <= u / 1000 * 1040) by (apply Rmult_le_compat_l; [unfold u|]; lra). unfold u in *. cbn [pow] in E1. lra. }
  assert (S2 : repL (a_add f80_arith (a_sub f80_arith (a_opp f80_arith el) (f64_to_f80 a)) (f64_to_f80 b)) (rnL (t1 + B2R b))).
  { destruct S1 as [S11 S12], RB as [RB1 RB2]. apply repL_rnd; [|lra]. rewrite <- S12, <- RB2. now apply (f2e_plus _ _ f80_Hp f80_He). }
  pose proof (rnL_err (t1 + B2R b)) as R2. set (t2 := rnL (t1 + B2R b)) in *.
  assert (T2B : Rabs t2 <= 2000).
  { replace t2 with ((t2 - (t1 + B2R b)) + (t1 + B2R b)) by ring. eapply Rle_trans; [apply Rabs_triang|].
    assert (u / 1000 * Rabs (t1 + B2R b) <= u / 1000 * 1045) by (apply Rmult_le_compat_l; [unfold u|]; lra). unfold u in *. cbn [pow] in E1. lra. }
  pose proof (rep_down _ _ 11 S2 ltac:(lia) ltac:(change (pow2 11) with 2048; lra)) as S3. pose proof (rerr t2) as R3. set (t3 := rn t2) in *.
  destruct S3 as (S31 & S32 & _). split; [exact S31|]. rewrite S32.
  destruct (comb_arith (u / 1000) gam t1 t2 t2 (B2R a) (B2R b) eu) as (C & _ & _); try lra; [unfold u; cbn [pow]; lra|rewrite Rminus_diag_eq, Rabs_R0 by reflexivity; pose proof (Rabs_pos t2); cbn [pow]; lra|].
  pose proof (Rabs_pos (gam + B2R a)) as Q1. pose proof (Rabs_pos (- gam - B2R a + B2R b)) as Q2.
  set (V := - gam - B2R a + B2R b) in *. set (q := gam + Rabs (gam + B2R a) + Rabs V) in *.
  assert (Q0 : Rabs V + 577 / 1000 <= q) by (unfold q; lra).
  assert (C' : Rabs (t2 - V) <= u / 900 * q + / 10 ^ 35) by (eapply Rle_trans; [exact C|]; apply Rplus_le_compat_r, Rmult_le_compat_r; lra).
  assert (TV : Rabs t2 <= Rabs V + (u / 900 * q + / 10 ^ 35)) by (replace t2 with (V + (t2 - V)) by ring; eapply Rle_trans; [apply Rabs_triang|]; lra).
  replace (t3 - V) with ((t3 - t2) + (t2 - V)) by ring. eapply Rle_trans; [apply Rabs_triang|].
  assert (UT : u * Rabs t2 <= u * (Rabs V + (u / 900 * q + / 10 ^ 35))) by (apply Rmult_le_compat_l; [unfold u|]; lra).
  assert (UQ : u * (u / 900 * q) <= / 10 ^ 15 * (u * q)) by (assert (0 <= u * q) by (apply Rmult_le_pos; [unfold u|]; lra); unfold u in *; cbn [pow]; lra).
  assert (UV : u * Rabs V <= u * q) by (apply Rmult_le_compat_l; [unfold u|]; lra).
  assert (U35 : u * / 10 ^ 35 <= / 10 ^ 35) by (unfold u; cbn [pow]; lra).
  assert (0 <= u * q) by (apply Rmult_le_pos; [unfold u|]; lra). replace (u * (Rabs V + (u / 900 * q + / 10 ^ 35))) with (u * Rabs V + u * (u / 900 * q) + u * / 10 ^ 35) in UT by ring.
  set (uu := u * (u / 900 * q)) in *. set (w := u * / 10 ^ 35) in *. set (uq := u * q) in *. set (uv := u * Rabs V) in *.
  replace (u / 900 * q) with (uq / 900) in C' by (unfold uq; field). replace (1002 / 1000 * u * q) with (1002 / 1000 * uq) by (unfold uq; ring). clearbody uu w uq uv. cbn [pow] in *. lra.
Qed.

Lemma ln_mono x y : 0 < x -> x <= y -> ln x <= ln y.
Proof. intros X [H| ->]; [left; now apply ln_increasing|apply Rle_refl]. Qed.

(** ** expint1 *)
Lemma expint1_01_ieee comb L (x : f64) v : good_comb comb -> good_log L -> is_finite x = true -> 0 < B2R x <= 1 -> is_E1 (B2R x) v ->
  is_finite (expint1_01 f64_arith comb L x) = true /\ Rabs (B2R (expint1_01 f64_arith comb L x) - v) <= (6 * v + 3 + 31 * B2R x) * u /\ 2 / 10 <= v.
Proof.
  intros GC GL F X V. destruct (PS_acc (B2R x) v X V) as [P1 P2]. pose proof gam_bounds as G. pose proof eta_small as [E0 E1].
  destruct (series_ieee x F X 25 0 (a_ofZ f64_arith 1) (a_ofZ f64_arith 1) 1 1 eq_refl (rep_ofZ 1 1 ltac:(lia) ltac:(lia)) (rep_ofZ 1 1 ltac:(lia) ltac:(lia))) as (e & RE & BE).
  { rewrite (proj1 (rk_val (B2R x))). unfold ha. cbn [pow]. rewrite Rminus_diag_eq, Rabs_R0 by reflexivity. unfold u. lra. }
  { cbn [es]. rewrite (proj1 (rk_val (B2R x))). unfold Acc, ha. cbn [pow INR]. rewrite Rminus_diag_eq, Rabs_R0 by reflexivity. unfold u. lra. }
  unfold expint1_01. set (ef := expint1_series _ _ _ _ _) in *.
  assert (RX : rep 0 x (B2R x)) by (apply rep_intro; [exact F|]; rewrite Rabs_pos_eq by lra; change (pow2 0) with 1; lra).
  pose proof (rep_mul _ _ _ _ _ _ RX RE ltac:(lia)) as RM. cbn [Z.add Pos.add] in RM. pose proof (rerr (B2R x * e)) as R1. set (p := rn (B2R x * e)) in *.
  destruct RM as (RM1 & RM2 & RM3). pose proof (es_bounds 25 (B2R x) X) as EB. set (X0 := B2R x) in *. set (S := es 25 X0) in *.
  assert (UU : 0 < u <= / 10 ^ 15) by (unfold u; cbn [pow]; lra). apply Rabs_le_inv in BE.
  assert (XE : 0 <= X0 * e <= 101 / 100 * X0) by (cbn [pow] in UU; nra).
  assert (PB : Rabs (p - X0 * S) <= (301 / 10 * X0) * u + eta).
  { replace (p - X0 * S) with ((p - X0 * e) + X0 * (e - S)) by ring. eapply Rle_trans; [apply Rabs_triang|]. rewrite (Rabs_pos_eq (X0 * e)) in R1 by lra.
    assert (Rabs (X0 * (e - S)) <= X0 * (29 * u)). { rewrite Rabs_mult, (Rabs_pos_eq X0) by lra. apply Rmult_le_compat_l; [lra|]. apply Rabs_le. lra. }
    assert (u * (X0 * e) <= u * (101 / 100 * X0)) by (apply Rmult_le_compat_l; lra). assert (0 <= X0 * u) by (apply Rmult_le_pos; lra). lra. }
  destruct (GL x F (proj1 X)) as [L1 L2]. fold X0 in L2. set (a := B2R (L x)) in *.
  assert (LX : ln X0 <= 0) by (rewrite <- ln_1; apply ln_mono; lra). rewrite (Rabs_left1 (ln X0)) in L2 by exact LX.
  change (bpow radix2 (-52)) with (2 * u) in L2 || replace (bpow radix2 (-52)) with (2 * u) in L2 by (unfold u; cbn; lra).
  assert (LB : -1021 <= ln X0).
  { assert (M : pow2 (-1074) <= X0).
    { unfold X0. pose proof (abs_B2R_ge_emin f64_prec f64_emax) as GE. destruct x as [s|s| |s m ex He]; try discriminate; [cbn in X; lra|].
      specialize (GE (B754_finite s m ex He) eq_refl). rewrite Rabs_pos_eq in GE by (apply Rlt_le, X). exact GE. }
    apply ln_mono in M; [|apply bpow_gt_0]. eapply Rle_trans; [|exact M]. rewrite bpow_powerRZ. change (IZR radix2) with 2.
    change (-1074)%Z with (- Z.of_nat 1074)%Z. rewrite powerRZ_neg', <- pow_powerRZ, ln_Rinv, ln_pow by (try apply pow_lt; lra).
    assert (LT : ln 2 <= 95 / 100).
    { rewrite <- (ln_exp (95 / 100)). apply ln_mono; [lra|]. replace (95 / 100) with (475 / 1000 + 475 / 1000) by field. rewrite exp_plus. pose proof (exp_ineq1_le (475 / 1000)). nra. } replace (INR 1074) with 1074 by (rewrite INR_IZR_INZ; reflexivity). lra. }
  assert (AB : Rabs (a - ln X0) <= 2 * u * - ln X0) by exact L2.
  assert (AB' : 2 * u * - ln X0 <= 1 / 10 ^ 10) by (unfold u in *; cbn [pow]; nra).
  pose proof AB as AB2. apply Rabs_le_inv in AB2.
  assert (PA : Rabs p <= 2) by (rewrite <- RM2; change 2 with (pow2 1); rewrite RM2; exact RM3).
  destruct (GC (L x) (a_mul f64_arith x ef) L1 RM1) as [C1 C2]; [fold a; change (pow2 10) with 1024; apply Rabs_le; cbn [pow] in *; lra|rewrite RM2; exact PA|].
  split; [exact C1|]. split; [|exact P2]. rewrite RM2 in C2. fold a in C2. set (r := B2R (comb (L x) (a_mul f64_arith x ef))) in *. clearbody r.
  unfold PS in P1. fold X0 in P1. fold S in P1. set (W := - gam - ln X0 + X0 * S) in *. set (l := - ln X0) in *.
  assert (XS : 0 <= X0 * S <= 1) by nra.
  set (V2 := - gam - a + p) in *.
  assert (PE : 0 <= (301 / 10 * X0) * u + eta <= 1 / 10 ^ 10) by (unfold u in *; cbn [pow] in *; lra).
  assert (D : Rabs (V2 - W) <= 2 * u * l + ((301 / 10 * X0) * u + eta)).
  { unfold V2, W. replace (- gam - a + p - (- gam - ln X0 + X0 * S)) with (- (a - ln X0) + (p - X0 * S)) by ring. eapply Rle_trans; [apply Rabs_triang|]. rewrite Rabs_Ropp. fold l in AB. lra. }
  apply Rabs_le_inv in P1. assert (W0 : 0 < W) by (cbn [pow] in P1; lra). assert (V20 : 0 <= V2 <= W + 2 / 10 ^ 10) by (apply Rabs_le_inv in D; fold l in AB'; cbn [pow] in *; lra).
  rewrite (Rabs_pos_eq V2) in C2 by lra.
  assert (GA : Rabs (gam + a) <= gam + W + 1 / 10 ^ 10). { apply Rabs_le. unfold W in *. fold l in AB', AB2. unfold l in *. lra. }
  assert (LW : l <= W + gam) by (unfold l, W in *; lra).
  assert (C3 : 1002 / 1000 * u * (gam + Rabs (gam + a) + V2) <= 1002 / 1000 * u * (gam + (gam + W + 1 / 10 ^ 10) + (W + 2 / 10 ^ 10))) by (apply Rmult_le_compat_l; lra).
  assert (UL : 2 * u * l <= 2 * u * (W + gam)) by (apply Rmult_le_compat_l; lra).
  assert (WV : W <= v + 2 / 10 ^ 20) by lra. set (ux := X0 * u) in *.
  replace (r - v) with ((r - V2) + (V2 - W) + (W - v)) by ring. eapply Rle_trans; [apply Rabs_triang|]. eapply Rle_trans; [apply Rplus_le_compat_r, Rabs_triang|].
  assert (P1' : Rabs (W - v) <= 2 / 10 ^ 20) by (apply Rabs_le; lra).
  replace (301 / 10 * X0 * u) with (301 / 10 * ux) in D by (unfold ux; ring). replace ((6 * v + 3 + 31 * X0) * u) with (6 * v * u + 3 * u + 31 * ux) by (unfold ux; ring).
  assert (UX : 0 <= ux) by (unfold ux; nra). clearbody ux. clear - C2 C3 UL WV D P1' UU G E0 E1 UX P2 W0. unfold u in *. cbn [pow] in *. lra.
Qed.
Lemma expint1_gt1_ieee E (x : f64) v : good_exp_neg E -> is_finite x = true -> 1 < B2R x -> is_E1 (B2R x) v ->
  exists r, (t <- expint1_t f64_arith f64_toint x ;; ret (a_mul f64_arith (E (a_opp f64_arith x)) t)) = ret r /\ is_finite r = true /\
    Rabs (B2R r - v) <= (10 * pow2 (-53) + 24 / 10 ^ 17) * v + pow2 (-1073).
Proof.
  intros GE F X V. destruct (expint1_t_ieee x v F X V) as (t & T & E1 & RT & T0 & T1 & _ & B & TP & TE). rewrite E1. cbn [bind ret].
  destruct (GE (a_opp f64_arith x)) as [G1 G2]; [exact (eq_trans (is_finite_Bopp _ _ x) F)| |].
  { replace (B2R (a_opp f64_arith x)) with (- B2R x) by (symmetry; exact (B2R_Bopp _ _ x)). lra. }
  replace (B2R (a_opp f64_arith x)) with (- B2R x) in G2 by (symmetry; exact (B2R_Bopp _ _ x)). set (ef := E (a_opp f64_arith x)) in *. set (ex := exp (- B2R x)) in *.
  assert (EX : 0 < ex <= 1 / 2).
  { split; [apply exp_pos|]. unfold ex. apply Rle_trans with (exp (- (1))); [left; apply exp_increasing; lra|]. rewrite exp_Ropp. pose proof (exp_ineq1_le 1).
    apply (Rmult_le_reg_r (exp 1)); [apply exp_pos|]. rewrite Rinv_l by (apply Rgt_not_eq, exp_pos). lra. }
  pose proof eta_small as [H0 H1]. assert (H74 : bpow radix2 (-1074) = 2 * eta) by (unfold eta; exact (pow2_double (-1075))).
  assert (H73 : pow2 (-1073) = 4 * eta) by (change (-1073)%Z with (-1074 + 1)%Z; rewrite (pow2_double (-1074)), H74; ring). rewrite H74 in G2. rewrite H73.
  replace (bpow radix2 (-52)) with (2 * u) in G2 by (unfold u; cbn; lra). change (pow2 (-53)) with u.
  assert (UU : 0 < u <= / 10 ^ 15) by (unfold u; cbn [pow]; lra).
  assert (T2 : T < 1) by nra.
  pose proof G2 as G3. apply Rabs_le_inv in G3. assert (UE : 0 <= u * ex <= / 10 ^ 15 * ex) by (split; [apply Rmult_le_pos; lra|apply Rmult_le_compat_r; lra]).
  assert (EFB : Rabs (B2R ef) <= 1) by (apply Rabs_le; cbn [pow] in *; lra).
  assert (RE : rep 0 ef (B2R ef)) by (apply rep_intro; [exact G1|exact EFB]).
  pose proof (rep_mul _ _ _ _ _ _ RE RT ltac:(lia)) as RM. cbn [Z.add Pos.add] in RM. pose proof (rerr (B2R ef * B2R t)) as R1. destruct RM as (M1 & M2 & _).
  exists (a_mul f64_arith ef t). split; [reflexivity|]. split; [exact M1|]. rewrite M2. set (r := rn (B2R ef * B2R t)) in *. clearbody r.
  set (a := B2R ef) in *. set (b := B2R t) in *. clearbody a b. apply Rabs_le_inv in TE.
  assert (UT : 0 <= u * T <= / 10 ^ 15 * T) by (split; [apply Rmult_le_pos; lra|apply Rmult_le_compat_r; lra]).
  assert (B1 : 0 <= b <= 1001 / 1000) by (cbn [pow] in *; lra).
  (* |a b - ex T| <= 8.02 u ex T + 2.6 eta *)
  assert (UET : 0 <= u * ex * T) by (apply Rmult_le_pos; lra).
  assert (D1 : Rabs (a * b - ex * T) <= 802 / 100 * (u * ex * T) + 255 / 100 * eta).
  { replace (a * b - ex * T) with ((a - ex) * b + ex * (b - T)) by ring. eapply Rle_trans; [apply Rabs_triang|]. rewrite !Rabs_mult, (Rabs_pos_eq b), (Rabs_pos_eq ex) by lra.
    assert (Z1 : Rabs (a - ex) * b <= (2 * u * ex + 2 * eta) * b) by (apply Rmult_le_compat_r; lra).
    assert (Z2 : ex * Rabs (b - T) <= ex * (601 / 100 * u * T + eta)) by (apply Rmult_le_compat_l; [lra|apply Rabs_le; lra]).
    assert (Z3 : 2 * (u * ex) * b <= 2 * (u * ex) * (T + (601 / 100 * u * T + eta))) by (apply Rmult_le_compat_l; lra).
    assert (Z4 : u * ex * (u * T) <= / 10 ^ 15 * (u * ex * T)). { replace (u * ex * (u * T)) with (u * (u * ex * T)) by ring. apply Rmult_le_compat_r; lra. }
    assert (Z5 : u * ex * eta <= / 100 * eta) by (apply Rmult_le_compat_r; [lra|]; cbn [pow] in *; lra).
    assert (Z6 : eta * b <= eta * (1001 / 1000)) by (apply Rmult_le_compat_l; lra). assert (Z7 : ex * eta <= 1 / 2 * eta) by (apply Rmult_le_compat_r; lra).
    replace ((2 * u * ex + 2 * eta) * b) with (2 * (u * ex) * b + 2 * (eta * b)) in Z1 by ring.
    replace (2 * (u * ex) * (T + (601 / 100 * u * T + eta))) with (2 * (u * ex * T) + 1202 / 100 * (u * ex * (u * T)) + 2 * (u * ex * eta)) in Z3 by field.
    replace (ex * (601 / 100 * u * T + eta)) with (601 / 100 * (u * ex * T) + ex * eta) in Z2 by ring.
    set (g := u * ex * T) in *. set (g1 := u * ex * (u * T)) in *. set (g2 := u * ex * eta) in *. clearbody g g1 g2. cbn [pow] in *. lra. }
  assert (AB : Rabs (a * b) <= ex * T + (802 / 100 * (u * ex * T) + 255 / 100 * eta)) by (replace (a * b) with (ex * T + (a * b - ex * T)) by ring; eapply Rle_trans; [apply Rabs_triang|]; rewrite (Rabs_pos_eq (ex * T)) by nra; lra).
  assert (D2 : u * Rabs (a * b) <= u * (ex * T + (802 / 100 * (u * ex * T) + 255 / 100 * eta))) by (apply Rmult_le_compat_l; lra).
  assert (Z8 : u * (u * ex * T) <= / 10 ^ 15 * (u * ex * T)) by (apply Rmult_le_compat_r; lra). assert (Z9 : u * eta <= / 100 * eta) by (apply Rmult_le_compat_r; [lra|]; cbn [pow] in *; lra).
  assert (D3 : Rabs (r - ex * T) <= 903 / 100 * (u * ex * T) + 36 / 10 * eta).
  { replace (r - ex * T) with ((r - a * b) + (a * b - ex * T)) by ring. eapply Rle_trans; [apply Rabs_triang|].
    replace (u * (ex * T + (802 / 100 * (u * ex * T) + 255 / 100 * eta))) with (u * ex * T + 802 / 100 * (u * (u * ex * T)) + 255 / 100 * (u * eta)) in D2 by field.
    set (g := u * ex * T) in *. set (g1 := u * g) in *. set (g2 := u * eta) in *. clearbody g g1 g2. cbn [pow] in *. lra. }
  replace (r - v) with ((r - ex * T) + (ex * T - v)) by ring. eapply Rle_trans; [apply Rabs_triang|]. fold ex in B. rewrite (Rabs_pos_eq (ex * T - v)) by lra.
  assert (V0 : 0 < v). { assert (0 < ex * T) by (apply Rmult_lt_0_compat; lra). destruct (Rle_or_lt v 0); [|assumption]. clear - H B H2. cbn [pow] in B. lra. }
  assert (Z10 : u * ex * T <= u * (v * (1 + 24 / 10 ^ 17))) by (rewrite Rmult_assoc; apply Rmult_le_compat_l; lra).
  assert (0 < u * v) by (apply Rmult_lt_0_compat; lra). replace (u * (v * (1 + 24 / 10 ^ 17))) with ((1 + 24 / 10 ^ 17) * (u * v)) in Z10 by ring.
  replace ((10 * u + 24 / 10 ^ 17) * v) with (10 * (u * v) + 24 / 10 ^ 17 * v) by ring. set (uv := u * v) in *. set (g := u * ex * T) in *. clearbody uv g. cbn [pow] in *. lra.
Qed.
Lemma expint1_ieee comb L E (x : f64) v : good_comb comb -> good_log L -> good_exp_neg E -> is_finite x = true -> 0 < B2R x -> is_E1 (B2R x) v ->
  exists r, expint1 f64_arith comb f64_toint L E x = ret r /\ is_finite r = true /\ Rabs (B2R r - v) <= expint1_error (B2R x) v.
Proof.
  intros GC GL GE F X V. unfold expint1, expint1_error. pose proof (rep_ofZ 0 1 ltac:(lia) ltac:(lia)) as R0. pose proof (rep_ofZ 1 1 ltac:(lia) ltac:(lia)) as R1.
  assert (C1 : ltb (a_cmp f64_arith) x (a_ofZ f64_arith 0) = false).
  { destruct (ltb _ _ _) eqn:Q; [|reflexivity]. apply (rep_ltb 1024 1 _ _ _ _ (fin_rep x F) R0) in Q. lra. }
  assert (C2 : eqb (a_cmp f64_arith) x (a_ofZ f64_arith 0) = false).
  { rewrite eqb_d, d_ofZ, d_fin by (lia || exact F). apply eqb_Fin_false. lra. }
  rewrite C1, C2. destruct (leb (a_cmp f64_arith) x (a_ofZ f64_arith 1)) eqn:C3; rewrite leb_d, d_ofZ, d_fin in C3 by (lia || exact F).
  - apply leb_Fin in C3. destruct (Rle_dec (B2R x) 1) as [_|N]; [|lra]. eexists. split; [reflexivity|].
    destruct (expint1_01_ieee comb L x v GC GL F (conj X C3) V) as (A & B & _). split; [exact A|]. change (pow2 (-53)) with u. exact B.
  - apply leb_Fin_false in C3. destruct (Rle_dec (B2R x) 1) as [N|_]; [lra|]. exact (expint1_gt1_ieee E x v GE F C3 V).
Qed.

(** ** logexpint1 *)
Lemma ln_le_m1 y : 0 < y -> ln y <= y - 1.
Proof. intros Y. rewrite <- (ln_exp (y - 1)). apply ln_mono; [exact Y|]. pose proof (exp_ineq1_le (y - 1)). lra. Qed.
Lemma lnrel r v e : 0 < v -> 0 <= e <= 1 / 1000 -> Rabs (r - v) <= e * v -> 0 < r /\ Rabs (ln r - ln v) <= 1002 / 1000 * e.
Proof.
  intros V E H. apply Rabs_le_inv in H. assert (EV : 0 <= e * v <= 1 / 1000 * v) by (split; [apply Rmult_le_pos; lra|apply Rmult_le_compat_r; lra]).
  assert (R0 : 0 < r) by lra. split; [exact R0|]. destruct (Rle_dec v r) as [L|L].
  - pose proof (ln_gap v r e ltac:(lra) ltac:(lra)). apply Rabs_le. lra.
  - assert (G : v <= r * (1 + 1002 / 1000 * e)).
    { apply Rle_trans with ((v - e * v) * (1 + 1002 / 1000 * e)); [|apply Rmult_le_compat_r; lra].
      replace ((v - e * v) * (1 + 1002 / 1000 * e)) with (v + e * v * (2 / 1000 - 1002 / 1000 * e)) by field. assert (0 <= e * v * (2 / 1000 - 1002 / 1000 * e)) by (apply Rmult_le_pos; lra). lra. }
    pose proof (ln_gap r v _ ltac:(lra) G). apply Rabs_le. lra.
Qed.
Lemma logexpint1_01_ieee comb L (x : f64) v : good_comb comb -> good_log L -> is_finite x = true -> 0 < B2R x <= 1 -> is_E1 (B2R x) v ->
  is_finite (L (expint1_01 f64_arith comb L x)) = true /\ Rabs (B2R (L (expint1_01 f64_arith comb L x)) - ln v) <= (180 + 3 * Rabs (ln v)) * u.
Proof.
  intros GC GL F X V. destruct (expint1_01_ieee comb L x v GC GL F X V) as (F1 & B & V2). set (r := expint1_01 f64_arith comb L x) in *.
  assert (UU : 0 < u <= / 10 ^ 15) by (unfold u; cbn [pow]; lra).
  destruct (lnrel (B2R r) v (176 * u) ltac:(lra) ltac:(cbn [pow] in UU; lra)) as [R0 R1].
  { eapply Rle_trans; [exact B|]. assert ((6 * v + 3 + 31 * B2R x) * u <= (176 * v) * u) by (apply Rmult_le_compat_r; lra). lra. }
  destruct (GL r F1 R0) as [G1 G2]. split; [exact G1|]. replace (bpow radix2 (-52)) with (2 * u) in G2 by (unfold u; cbn; lra).
  assert (AL : Rabs (ln (B2R r)) <= Rabs (ln v) + 177 * u). { replace (ln (B2R r)) with (ln v + (ln (B2R r) - ln v)) by ring. eapply Rle_trans; [apply Rabs_triang|]. lra. }
  assert (Z : 2 * u * Rabs (ln (B2R r)) <= 2 * u * (Rabs (ln v) + 177 * u)) by (apply Rmult_le_compat_l; lra). pose proof (Rabs_pos (ln v)) as P.
  assert (Z2 : u * u <= / 10 ^ 15 * u) by (apply Rmult_le_compat_r; lra). assert (Z3 : 0 <= u * Rabs (ln v)) by (apply Rmult_le_pos; lra).
  replace (B2R (L r) - ln v) with ((B2R (L r) - ln (B2R r)) + (ln (B2R r) - ln v)) by ring. eapply Rle_trans; [apply Rabs_triang|]. cbn [pow] in *. lra.
Qed.
Lemma add_big' (x : f64) fd d : is_finite x = true -> rep 20 fd d -> rep 1024 (a_sub f64_arith x fd) (rn (B2R x - d)).
Proof.
  intros Fx (D1 & <- & D3). apply rep_big; [now apply (f2e_minus _ _ f64_Hp f64_He)|].
  pose proof (add_big x (a_opp f64_arith fd) (- B2R fd) Fx) as (Q1 & Q2 & _).
  { apply rep_intro; [exact (eq_trans (is_finite_Bopp _ _ fd) D1)| |]; [exact (B2R_Bopp _ _ fd)|rewrite Rabs_Ropp; exact D3] || (split; [exact (eq_trans (is_finite_Bopp _ _ fd) D1)|]; split; [exact (B2R_Bopp _ _ fd)|rewrite Rabs_Ropp; exact D3]). }
  unfold Rminus. rewrite <- Q2. eapply Rle_lt_trans; [apply (abs_B2R_le_emax_minus_prec f64_prec f64_emax f64_Hp)|].
  change (pow2 1024 - pow2 971 < pow2 1024). assert (0 < pow2 971) by apply bpow_gt_0. lra.
Qed.
Lemma opp_B2R (x : f64) : B2R (a_opp f64_arith x) = - B2R x. Proof. exact (B2R_Bopp _ _ x). Qed.
Lemma opp_fin (x : f64) : is_finite x = true -> is_finite (a_opp f64_arith x) = true. Proof. intros F. exact (eq_trans (is_finite_Bopp _ _ x) F). Qed.
Lemma logexpint1_mid_ieee L (x : f64) v : good_log L -> is_finite x = true -> 1 < B2R x <= 500 -> is_E1 (B2R x) v ->
  exists r, (t <- expint1_t f64_arith f64_toint x ;; ret (a_add f64_arith (a_opp f64_arith x) (L t))) = ret r /\ is_finite r = true /\ Rabs (B2R r - ln v) <= (10 + 4 * Rabs (ln v)) * u.
Proof.
  intros GL F X V. destruct (expint1_t_ieee x v F (proj1 X) V) as (t & T & E1 & RT & T0 & T1 & T2 & B & TP & TE). rewrite E1. cbn [bind ret]. set (x0 := B2R x) in *.
  assert (UU : 0 < u <= / 10 ^ 15) by (unfold u; cbn [pow]; lra). pose proof eta_small as [H0 H1].
  assert (TL : / 501 <= T). { apply (Rmult_le_reg_r (x0 + 1)); [lra|]. apply Rle_trans with 1; [|exact T2]. lra. }
  assert (EU : eta <= 1 / 100 * (u * T)). { apply Rle_trans with (1 / 100 * (u * / 501)); [unfold u in *; cbn [pow] in *; lra|]. apply Rmult_le_compat_l; [lra|]. apply Rmult_le_compat_l; lra. }
  destruct (lnrel (B2R t) T (602 / 100 * u) T0 ltac:(cbn [pow] in UU; lra) ltac:(lra)) as [R0 R1].
  destruct (GL t (proj1 RT) R0) as [G1 G2]. replace (bpow radix2 (-52)) with (2 * u) in G2 by (unfold u; cbn; lra).
  assert (V0 : 0 < v). { assert (0 < exp (- x0) * T) by (apply Rmult_lt_0_compat; [apply exp_pos|lra]). destruct (Rle_or_lt v 0) as [N|N]; [|exact N]. clear - N B H. cbn [pow] in B. lra. }
  pose proof (ln_gap v (exp (- x0) * T) (24 / 10 ^ 17) ltac:(lra) ltac:(lra)) as G. rewrite ln_mult, ln_exp in G by (try apply exp_pos; lra).
  assert (T3 : T < 1) by nra. assert (LT : ln T <= 0) by (rewrite <- ln_1; apply ln_mono; lra). assert (LT2 : -500 <= ln T).
  { assert (Z : ln (/ 501) <= ln T) by (apply ln_mono; lra). rewrite ln_Rinv in Z by lra. assert (ln 501 <= 500) by (replace 500 with (501 - 1) by ring; apply ln_le_m1; lra). lra. }
  apply Rabs_le_inv in R1. assert (AT : Rabs (ln (B2R t)) <= - ln T + 7 * u) by (apply Rabs_le; cbn [pow] in UU; lra).
  assert (G3 : 2 * u * Rabs (ln (B2R t)) <= 2 * u * (- ln T + 7 * u)) by (apply Rmult_le_compat_l; lra).
  assert (UL : 0 <= u * - ln T <= / 10 ^ 15 * - ln T) by (split; [apply Rmult_le_pos; lra|apply Rmult_le_compat_r; lra]). assert (U2 : 0 <= u * u <= / 10 ^ 15 * u) by (split; [apply Rmult_le_pos; lra|apply Rmult_le_compat_r; lra]).
  assert (D1 : Rabs (B2R (L t) - ln T) <= 605 / 100 * u + 2 * (u * - ln T)).
  { replace (B2R (L t) - ln T) with ((B2R (L t) - ln (B2R t)) + (ln (B2R t) - ln T)) by ring. eapply Rle_trans; [apply Rabs_triang|].
    assert (Rabs (ln (B2R t) - ln T) <= 1002 / 1000 * (602 / 100 * u)) by (apply Rabs_le; lra). cbn [pow] in *. lra. }
  pose proof D1 as D2. apply Rabs_le_inv in D2. set (l := B2R (L t)) in *.
  assert (RL : rep 20 (L t) l).
  { split; [exact G1|]. split; [reflexivity|]. change (pow2 20) with 1048576. apply Rabs_le. cbn [pow] in *. lra. }
  pose proof (add_big (a_opp f64_arith x) (L t) l (opp_fin x F) RL) as (M1 & M2 & _). rewrite opp_B2R in M2. fold x0 in M2. pose proof (rerr (- x0 + l)) as R2.
  eexists. split; [reflexivity|]. split; [exact M1|]. rewrite M2. set (r := rn (- x0 + l)) in *. clearbody r.
  assert (LV : ln v <= 0) by (cbn [pow] in G; lra). rewrite (Rabs_left1 (ln v)) by exact LV.
  assert (AB : Rabs (- x0 + l) <= - ln v + 10 * u + 2 * (u * - ln T)) by (apply Rabs_le; cbn [pow] in *; lra).
  assert (Z : u * Rabs (- x0 + l) <= u * (- ln v + 10 * u + 2 * (u * - ln T))) by (apply Rmult_le_compat_l; lra).
  assert (Z2 : u * (u * - ln T) <= / 10 ^ 15 * (u * - ln T)) by (apply Rmult_le_compat_r; lra).
  assert (Z3 : u * - ln T <= u * - ln v) by (apply Rmult_le_compat_l; lra). assert (Z4 : u * 1 <= u * - ln v) by (apply Rmult_le_compat_l; lra).
  assert (EU2 : eta <= / 100 * u) by (unfold u in *; cbn [pow] in *; lra). assert (EG : 24 / 10 ^ 17 <= 217 / 100 * u) by (unfold u; cbn [pow]; lra).
  replace (r - ln v) with ((r - (- x0 + l)) + (l - ln T) + (- x0 + ln T - ln v)) by ring. eapply Rle_trans; [apply Rabs_triang|]. eapply Rle_trans; [apply Rplus_le_compat_r, Rabs_triang|].
  rewrite (Rabs_pos_eq (- x0 + ln T - ln v)) by lra.
  replace (u * (- ln v + 10 * u + 2 * (u * - ln T))) with (u * - ln v + 10 * (u * u) + 2 * (u * (u * - ln T))) in Z by ring.
  replace ((10 + 4 * - ln v) * u) with (10 * u + 4 * (u * - ln v)) by ring. set (g1 := u * - ln v) in *. set (g2 := u * - ln T) in *. set (g3 := u * u) in *. set (g4 := u * g2) in *.
  clearbody g1 g2 g3 g4. clear - R2 Z Z2 Z3 Z4 EU2 EG D1 G U2 UL UU. cbn [pow] in *. lra.
Qed.
(** the asymptotic branch *)
Lemma divx (x : f64) f q Q E : is_finite x = true -> 500 < B2R x -> rep 10 f q -> Rabs (q - Q) <= E * u -> 0 <= E <= 100 ->
  exists d, rep 10 (a_div f64_arith f x) d /\ Rabs (d - Q / B2R x) <= (E + Rabs Q + 1 / 100) / 500 * u.
Proof.
  intros F X R H HE. set (x0 := B2R x) in *. assert (UU : 0 < u <= / 10 ^ 15) by (unfold u; cbn [pow]; lra). pose proof eta_small as [H0 H1].
  assert (XI : 0 < / x0 <= / 500) by (split; [apply Rinv_0_lt_compat; lra|apply Rinv_le_contravar; lra]).
  assert (D : forall a, Rabs (a / x0) <= Rabs a / 500).
  { intros a. unfold Rdiv. rewrite Rabs_mult, (Rabs_pos_eq (/ x0)) by lra. apply Rmult_le_compat_l; [apply Rabs_pos|lra]. }
  assert (QB : Rabs (q / x0) <= pow2 10). { eapply Rle_trans; [apply D|]. destruct R as (_ & _ & B). change (pow2 10) with 1024 in *. lra. }
  assert (RX : rep 1024 x x0).
  { split; [exact F|]. split; [reflexivity|]. left. apply (abs_B2R_lt_emax f64_prec f64_emax x). }
  exists (rn (q / x0)). split; [exact (rep_div 10 1024 f x q x0 R RX ltac:(lra) QB ltac:(lia))|]. pose proof (rerr (q / x0)) as R1.
  assert (D1 : Rabs (q / x0 - Q / x0) <= E * u / 500). { replace (q / x0 - Q / x0) with ((q - Q) / x0) by (field; lra). eapply Rle_trans; [apply D|]. lra. }
  assert (D2 : Rabs q <= Rabs Q + E * u). { replace q with (Q + (q - Q)) by ring. eapply Rle_trans; [apply Rabs_triang|]. lra. }
  assert (EU : 0 <= E * u <= 100 * u) by (split; [apply Rmult_le_pos; lra|apply Rmult_le_compat_r; lra]).
  assert (D3 : u * Rabs (q / x0) <= u * ((Rabs Q + 1 / 1000) / 500)). { apply Rmult_le_compat_l; [lra|]. eapply Rle_trans; [apply D|]. cbn [pow] in *. lra. }
  assert (EU2 : eta <= 1 / 1000 / 500 * u) by (unfold u in *; cbn [pow] in *; lra).
  replace (rn (q / x0) - Q / x0) with ((rn (q / x0) - q / x0) + (q / x0 - Q / x0)) by ring. eapply Rle_trans; [apply Rabs_triang|]. lra.
Qed.
Lemma nest (x : f64) c f q Q E : is_finite x = true -> 500 < B2R x -> (Z.abs c <= 24)%Z -> rep 10 f q -> Rabs (q - Q) <= E * u -> 0 <= E <= 100 -> Rabs Q <= 24 ->
  exists q', rep 10 (a_add f64_arith (a_ofZ f64_arith c) (a_div f64_arith f x)) q' /\ Rabs (q' - (IZR c + Q / B2R x)) <= (IZR (Z.abs c) + E / 400 + 12 / 100) * u.
Proof.
  intros F X C R H HE HQ. destruct (divx x f q Q E F X R H HE) as (d & RD & DD). assert (UU : 0 < u <= / 10 ^ 15) by (unfold u; cbn [pow]; lra). pose proof eta_small as [H0 H1].
  set (x0 := B2R x) in *. assert (QX : Rabs (Q / x0) <= 24 / 500).
  { unfold Rdiv. rewrite Rabs_mult, (Rabs_pos_eq (/ x0)) by (left; apply Rinv_0_lt_compat; lra). apply Rmult_le_compat; [apply Rabs_pos|left; apply Rinv_0_lt_compat; lra|exact HQ|apply Rinv_le_contravar; lra]. }
  assert (DB : (E + Rabs Q + 1 / 100) / 500 * u <= (E + 24 + 1 / 100) / 500 * u) by (apply Rmult_le_compat_r; lra).
  assert (EU : 0 <= E * u <= 100 * u) by (split; [apply Rmult_le_pos; lra|apply Rmult_le_compat_r; lra]).
  assert (DA : Rabs d <= 49 / 1000). { replace d with (Q / x0 + (d - Q / x0)) by ring. eapply Rle_trans; [apply Rabs_triang|]. cbn [pow] in *. lra. }
  assert (CA : Rabs (IZR c) = IZR (Z.abs c)) by (rewrite abs_IZR; reflexivity). assert (CB : 0 <= IZR (Z.abs c) <= 24) by (split; apply IZR_le; lia).
  pose proof (rep_add _ _ _ _ _ _ (rep_ofZ c 10 ltac:(lia) ltac:(lia)) RD ltac:(lia)) as RA. pose proof (rerr (IZR c + d)) as R1.
  assert (SB : Rabs (IZR c + d) <= IZR (Z.abs c) + 49 / 1000) by (eapply Rle_trans; [apply Rabs_triang|]; lra).
  assert (Z : u * Rabs (IZR c + d) <= u * (IZR (Z.abs c) + 49 / 1000)) by (apply Rmult_le_compat_l; lra). assert (Z2 : 0 <= u * IZR (Z.abs c) <= / 10 ^ 15 * IZR (Z.abs c)) by (split; [apply Rmult_le_pos; lra|apply Rmult_le_compat_r; lra]).
  assert (EU2 : eta <= 1 / 1000 / 500 * u) by (unfold u in *; cbn [pow] in *; lra).
  exists (rn (IZR c + d)). split.
  - apply (rep_tight 11); [exact RA|]. change (pow2 10) with 1024. replace (rn (IZR c + d)) with ((rn (IZR c + d) - (IZR c + d)) + (IZR c + d)) by ring.
    eapply Rle_trans; [apply Rabs_triang|]. cbn [pow] in *. lra.
  - replace (rn (IZR c + d) - (IZR c + Q / x0)) with ((rn (IZR c + d) - (IZR c + d)) + (d - Q / x0)) by ring. eapply Rle_trans; [apply Rabs_triang|]. lra.
Qed.
Lemma sA_ieee (x : f64) : is_finite x = true -> 500 < B2R x -> let D := a_div f64_arith in let P := a_add f64_arith in let K := a_ofZ f64_arith in
  exists s, rep 10 (D (P (K (-1)%Z) (D (P (K 2%Z) (D (P (K (-6)%Z) (D (a_sub f64_arith (K 24%Z) (D (K 120%Z) x)) x)) x)) x)) x) s /\ Rabs (s - sA (B2R x)) <= u / 100.
Proof.
  intros F X D P K. set (x0 := B2R x) in *. assert (UU : 0 < u <= / 10 ^ 15) by (unfold u; cbn [pow]; lra). pose proof eta_small as [H0 H1].
  assert (XI : 0 < / x0 <= / 500) by (split; [apply Rinv_0_lt_compat; lra|apply Rinv_le_contravar; lra]). assert (EU2 : eta <= 1 / 1000 / 500 * u) by (unfold u in *; cbn [pow] in *; lra).
  destruct (divx x (K 120%Z) 120 120 0 F X (rep_ofZ 120 10 ltac:(lia) ltac:(lia))) as (d & RD & DD); [rewrite Rminus_diag_eq, Rabs_R0 by reflexivity; lra|lra|]. fold x0 in DD. rewrite (Rabs_pos_eq 120) in DD by lra.
  set (Q1 := 120 / x0) in *. assert (B1 : 0 <= Q1 <= 24 / 100) by (unfold Q1, Rdiv; lra). pose proof DD as DD'. apply Rabs_le_inv in DD'.
  pose proof (rep_sub _ _ _ _ _ _ (rep_ofZ 24 10 ltac:(lia) ltac:(lia)) RD ltac:(lia)) as RA. pose proof (rerr (24 - d)) as R1.
  rewrite (Rabs_pos_eq (24 - d)) in R1 by (cbn [pow] in UU; lra). set (q2 := rn (24 - d)) in *.
  assert (Z : u * (24 - d) <= u * 25) by (apply Rmult_le_compat_l; [lra|]; cbn [pow] in UU; lra).
  set (Q2 := 24 - Q1) in *. assert (D2 : Rabs (q2 - Q2) <= 26 * u). { unfold Q2. replace (q2 - (24 - Q1)) with ((q2 - (24 - d)) + - (d - Q1)) by ring. eapply Rle_trans; [apply Rabs_triang|]. rewrite Rabs_Ropp. lra. }
  assert (RA' : rep 10 (a_sub f64_arith (K 24%Z) (D (K 120%Z) x)) q2). { apply (rep_tight 11); [exact RA|]. change (pow2 10) with 1024. apply Rabs_le. apply Rabs_le_inv in D2. unfold Q2 in D2. cbn [pow] in UU. lra. }
  assert (B2 : 23 <= Q2 <= 24) by (unfold Q2; lra).
  destruct (nest x (-6) _ q2 Q2 26 F X ltac:(lia) RA' D2 ltac:(lra) ltac:(rewrite Rabs_pos_eq; lra)) as (q3 & R3 & D3). fold x0 in D3. cbn [Z.abs] in D3.
  set (Q3 := -6 + Q2 / x0) in *. assert (B3 : -6 <= Q3 <= -5) by (unfold Q3, Rdiv; nra).
  destruct (nest x 2 _ q3 Q3 7 F X ltac:(lia) R3 ltac:(lra) ltac:(lra) ltac:(rewrite Rabs_left; lra)) as (q4 & R4 & D4). fold x0 in D4. cbn [Z.abs] in D4.
  set (Q4 := 2 + Q3 / x0) in *. assert (B4 : 1 <= Q4 <= 2) by (unfold Q4, Rdiv; nra).
  destruct (nest x (-1) _ q4 Q4 3 F X ltac:(lia) R4 ltac:(lra) ltac:(lra) ltac:(rewrite Rabs_pos_eq; lra)) as (q5 & R5 & D5). fold x0 in D5. cbn [Z.abs] in D5.
  set (Q5 := -1 + Q4 / x0) in *. assert (B5 : -1 <= Q5 <= 0) by (unfold Q5, Rdiv; nra).
  destruct (divx x _ q5 Q5 2 F X R5 ltac:(lra) ltac:(lra)) as (s & RS & DS). fold x0 in DS. exists s. split; [exact RS|].
  change (sA x0) with (Q5 / x0). rewrite (Rabs_left1 Q5) in DS by lra. eapply Rle_trans; [exact DS|].
  assert ((2 + - Q5 + 1 / 100) / 500 * u <= (2 + 1 + 1 / 100) / 500 * u) by (apply Rmult_le_compat_r; lra). lra.
Qed.
Lemma ln_20 x : 500 <= x -> ln x <= x / 20.
Proof.
  intros X. pose proof (ln_le_m1 (1 + x / 80) ltac:(lra)) as A. assert (B : ln x <= ln ((1 + x / 80) ^ 4)).
  { apply ln_mono; [lra|]. set (y := 1 + x / 80). assert (Y : 725 / 100 <= y) by (unfold y; lra). assert (381 <= y ^ 3).
    { apply Rle_trans with ((725 / 100) ^ 3); [cbn [pow]; lra|]. apply pow_incr. lra. }
    replace (y ^ 4) with (y ^ 3 * y) by ring. apply Rle_trans with (381 * y); [unfold y; lra|]. apply Rmult_le_compat_r; lra. }
  rewrite ln_pow in B by lra. cbn [INR] in B. lra.
Qed.
Lemma ln_max (x : f64) : 0 < B2R x -> ln (B2R x) <= 1000.
Proof.
  intros X. apply Rle_trans with (ln (pow2 1024)).
  - apply ln_mono; [exact X|]. left. eapply Rle_lt_trans; [apply Rle_abs|]. apply (abs_B2R_lt_emax f64_prec f64_emax x).
  - rewrite bpow_powerRZ. change (IZR radix2) with 2. change 1024%Z with (Z.of_nat 1024). rewrite <- pow_powerRZ, ln_pow by lra.
    assert (LT : ln 2 <= 95 / 100).
    { rewrite <- (ln_exp (95 / 100)). apply ln_mono; [lra|]. replace (95 / 100) with (475 / 1000 + 475 / 1000) by field. rewrite exp_plus. pose proof (exp_ineq1_le (475 / 1000)). nra. }
    replace (INR 1024) with 1024 by (rewrite INR_IZR_INZ; reflexivity). lra.
Qed.
Lemma logexpint1_far_ieee L L1 (x : f64) v : good_log L -> good_log1p L1 -> is_finite x = true -> 500 < B2R x -> is_E1 (B2R x) v ->
  let D := a_div f64_arith in let P := a_add f64_arith in let K := a_ofZ f64_arith in
  let s := D (P (K (-1)%Z) (D (P (K 2%Z) (D (P (K (-6)%Z) (D (a_sub f64_arith (K 24%Z) (D (K 120%Z) x)) x)) x)) x)) x in
  let r := P (a_sub f64_arith (a_opp f64_arith x) (L x)) (L1 s) in is_finite r = true /\ Rabs (B2R r - ln v) <= (10 + 4 * Rabs (ln v)) * u.
Proof.
  intros GL GL1 F X V D P K s r. destruct (sA_ieee x F X) as (s0 & RS & DS). change (rep 10 s s0) in RS. clearbody s. destruct RS as (S1 & S2 & _).
  assert (UU : 0 < u <= / 10 ^ 15) by (unfold u; cbn [pow]; lra). pose proof eta_small as [H0 H1]. set (x0 := B2R x) in *.
  pose proof (sA_bounds x0 ltac:(lra)) as SB. destruct (FA_bounds x0 v ltac:(lra) V) as [FB1 FB2]. set (S := sA x0) in *. assert (EU2 : eta <= / 1000 * u) by (unfold u in *; cbn [pow] in *; lra).
  assert (LX : 0 <= ln x0) by (rewrite <- ln_1; apply ln_mono; lra). pose proof (ln_20 x0 ltac:(lra)) as LX2. pose proof (ln_max x ltac:(fold x0; lra)) as LX3. fold x0 in LX3.
  (* log1p(s) *)
  destruct (lnrel (1 + s0) (1 + S) (2 / 100 * u)) as [P0 P1]; [lra|cbn [pow] in UU; lra|replace (1 + s0 - (1 + S)) with (s0 - S) by ring; eapply Rle_trans; [exact DS|]; apply Rle_trans with (2 / 100 * u * (1 / 2)); [lra|apply Rmult_le_compat_l; lra]|].
  pose proof DS as DS'. apply Rabs_le_inv in DS'.
  destruct (GL1 s S1) as [Q1 Q2]; [rewrite S2; cbn [pow] in UU; lra|]. rewrite S2 in Q2. replace (bpow radix2 (-52)) with (2 * u) in Q2 by (unfold u; cbn; lra).
  replace (bpow radix2 (-1074)) with (2 * eta) in Q2 by (unfold eta; symmetry; exact (pow2_double (-1075))).
  assert (LS : -1 / 200 <= ln (1 + S) <= 0).
  { split; [|rewrite <- ln_1; apply ln_mono; lra]. assert (Z : ln (/ (1 + S)) <= / (1 + S) - 1) by (apply ln_le_m1, Rinv_0_lt_compat; lra). rewrite ln_Rinv in Z by lra.
    assert (/ (1 + S) <= / (998 / 1000)) by (apply Rinv_le_contravar; lra). lra. }
  assert (P1' := P1). apply Rabs_le_inv in P1'. set (l1 := B2R (L1 s)) in *.
  assert (D1 : Rabs (l1 - ln (1 + S)) <= u / 20).
  { replace (l1 - ln (1 + S)) with ((l1 - ln (1 + s0)) + (ln (1 + s0) - ln (1 + S))) by ring. eapply Rle_trans; [apply Rabs_triang|].
    assert (Rabs (ln (1 + s0)) <= 6 / 1000) by (apply Rabs_le; cbn [pow] in UU; lra). assert (2 * u * Rabs (ln (1 + s0)) <= 2 * u * (6 / 1000)) by (apply Rmult_le_compat_l; lra). lra. }
  assert (D1' := D1). apply Rabs_le_inv in D1'.
  (* log x *)
  destruct (GL x F ltac:(fold x0; lra)) as [G1 G2]. fold x0 in G2. replace (bpow radix2 (-52)) with (2 * u) in G2 by (unfold u; cbn; lra). rewrite (Rabs_pos_eq (ln x0)) in G2 by lra.
  set (lx := B2R (L x)) in *. assert (G2' := G2). apply Rabs_le_inv in G2'. assert (UL : 0 <= u * ln x0 <= / 10 ^ 15 * ln x0) by (split; [apply Rmult_le_pos; lra|apply Rmult_le_compat_r; lra]).
  assert (RL : rep 20 (L x) lx) by (split; [exact G1|]; split; [reflexivity|]; change (pow2 20) with 1048576; apply Rabs_le; cbn [pow] in *; lra).
  pose proof (add_big' (a_opp f64_arith x) (L x) lx (opp_fin x F) RL) as (M1 & M2 & _). rewrite opp_B2R in M2. fold x0 in M2. pose proof (rerr (- x0 - lx)) as R2. set (d := rn (- x0 - lx)) in *.
  assert (R1L : rep 20 (L1 s) l1) by (split; [exact Q1|]; split; [reflexivity|]; change (pow2 20) with 1048576; apply Rabs_le; cbn [pow] in *; lra).
  pose proof (add_big _ (L1 s) l1 M1 R1L) as (N1 & N2 & _). rewrite M2 in N2. pose proof (rerr (d + l1)) as R3. split; [exact N1|]. set (y := rn (d + l1)) in *. replace (B2R r) with y by (symmetry; exact N2). clear N1 N2. clearbody y.
  (* the value *)
  assert (EX : 0 < exp (- x0) / x0) by (apply Rdiv_lt_0_compat; [apply exp_pos|lra]). assert (FP : 0 < FA x0) by (unfold FA; fold S; apply Rmult_lt_0_compat; lra).
  assert (LF : ln (FA x0) = - x0 + - ln x0 + ln (1 + S)).
  { unfold FA, Rdiv. fold S. rewrite !ln_mult, ln_exp, ln_Rinv; try lra; try (apply Rinv_0_lt_compat; lra). apply exp_pos. }
  pose proof (ln_gap (FA x0) v (48 / 10 ^ 15) ltac:(lra) FB2) as G. rewrite LF in G. set (A := - (- x0 + - ln x0 + ln (1 + S))) in *.
  assert (A1 : x0 + ln x0 <= A <= x0 + ln x0 + 1 / 200) by (unfold A; lra).
  assert (EG : 48 / 10 ^ 15 <= 433 * u) by (unfold u; cbn [pow]; lra). assert (LV : ln v <= 0) by (cbn [pow] in G; unfold A in *; lra). rewrite (Rabs_left1 (ln v)) by exact LV.
  assert (VA : A - 1 / 100 <= - ln v) by (cbn [pow] in G; unfold A in *; lra).
  assert (Z1 : u * Rabs (- x0 - lx) <= u * (1001 / 1000 * A)). { apply Rmult_le_compat_l; [lra|]. apply Rabs_le. cbn [pow] in *. lra. }
  assert (UA : 0 <= u * A <= / 10 ^ 15 * A) by (split; [apply Rmult_le_pos; lra|apply Rmult_le_compat_r; lra]).
  assert (R2' := R2). apply Rabs_le_inv in R2'.
  assert (Z2 : u * Rabs (d + l1) <= u * (1002 / 1000 * A)). { apply Rmult_le_compat_l; [lra|]. apply Rabs_le. cbn [pow] in *. lra. }
  assert (Z3 : u * ln x0 <= u * (A / 20)) by (apply Rmult_le_compat_l; lra). assert (Z4 : u * 500 <= u * A) by (apply Rmult_le_compat_l; lra).
  assert (Z5 : u * (A - 1 / 100) <= u * - ln v) by (apply Rmult_le_compat_l; lra).
  replace (y - ln v) with ((y - (d + l1)) + (d - (- x0 - lx)) + ((l1 - ln (1 + S)) + - (lx - ln x0)) + - (ln v + A)) by (unfold A; ring_simplify; ring).
  assert (W1 : Rabs (- (ln v + A)) <= 48 / 10 ^ 15) by (rewrite Rabs_Ropp; apply Rabs_le; unfold A; cbn [pow] in *; lra).
  assert (W2 : Rabs (l1 - ln (1 + S) + - (lx - ln x0)) <= u / 20 + 2 * u * ln x0) by (eapply Rle_trans; [apply Rabs_triang|]; rewrite Rabs_Ropp; lra).
  eapply Rle_trans; [apply Rabs_triang|]. eapply Rle_trans; [apply Rplus_le_compat_r, Rabs_triang|]. eapply Rle_trans; [apply Rplus_le_compat_r, Rplus_le_compat_r, Rabs_triang|].
  replace ((10 + 4 * - ln v) * u) with (10 * u + 4 * (u * - ln v)) by ring. 
  clear - R3 R2 W1 W2 Z1 Z2 Z3 Z4 Z5 EG EU2 UU. set (g1 := u * - ln v) in *. clearbody g1. set (e := 48 / 10 ^ 15) in *. clearbody e. lra.
Qed.
Lemma logexpint1_ieee comb L L1 (x : f64) v : good_comb comb -> good_log L -> good_log1p L1 -> is_finite x = true -> 0 < B2R x -> is_E1 (B2R x) v ->
  exists r, logexpint1 f64_arith comb f64_toint L L1 x = ret r /\ is_finite r = true /\ Rabs (B2R r - ln v) <= logexpint1_error (B2R x) v.
Proof.
  intros GC GL GE F X V. unfold logexpint1, logexpint1_error. pose proof (rep_ofZ 0 1 ltac:(lia) ltac:(lia)) as R0. pose proof (rep_ofZ 1 1 ltac:(lia) ltac:(lia)) as R1.
  assert (C1 : ltb (a_cmp f64_arith) x (a_ofZ f64_arith 0) = false).
  { destruct (ltb _ _ _) eqn:Q; [|reflexivity]. apply (rep_ltb 1024 1 _ _ _ _ (fin_rep x F) R0) in Q. lra. }
  assert (C2 : eqb (a_cmp f64_arith) x (a_ofZ f64_arith 0) = false).
  { rewrite eqb_d, d_ofZ, d_fin by (lia || exact F). apply eqb_Fin_false. lra. }
  rewrite C1, C2. change (bpow radix2 (-53)) with u. destruct (leb (a_cmp f64_arith) x (a_ofZ f64_arith 1)) eqn:C3; rewrite leb_d, d_ofZ, d_fin in C3 by (lia || exact F).
  - apply leb_Fin in C3. destruct (Rle_dec (B2R x) 1) as [_|N]; [|lra]. eexists. split; [reflexivity|].
    exact (logexpint1_01_ieee comb L x v GC GL F (conj X C3) V).
  - apply leb_Fin_false in C3. destruct (Rle_dec (B2R x) 1) as [N|_]; [lra|].
    destruct (leb (a_cmp f64_arith) x (a_ofZ f64_arith 500)) eqn:C4; rewrite leb_d, d_ofZ, d_fin in C4 by (lia || exact F).
    + apply leb_Fin in C4. exact (logexpint1_mid_ieee L x v GL F (conj C3 C4) V).
    + apply leb_Fin_false in C4. eexists. split; [reflexivity|]. exact (logexpint1_far_ieee L L1 x v GL GE F C4 V).
Qed.
Lemma comb_good c : c = f64_euler_80 \/ c = f64_euler_64 -> good_comb c.
Proof. intros [-> | ->]; [exact comb_80|exact comb_64]. Qed.

(** ** correctly rounded exp, log and log1p meet the hypotheses *)
Lemma good_exp_neg_exists : good_exp_neg (fun z => f64_of_R (exp (B2R z))).
Proof.
  intros z _ Z. assert (E : 0 < exp (B2R z) <= 1).
  { split; [apply exp_pos|]. rewrite <- exp_0. destruct Z as [Z| ->]; [left; now apply exp_increasing|apply Rle_refl]. }
  destruct (rep_of_R 0 (exp (B2R z)) ltac:(lia)) as (A & B & _); [rewrite Rabs_pos_eq by lra; exact (proj2 E)|]. split; [exact A|]. rewrite B.
  pose proof (rerr (exp (B2R z))) as R. rewrite (Rabs_pos_eq (exp (B2R z))) in R by lra. pose proof eta_small.
  replace (bpow radix2 (-1074)) with (2 * eta) by (unfold eta; symmetry; exact (pow2_double (-1075))). replace (bpow radix2 (-52)) with (2 * u) by (unfold u; cbn; lra).
  assert (0 < u * exp (B2R z)) by (apply Rmult_lt_0_compat; [unfold u|]; lra). lra.
Qed.
Lemma good_log1p_exists : good_log1p (fun z => f64_of_R (ln (1 + B2R z))).
Proof.
  intros z _ Z. assert (E : Rabs (ln (1 + B2R z)) <= pow2 1).
  { change (pow2 1) with 2. pose proof (ln_le_m1 (1 + B2R z) ltac:(lra)). pose proof (ln_le_m1 (/ (1 + B2R z)) ltac:(apply Rinv_0_lt_compat; lra)) as Q. rewrite ln_Rinv in Q by lra.
    assert (/ (1 + B2R z) <= / (1 / 2)) by (apply Rinv_le_contravar; lra). apply Rabs_le. lra. }
  destruct (rep_of_R 1 _ ltac:(lia) E) as (A & B & _). split; [exact A|]. rewrite B. pose proof (rerr (ln (1 + B2R z))) as R. pose proof eta_small. pose proof (Rabs_pos (ln (1 + B2R z))).
  replace (bpow radix2 (-1074)) with (2 * eta) by (unfold eta; symmetry; exact (pow2_double (-1075))). replace (bpow radix2 (-52)) with (2 * u) by (unfold u; cbn; lra).
  assert (0 <= u * Rabs (ln (1 + B2R z))) by (apply Rmult_le_pos; [unfold u|]; lra). lra.
Qed.
Lemma near_one (z : f64) : 1 / 2 <= B2R z -> exists m : Z, B2R z = IZR m * u.
Proof.
  intros Z. pose proof (generic_format_B2R f64_prec f64_emax z) as G. red in G. set (x := B2R z) in *. rewrite G. unfold F2R. cbn [Fnum Fexp].
  set (c := cexp radix2 _ x). assert (C : (-53 <= c)%Z).
  { unfold c, cexp. assert (M : (-1 < mag radix2 x)%Z). { apply mag_gt_bpow. rewrite Rabs_pos_eq by lra. change (bpow radix2 (-1)) with (/ 2). lra. }
    unfold SpecFloat.fexp. change f64_prec with 53%Z. lia. }
  exists (Ztrunc (scaled_mantissa radix2 (SpecFloat.fexp f64_prec f64_emax) x) * 2 ^ (c + 53))%Z. rewrite mult_IZR, Rmult_assoc. f_equal.
  change u with (bpow radix2 (-53)). change 2%Z with (radix_val radix2). rewrite IZR_Zpower by lia. rewrite <- bpow_plus. f_equal. lia.
Qed.
Lemma good_log_exists : good_log (fun z => f64_of_R (ln (B2R z))).
Proof.
  intros z F Z. set (x := B2R z) in *. assert (U : 0 < u <= 1 / 10 ^ 6) by (unfold u; cbn [pow]; lra).
  assert (B : Rabs (ln x) <= pow2 11).
  { pose proof (ln_max z Z) as H. change (pow2 11) with 2048. apply Rabs_le. fold x in H. split; [|lra].
    assert (M : pow2 (-1074) <= x).
    { unfold x. pose proof (abs_B2R_ge_emin f64_prec f64_emax) as GE. destruct z as [s|s| |s m ex He]; try discriminate; [unfold x in Z; cbn in Z; lra|].
      specialize (GE (B754_finite s m ex He) eq_refl). rewrite Rabs_pos_eq in GE by (apply Rlt_le, Z). exact GE. }
    apply ln_mono in M; [|apply bpow_gt_0]. eapply Rle_trans; [|exact M]. rewrite bpow_powerRZ. change (IZR radix2) with 2.
    change (-1074)%Z with (- Z.of_nat 1074)%Z. rewrite powerRZ_neg', <- pow_powerRZ, ln_Rinv, ln_pow by (try apply pow_lt; lra).
    assert (LT : ln 2 <= 1) by (replace 1 with (2 - 1) by ring; apply ln_le_m1; lra). replace (INR 1074) with 1074 by (rewrite INR_IZR_INZ; reflexivity). lra. }
  destruct (rep_of_R 11 _ ltac:(lia) B) as (A1 & A2 & _). split; [exact A1|]. rewrite A2. pose proof (rerr (ln x)) as R. pose proof eta_small as [E0 E1].
  replace (bpow radix2 (-52)) with (2 * u) by (unfold u; cbn; lra).
  destruct (Req_dec (ln x) 0) as [N|N].
  { rewrite N. replace (rn 0) with 0 by (symmetry; apply round_0; typeclasses eauto). rewrite Rminus_0_r, Rabs_R0. lra. }
  assert (LB : u / 2 <= Rabs (ln x)).
  { pose proof (ln_le_m1 x Z) as H1. pose proof (ln_le_m1 (/ x) ltac:(now apply Rinv_0_lt_compat)) as H2. rewrite ln_Rinv in H2 by exact Z.
    destruct (Rlt_or_le x (1 / 2)) as [S|S]; [rewrite Rabs_left by lra; cbn [pow] in U; lra|].
    destruct (near_one z S) as (m & M). fold x in M. assert (UV : IZR (2 ^ 53) * u = 1) by (unfold u; cbn; lra).
    destruct (Z.lt_trichotomy m (2 ^ 53)) as [Q|[Q|Q]].
    - assert (IZR m + 1 <= IZR (2 ^ 53)) by (rewrite <- plus_IZR; apply IZR_le; lia). assert ((IZR m + 1) * u <= IZR (2 ^ 53) * u) by (apply Rmult_le_compat_r; lra). rewrite Rabs_left by lra. lra.
    - subst m. rewrite UV in M. exfalso. apply N. rewrite M. apply ln_1.
    - assert (IZR (2 ^ 53) + 1 <= IZR m) by (rewrite <- plus_IZR; apply IZR_le; lia). assert ((IZR (2 ^ 53) + 1) * u <= IZR m * u) by (apply Rmult_le_compat_r; lra).
      assert (X1 : 1 + u <= x) by lra. assert (/ x <= / (1 + u)) by (apply Rinv_le_contravar; lra).
      assert (/ (1 + u) <= 1 - u / 2). { apply (Rmult_le_reg_r (1 + u)); [lra|]. rewrite Rinv_l by lra. cbn [pow] in U. nra. }
      rewrite Rabs_pos_eq by lra. lra. }
  assert (Z2 : u * (u / 2) <= u * Rabs (ln x)) by (apply Rmult_le_compat_l; lra). assert (eta <= u * (u / 2)) by (unfold u in *; cbn [pow] in *; lra). lra.
Qed.

(** * P_Debye1: debye1 in exact arithmetic is within 3.2e-15 of the Debye integral, for every real argument (C51) *)
From Coq Require Import ZArith Reals List Bool Lia Lra.
From Coquelicot Require Import Coquelicot.
From Flocq Require Raux.
From Verif Require Import CSem Num NumP M_Special S_Special P_LogFact P_Expint P_Debye P_DebyeT.
Import ListNotations.
Open Scope R_scope.
Lemma chain0_def : chain0 = cell0_check (hd [] debye1_cells_0). Proof. unfold chain0. reflexivity. Qed.
Lemma chain1_def i : chain1 i = cells_check 3 1 false (tl debye1_cells_0) i. Proof. unfold chain1. reflexivity. Qed.
Lemma chain2_def i : chain2 i = cells_check 101 1 true debye1_cells_1 i. Proof. unfold chain2. reflexivity. Qed.
Lemma chain3_def i : chain3 i = cells_check 205 5 true debye1_cells_2 i. Proof. unfold chain3. reflexivity. Qed.
Lemma chain4_def i : chain4 i = cells_check 305 5 true debye1_cells_3 i. Proof. unfold chain4. reflexivity. Qed.
Local Opaque chain0 chain1 chain2 chain3 chain4 last_ok SI.

Lemma obind_inv o f z : obind o f = Some z -> exists y, o = Some y /\ f y = Some z.
Proof. destruct o as [y|]; [|discriminate]. now exists y. Qed.
Definition good (sc : bool) (c : list (Z * Z)) (t : R) : Prop := Rabs (cell_val sc t c - Ix t) <= 32 / 10 ^ 16 * Ix t.
Definition C0 : R := IZR 16449340668482264 / 10 ^ 16.
Lemma chain_inv : exists i0 i1 i2 i3 i4, chain0 = Some i0 /\ chain1 i0 = Some i1 /\ chain2 i1 = Some i2 /\ chain3 i2 = Some i3 /\ chain4 i3 = Some i4 /\ last_ok i4 = true.
Proof.
  pose proof chain_true as H. unfold chain_ok in H. destruct (obind _ _) as [i4|] eqn:E; [|discriminate]. cbn [opt_ok] in H.
  apply obind_inv in E. destruct E as (i3 & E & E4). apply obind_inv in E. destruct E as (i2 & E & E3). apply obind_inv in E. destruct E as (i1 & E & E2).
  apply obind_inv in E. destruct E as (i0 & E & E1). exists i0, i1, i2, i3, i4. tauto.
Qed.
Lemma table_spec :
  (forall k c t, nth_error debye1_cells_0 k = Some c -> IZR (2 * Z.of_nat k) / 10 <= t <= IZR (2 * (Z.of_nat k + 1)) / 10 -> good false c t) /\
  (forall k c t, nth_error debye1_cells_1 k = Some c -> IZR (100 + 2 * Z.of_nat k) / 10 <= t <= IZR (100 + 2 * (Z.of_nat k + 1)) / 10 -> good true c t) /\
  (forall k c t, nth_error debye1_cells_2 k = Some c -> IZR (200 + 10 * Z.of_nat k) / 10 <= t <= IZR (200 + 10 * (Z.of_nat k + 1)) / 10 -> good true c t) /\
  (forall k c t, nth_error debye1_cells_3 k = Some c -> IZR (300 + 10 * Z.of_nat k) / 10 <= t <= IZR (300 + 10 * (Z.of_nat k + 1)) / 10 -> good true c t) /\
  Rabs (Ix 40 - C0) <= 3 / 10 ^ 16.
Proof.
  destruct chain_inv as (i0 & i1 & i2 & i3 & i4 & E0 & E1 & E2 & E3 & E4 & EL).
  rewrite chain0_def in E0. rewrite chain1_def in E1. rewrite chain2_def in E2. rewrite chain3_def in E3. rewrite chain4_def in E4.
  destruct (cell0_spec _ _ E0) as [A0 B0].
  assert (T22 : 0 < 1 / 10 ^ 22) by (apply Rdiv_lt_0_compat; [lra|apply pow_lt; lra]).
  assert (L1 : Z.of_nat (length (tl debye1_cells_0)) = 49%Z) by reflexivity. assert (L2 : Z.of_nat (length debye1_cells_1) = 50%Z) by reflexivity.
  assert (L3 : Z.of_nat (length debye1_cells_2) = 10%Z) by reflexivity. assert (L4 : Z.of_nat (length debye1_cells_3) = 10%Z) by reflexivity.
  assert (R1 : INR (length (tl debye1_cells_0)) = 49) by (rewrite INR_IZR_INZ, L1; reflexivity). assert (R2 : INR (length debye1_cells_1) = 50) by (rewrite INR_IZR_INZ, L2; reflexivity).
  assert (R3 : INR (length debye1_cells_2) = 10) by (rewrite INR_IZR_INZ, L3; reflexivity). assert (R4 : INR (length debye1_cells_3) = 10) by (rewrite INR_IZR_INZ, L4; reflexivity).
  destruct (cells_spec false (tl debye1_cells_0) 3 1 i0 i1 (1 / 10 ^ 22) E1) as [A1 B1]; [lia|lra|rewrite R1; cbn [pow]; lra|replace ((3 - 1) / 10) with (2 / 10) by field; exact B0|].
  rewrite L1, R1 in B1. destruct (cells_spec true debye1_cells_1 101 1 i1 i2 (1 / 10 ^ 22 + 49 / 10 ^ 22) E2) as [A2 B2]; [lia|cbn [pow]; lra|rewrite R2; cbn [pow]; lra| |].
  { replace (IZR (3 - 1 + 2 * 1 * 49)) with (101 - 1) in B1 by (cbn; ring). exact B1. }
  rewrite L2, R2 in B2. destruct (cells_spec true debye1_cells_2 205 5 i2 i3 (1 / 10 ^ 22 + 49 / 10 ^ 22 + 50 / 10 ^ 22) E3) as [A3 B3]; [lia|cbn [pow]; lra|rewrite R3; cbn [pow]; lra| |].
  { replace (IZR (101 - 1 + 2 * 1 * 50)) with (205 - 5) in B2 by (cbn; ring). exact B2. }
  rewrite L3, R3 in B3. destruct (cells_spec true debye1_cells_3 305 5 i3 i4 (1 / 10 ^ 22 + 49 / 10 ^ 22 + 50 / 10 ^ 22 + 10 / 10 ^ 22) E4) as [A4 B4]; [lia|cbn [pow]; lra|rewrite R4; cbn [pow]; lra| |].
  { replace (IZR (205 - 5 + 2 * 5 * 10)) with (305 - 5) in B3 by (cbn; ring). exact B3. }
  rewrite L4, R4 in B4.
  split; [|split; [|split; [|split]]].
  - intros [|k] c t N T.
    + assert (c = hd [] debye1_cells_0) by (unfold debye1_cells_0 in *; cbn [nth_error hd] in *; congruence). subst c. apply A0. cbn in T. lra.
    + apply (A1 k c t); [exact N|]. revert T. rewrite Nat2Z.inj_succ. replace (2 * Z.succ (Z.of_nat k))%Z with (3 - 1 + 2 * 1 * Z.of_nat k)%Z by lia.
      replace (2 * (Z.succ (Z.of_nat k) + 1))%Z with (3 - 1 + 2 * 1 * (Z.of_nat k + 1))%Z by lia. tauto.
  - intros k c t N T. apply (A2 k c t N). revert T. now rewrite !Z.mul_1_r.
  - intros k c t N T. exact (A3 k c t N T).
  - intros k c t N T. exact (A4 k c t N T).
  - Transparent last_ok. unfold last_ok in EL. apply Z.leb_le in EL. pose proof SI_pos as SP. apply IZR_le in EL. rewrite abs_IZR, minus_IZR, !mult_IZR in EL.
    assert (P16 : IZR (10 ^ 16) = 10 ^ 16) by (change (10 ^ 16)%Z with (10 ^ Z.of_nat 16)%Z; symmetry; apply pow_IZR). rewrite P16 in EL. change (IZR 2) with 2 in EL.
    replace (IZR (305 - 5 + 2 * 5 * 10) / 10) with 40 in B4 by (cbn; lra).
    assert (B5 : Rabs (Ix 40 - IZR i4 / IZR SI) <= 2 / 10 ^ 20).
    { eapply Rle_trans; [exact B4|]. cbn [pow]; lra. }
    clear - EL B5 SP. set (s := IZR SI) in *. clearbody s. assert (T16 : 0 < 10 ^ 16) by (apply pow_lt; lra). unfold C0.
    assert (B6 : Rabs (IZR i4 / s - IZR 16449340668482264 / 10 ^ 16) <= 2 / 10 ^ 16).
    { set (q := 10 ^ 16) in *. clearbody q. set (y := IZR 16449340668482264) in *. clearbody y.
      replace (IZR i4 / s - y / q) with ((IZR i4 * q - y * s) / (s * q)) by (field; lra). unfold Rdiv at 1.
      assert (0 < s * q) by now apply Rmult_lt_0_compat. rewrite Rabs_mult, Rabs_inv, (Rabs_pos_eq (s * q)) by lra.
      apply (Rmult_le_reg_r (s * q)); [assumption|]. rewrite Rmult_assoc, Rinv_l, Rmult_1_r by lra. replace (2 / q * (s * q)) with (2 * s) by (field; lra). exact EL. }
    replace (Ix 40 - IZR 16449340668482264 / 10 ^ 16) with ((Ix 40 - IZR i4 / s) + (IZR i4 / s - IZR 16449340668482264 / 10 ^ 16)) by ring.
    eapply Rle_trans; [apply Rabs_triang|]. cbn [pow] in *. lra.
Qed.

Lemma exp_40 : exp (-40) <= 5 / 10 ^ 18.
Proof.
  assert (C : (epsz 400 * 10 ^ 19 <= 45 * SS)%Z) by (apply Z.leb_le; vm_compute; reflexivity).
  destruct (epsz_spec 400) as [_ E]. rewrite INR_IZR_INZ in E. change (Z.of_nat 400) with 400%Z in E. replace (- (400 / 10)) with (-40) in E by lra.
  apply IZR_le in C. rewrite !mult_IZR in C. assert (P19 : IZR (10 ^ 19) = 10 ^ 19) by (change (10 ^ 19)%Z with (10 ^ Z.of_nat 19)%Z; symmetry; apply pow_IZR). rewrite P19 in C. change (IZR 45) with 45 in C.
  pose proof SS_R as SR. pose proof SS_pos as SP. set (e := IZR (epsz 400)) in *. clearbody e. set (s := IZR SS) in *. clearbody s. apply Rabs_le_between in E.
  apply (Rmult_le_reg_l (s * 10 ^ 19)); [apply Rmult_lt_0_compat; [exact SP|apply pow_lt; lra]|]. rewrite SR in *. cbn [pow] in *. lra.
Qed.
Lemma Ix_tail x : 40 <= x -> Ix 40 <= Ix x <= Ix 40 + 3 / 10 ^ 16.
Proof.
  intros X. split; [now apply Ix_mono|]. destruct X as [X|<-]; [|cbn [pow]; lra].
  set (F := fun t => Ix t + 11 / 10 * (t + 1) * exp (- t)).
  assert (D : forall t, is_derive F t (gD t - 11 / 10 * t * exp (- t))).
  { intros t. unfold F. replace (gD t - 11 / 10 * t * exp (- t)) with (gD t + (11 / 10 * exp (- t) + 11 / 10 * (t + 1) * - exp (- t))) by ring.
    apply (is_derive_plus Ix (fun t => 11 / 10 * (t + 1) * exp (- t))); [apply Ix_derive|]. auto_derive; [exact I|]. ring. }
  destruct (MVT_cor2 F _ 40 x X (fun c _ => proj1 (is_derive_Reals F c _) (D c))) as (c & EQ & Hc).
  assert (EC : exp (- c) <= 5 / 10 ^ 18). { left. eapply Rlt_le_trans; [apply exp_increasing|apply exp_40]. lra. }
  destruct (gD_neq c ltac:(lra)) as [Eg _]. pose proof (exp_pos (- c)) as EP. set (e := exp (- c)) in *. clearbody e.
  assert (E11 : e <= 1 / 11) by (cbn [pow] in EC; lra).
  assert (G : gD c <= 11 / 10 * c * e).
  { rewrite Eg. apply (Rmult_le_reg_r (1 - e)); [lra|]. unfold Rdiv at 1. rewrite Rmult_assoc, Rinv_l, Rmult_1_r by lra. assert (0 < c * e) by nra. nra. }
  assert (FX : F x <= F 40) by nra. unfold F in FX. pose proof (exp_pos (- x)) as EX. pose proof exp_40 as E40.
  assert (0 <= 11 / 10 * (x + 1) * exp (- x)) by (apply Rmult_le_pos; lra).
  assert (11 / 10 * (40 + 1) * exp (- (40)) <= 11 / 10 * (40 + 1) * (5 / 10 ^ 18)).
  { apply Rmult_le_compat_l; [lra|]. replace (- (40)) with (-40) by lra. exact E40. }
  cbn [pow] in *. lra.
Qed.

Lemma poly_Fin x c : poly earith elit (Fin x) c = Fin (polyR x c).
Proof.
  induction c as [|p [|q c] IH]; [reflexivity| |].
  { change (poly earith elit (Fin x) [p]) with (Fin (litR p)). f_equal. cbn [polyR]. ring. }
  change (poly earith elit (Fin x) (p :: q :: c)) with (a_add earith (litp elit p) (a_mul earith (Fin x) (poly earith elit (Fin x) (q :: c)))).
  rewrite IH. reflexivity.
Qed.
Lemma block_in a n sc cells x next : (0 < n <= 50)%Z -> Z.of_nat (length cells) = n -> IZR a <= x < IZR (a + 10) -> (sc = true -> x <> 0) ->
  exists k c, nth_error cells k = Some c /\ IZR (10 * Z.of_nat k) <= IZR n * (x - IZR a) <= IZR (10 * (Z.of_nat k + 1)) /\
    debye1_block earith elit etoint a (a + 10) n sc cells (Fin x) next = ret (Fin (if sc then polyR x c / x else polyR x c)).
Proof.
  intros N L X SC. unfold debye1_block. cbn [a_cmp a_ofZ earith a_mul a_sub a_div]. rewrite (proj2 (ltb_Fin x (IZR (a + 10)))) by lra.
  cbn [eadd eopp esub emul]. rewrite ediv_Fin by lra. cbn [emul].
  set (r := IZR n * ((x - IZR a) / 10)). assert (NR : 0 < IZR n <= 50) by (split; [apply IZR_lt|apply IZR_le]; lia). rewrite plus_IZR in X.
  assert (R0 : 0 <= r) by (unfold r; apply Rmult_le_pos; lra).
  assert (R1 : r < IZR n) by (unfold r; nra).
  assert (E : Raux.Ztrunc r = Raux.Zfloor r) by (apply Raux.Ztrunc_floor; lra).
  pose proof (Raux.Zfloor_lb r) as B1. pose proof (Raux.Zfloor_ub r) as B2. set (z := Raux.Zfloor r) in *.
  assert (Z0 : (0 <= z)%Z). { apply Z.lt_succ_r, lt_IZR. unfold Z.succ. rewrite plus_IZR. lra. }
  assert (Z1 : (z < n)%Z) by (apply lt_IZR; lra).
  destruct (nth_error cells (Z.to_nat z)) as [c|] eqn:NE; [|apply nth_error_None in NE; lia].
  exists (Z.to_nat z), c. split; [exact NE|]. rewrite Z2Nat.id by lia. split.
  { rewrite !mult_IZR, plus_IZR. change (IZR 10) with 10. change (IZR 1) with 1. unfold r in B1, B2. lra. }
  cbn [etoint]. change (IZR n * ((x + - IZR a) / 10)) with r. rewrite E. unfold in_int. replace ((- 2 ^ 31 <=? z) && (z <? 2 ^ 31))%Z with true by (symmetry; apply andb_true_intro; rewrite Z.leb_le, Z.ltb_lt; lia).
  cbn [bind ret]. replace (z <? 0)%Z with false by (symmetry; apply Z.ltb_ge; lia). rewrite NE, poly_Fin.
  destruct sc; [rewrite ediv_Fin by now apply SC|]; reflexivity.
Qed.
Lemma block_out a b n sc cells x next : IZR b <= x -> debye1_block earith elit etoint a b n sc cells (Fin x) next = next.
Proof. intros X. unfold debye1_block. cbn [a_cmp a_ofZ earith]. now rewrite (proj2 (ltb_Fin_false x (IZR b))) by lra. Qed.

Lemma C0_lit : elit 16449340668482264 (-16) = Fin C0.
Proof. unfold elit, C0. f_equal. Qed.
Lemma good_div sc c x v : 0 < x -> good sc c x -> v = Ix x / x -> Rabs ((if sc then polyR x c / x else polyR x c) - v) <= 32 / 10 ^ 16 * v.
Proof.
  intros X G ->. unfold good, cell_val in G.
  replace ((if sc then polyR x c / x else polyR x c) - Ix x / x) with (((if sc then polyR x c else x * polyR x c) - Ix x) / x) by (destruct sc; field; lra).
  unfold Rdiv at 1. rewrite Rabs_mult, Rabs_inv, (Rabs_pos_eq x) by lra. apply (Rmult_le_reg_r x); [exact X|].
  rewrite Rmult_assoc, Rinv_l, Rmult_1_r by lra. replace (32 / 10 ^ 16 * (Ix x / x) * x) with (32 / 10 ^ 16 * Ix x) by (set (q := 32 / 10 ^ 16); clearbody q; field; lra). exact G.
Qed.
Lemma debye1_pos_acc x v : 0 <= x -> is_D1 x v ->
  exists y, debye1_pos earith elit etoint (Fin x) = ret (Fin y) /\ Rabs (y - v) <= 32 / 10 ^ 16 * v.
Proof.
  intros X D. apply D1_Ix in D. destruct table_spec as (T0 & T1 & T2 & T3 & T4). unfold debye1_pos.
  assert (VX : x = 0 \/ (0 < x /\ v = Ix x / x)) by (destruct D as [[-> _]|[N ->]]; [now left|right; split; [lra|reflexivity]]).
  destruct (Rlt_dec x 10) as [X0|X0].
  { destruct (block_in 0 50 false debye1_cells_0 x (debye1_block earith elit etoint 10 20 50 true debye1_cells_1 (Fin x)
     (debye1_block earith elit etoint 20 30 10 true debye1_cells_2 (Fin x)
      (debye1_block earith elit etoint 30 40 10 true debye1_cells_3 (Fin x)
        (ret (a_div earith (elit 16449340668482264 (-16)) (Fin x))))))) as (k & c & N & B & E); [lia|reflexivity|cbn; lra|discriminate|].
    change (0 + 10)%Z with 10%Z in E. rewrite E. eexists. split; [reflexivity|].
    destruct VX as [->|[XP ->]].
    - assert (v = 1) by (destruct D as [[_ ->]|[? _]]; [reflexivity|lra]). subst v.
      assert (k = 0)%nat. { destruct k; [reflexivity|exfalso]. rewrite mult_IZR in B. assert (K1 : 1 <= IZR (Z.of_nat (S k))) by (apply IZR_le; lia). set (q := IZR (Z.of_nat (S k))) in *. clearbody q. rewrite Rminus_0_r, Rmult_0_r in B. lra. }
      subst k. unfold debye1_cells_0 in N. cbn [nth_error] in N. apply some_inv in N. subst c. cbn [polyR]. unfold litR at 1. cbn [fst snd powerRZ].
      rewrite Rmult_0_l. replace (1 * 1 + 0 - 1) with 0 by ring. rewrite Rabs_R0. cbn [pow]. lra.
    - apply (good_div false c x _ XP); [|reflexivity]. apply (T0 k c x N). clear - B. rewrite !mult_IZR, !plus_IZR in *. set (q := IZR (Z.of_nat k)) in *. clearbody q. lra. }
  assert (XP : 0 < x) by lra. destruct VX as [->|[_ EV]]; [lra|]. rewrite block_out by (cbn; lra).
  destruct (Rlt_dec x 20) as [X1|X1].
  { match goal with |- context [debye1_block earith elit etoint 10 20 50 true debye1_cells_1 (Fin x) ?n] =>
      destruct (block_in 10 50 true debye1_cells_1 x n) as (k & c & N & B & E); [lia|reflexivity|cbn; lra|intros; lra|] end.
    change (10 + 10)%Z with 20%Z in E. rewrite E. eexists. split; [reflexivity|].
    apply (good_div true c x _ XP); [|exact EV]. apply (T1 k c x N). clear - B. rewrite ?plus_IZR, !mult_IZR, !plus_IZR in *. set (q := IZR (Z.of_nat k)) in *. clearbody q. lra. }
  rewrite block_out by (cbn; lra). destruct (Rlt_dec x 30) as [X2|X2].
  { match goal with |- context [debye1_block earith elit etoint 20 30 10 true debye1_cells_2 (Fin x) ?n] =>
      destruct (block_in 20 10 true debye1_cells_2 x n) as (k & c & N & B & E); [lia|reflexivity|cbn; lra|intros; lra|] end.
    change (20 + 10)%Z with 30%Z in E. rewrite E. eexists. split; [reflexivity|].
    apply (good_div true c x _ XP); [|exact EV]. apply (T2 k c x N). clear - B. rewrite ?plus_IZR, !mult_IZR, !plus_IZR in *. set (q := IZR (Z.of_nat k)) in *. clearbody q. lra. }
  rewrite block_out by (cbn; lra). destruct (Rlt_dec x 40) as [X3|X3].
  { match goal with |- context [debye1_block earith elit etoint 30 40 10 true debye1_cells_3 (Fin x) ?n] =>
      destruct (block_in 30 10 true debye1_cells_3 x n) as (k & c & N & B & E); [lia|reflexivity|cbn; lra|intros; lra|] end.
    change (30 + 10)%Z with 40%Z in E. rewrite E. eexists. split; [reflexivity|].
    apply (good_div true c x _ XP); [|exact EV]. apply (T3 k c x N). clear - B. rewrite ?plus_IZR, !mult_IZR, !plus_IZR in *. set (q := IZR (Z.of_nat k)) in *. clearbody q. lra. }
  rewrite block_out by (cbn; lra). rewrite C0_lit. cbn [a_div earith]. rewrite ediv_Fin by lra. eexists. split; [reflexivity|].
  pose proof (Ix_tail x ltac:(lra)) as TL. rewrite EV.
  replace (C0 / x - Ix x / x) with ((C0 - Ix x) / x) by (field; lra). unfold Rdiv at 1. rewrite Rabs_mult, Rabs_inv, (Rabs_pos_eq x) by lra.
  apply (Rmult_le_reg_r x); [exact XP|]. rewrite Rmult_assoc, Rinv_l, Rmult_1_r by lra.
  replace (32 / 10 ^ 16 * (Ix x / x) * x) with (32 / 10 ^ 16 * Ix x) by (set (q := 32 / 10 ^ 16); clearbody q; field; lra).
  apply Rabs_le_between in T4. assert (1 <= C0) by (unfold C0; cbn [pow]; lra). apply Rabs_le. cbn [pow] in *. lra.
Qed.
(** D1(-x) = D1(x) + x/2 *)
Lemma gD_neg t : gD (- t) = t + gD t.
Proof.
  unfold debye_integrand. destruct (Req_EM_T (- t) 0), (Req_EM_T t 0); try lra.
  assert (E : exp (- t) * exp t = 1) by (rewrite <- exp_plus, Rplus_opp_l; apply exp_0).
  assert (N1 : exp (- t) - 1 <> 0). { intros C. apply n. assert (exp (- t) = exp 0) as C2 by (rewrite exp_0; lra). now apply exp_inv in C2. }
  assert (N2 : exp t - 1 <> 0). { intros C. apply n0. assert (exp t = exp 0) as C2 by (rewrite exp_0; lra). now apply exp_inv in C2. }
  apply (Rmult_eq_reg_r ((exp (- t) - 1) * (exp t - 1))); [|now apply Rmult_integral_contrapositive].
  replace (- t / (exp (- t) - 1) * ((exp (- t) - 1) * (exp t - 1))) with (- t * (exp t - 1)) by (field; exact N1).
  replace ((t + t / (exp t - 1)) * ((exp (- t) - 1) * (exp t - 1))) with (t * (exp (- t) * exp t - exp t) ) by (field; exact N2).
  rewrite E. ring.
Qed.
Lemma Ix_neg x : Ix (- x) = - (Ix x + x ^ 2 / 2).
Proof.
  set (K := fun x => Ix (- x) + Ix x + x ^ 2 / 2).
  assert (D : forall y, is_derive K y 0).
  { intros y. unfold K. replace 0 with (- gD (- y) + gD y + y) by (rewrite gD_neg; ring).
    apply (is_derive_plus (fun x => Ix (- x) + Ix x) (fun x => x ^ 2 / 2)); [apply (is_derive_plus (fun x => Ix (- x)) Ix); [|apply Ix_derive]|auto_derive; [exact I|field]].
    replace (- gD (- y)) with (-1 * gD (- y)) by ring. apply (is_derive_comp Ix (fun x => - x) y (gD (- y)) (-1)); [apply Ix_derive|]. auto_derive; [exact I|ring]. }
  assert (K0 : K 0 = 0) by (unfold K; rewrite Ropp_0, Ix_0; cbn [pow]; field).
  assert (KX : K x = 0).
  { destruct (Rtotal_order x 0) as [L|[->|L]]; [|exact K0|].
    - destruct (MVT_cor2 K _ x 0 L (fun c _ => proj1 (is_derive_Reals K c _) (D c))) as (c & E & _). lra.
    - destruct (MVT_cor2 K _ 0 x L (fun c _ => proj1 (is_derive_Reals K c _) (D c))) as (c & E & _). lra. }
  unfold K in KX. lra.
Qed.
Lemma D1_exists x : exists v, is_D1 x v.
Proof. destruct (Req_EM_T x 0) as [->|N]; [exists 1|exists (Ix x / x)]; apply D1_Ix; [left|right]; split; auto. Qed.
Lemma D1_unique x v w : is_D1 x v -> is_D1 x w -> v = w.
Proof. intros A B. apply D1_Ix in A, B. destruct A as [[? ?]|[? ?]], B as [[? ?]|[? ?]]; subst; try reflexivity; congruence. Qed.
Lemma D1_neg x v : is_D1 x v -> is_D1 (- x) (v + x / 2).
Proof.
  intros A. apply D1_Ix in A. apply D1_Ix. destruct A as [[-> ->]|[N ->]]; [left; split; lra|right]. split; [lra|].
  rewrite Ix_neg. field. lra.
Qed.
Theorem debye1_acc x v : is_D1 x v ->
  exists y, debye1 earith elit etoint (Fin x) = ret (Fin y) /\ Rabs (y - v) <= 32 / 10 ^ 16 * v.
Proof.
  intros D. unfold debye1. cbn [a_cmp a_ofZ earith a_opp]. destruct (Rlt_dec x 0) as [X|X].
  - rewrite (proj2 (ltb_Fin x 0) X). assert (D' := D1_neg x v D). cbn [eopp].
    destruct (debye1_pos_acc (- x) _ ltac:(lra) D') as (y & E & B). rewrite E. cbn [bind ret a_sub a_div earith].
    rewrite ediv_Fin by (cbn; lra). cbn [esub eadd eopp]. eexists. split; [reflexivity|].
    replace (y + - (x / 2) - v) with (y - (v + x / 2)) by field.
    eapply Rle_trans; [exact B|]. apply Rmult_le_compat_l; [cbn [pow]; lra|lra].
  - rewrite (proj2 (ltb_Fin_false x 0)) by (apply Rnot_lt_le; exact X). apply debye1_pos_acc; [lra|exact D].
Qed.

(** * P_SpecialF: the special functions in IEEE double: domains, int conversions, branch selection (C51) *)
From Coq Require Import ZArith Reals List Bool Lia Lra.
From Flocq Require Import Core BinarySingleNaN.
From Verif Require Import CSem CSemP Num NumP NumF M_Log1p S_Log1p P_Log1p P_Log1pF M_Special S_Special P_LogFact P_Expint P_Debye P_Debye1.
Import ListNotations.
Open Scope R_scope.

#[local] Instance p53 : Prec_gt_0 53 := eq_refl.
#[local] Instance v53 : Valid_exp fexp64 := FLT_exp_valid _ _.

Lemma rep_of_R k r : (-1074 <= k <= 1000)%Z -> Rabs r <= pow2 k -> rep k (f64_of_R r) (rn r).
Proof.
  intros K B. unfold f64_of_R. set (x := round _ _ _ r). change x with (rn r) in *. clearbody x.
  set (m := Ztrunc _). set (e := cexp _ _ _).
  assert (E : IZR m * pow2 e = rn r). { symmetry. exact (rn_format r). }
  rewrite <- (rn_id (rn r) (rn_format r)). apply rep_of_frnd; [exact K| |apply rn_abs_le; [lia|exact B]].
  rewrite (f2e_normalize f64_prec f64_emax f64_Hp f64_He). unfold F2R. cbn [Fnum Fexp]. now rewrite E.
Qed.
Lemma toint_rep k f r : rep k f r -> in_int (Ztrunc r) = true -> f64_toint f = ret (Ztrunc r).
Proof.
  intros (F & <- & _) I. unfold f64_toint. rewrite F.
  assert (E : Btrunc f = Ztrunc (B2R f)) by (apply eq_IZR; rewrite Btrunc_correct; [apply round_FIX_IZR|exact f64_He]).
  rewrite E, I. reflexivity.
Qed.
Lemma in_int_R r : Rabs r <= 1000 -> in_int (Ztrunc r) = true.
Proof.
  intros B. apply Rabs_le_inv in B. unfold in_int. apply andb_true_intro. rewrite Z.leb_le, Z.ltb_lt.
  assert (Ztrunc (-1000) <= Ztrunc r <= Ztrunc 1000)%Z by (split; apply Ztrunc_le; lra).
  rewrite (Ztrunc_IZR (-1000)), (Ztrunc_IZR 1000) in H. lia.
Qed.
(** comparisons through the denotation *)
Lemma ltb_d x y : ltb (a_cmp f64_arith) x y = ltb ecmp (f2e f64_prec f64_emax x) (f2e f64_prec f64_emax y).
Proof. exact (ltb_f f64_prec f64_emax x y). Qed.
Lemma leb_d x y : leb (a_cmp f64_arith) x y = leb ecmp (f2e f64_prec f64_emax x) (f2e f64_prec f64_emax y).
Proof. exact (leb_f f64_prec f64_emax x y). Qed.
Lemma eqb_d x y : eqb (a_cmp f64_arith) x y = eqb ecmp (f2e f64_prec f64_emax x) (f2e f64_prec f64_emax y).
Proof. exact (eqb_f f64_prec f64_emax x y). Qed.
Lemma gtb_d x y : gtb (a_cmp f64_arith) x y = gtb ecmp (f2e f64_prec f64_emax x) (f2e f64_prec f64_emax y).
Proof. exact (gtb_f f64_prec f64_emax x y). Qed.
Lemma fin_rep x : is_finite x = true -> rep 1024 x (B2R x).
Proof. intros F. split; [exact F|]. split; [reflexivity|]. left. apply (abs_B2R_lt_emax f64_prec f64_emax). Qed.
Lemma d_fin x : is_finite x = true -> f2e f64_prec f64_emax x = Fin (B2R x).
Proof. apply f2e_finite. Qed.
Lemma d_ofZ z : (Z.abs z <= 2 ^ 53)%Z -> f2e f64_prec f64_emax (a_ofZ f64_arith z) = Fin (IZR z).
Proof. intros H. destruct (rep_ofZ z 53 ltac:(lia) H) as (F & E & _). now rewrite d_fin, E. Qed.

Lemma toint_80 x : gtb (a_cmp f64_arith) x (a_ofZ f64_arith 1) = true -> exists q, f64_toint (a_div f64_arith (a_ofZ f64_arith 80) x) = ret q /\ (0 <= q <= 80)%Z.
Proof.
  rewrite gtb_d, d_ofZ by lia. intros G. destruct x as [s|s| |s m e B]; try discriminate G.
  - cbn in G. rewrite Rcompare_Lt in G by lra. discriminate.
  - destruct s; [discriminate|]. exists 0%Z. split; [vm_compute; reflexivity|lia].
  - set (x := B754_finite s m e B) in *. rewrite d_fin in G by reflexivity. apply gtb_Fin in G.
    assert (Q : 0 < 80 / B2R x <= 80).
    { split; [apply Rdiv_lt_0_compat; lra|]. apply (Rmult_le_reg_r (B2R x)); [lra|]. unfold Rdiv. rewrite Rmult_assoc, Rinv_l by lra. lra. }
    pose proof (rep_div 7 1024 _ x _ _ (rep_ofZ 80 7 ltac:(lia) ltac:(lia)) (fin_rep x eq_refl) ltac:(lra) ltac:(rewrite Rabs_pos_eq by lra; change (pow2 7) with 128; lra) ltac:(lia)) as R.
    assert (F80 : format 80) by (eapply rep_format; exact (rep_ofZ 80 7 ltac:(lia) ltac:(lia))).
    assert (R80 : 0 <= rn (80 / B2R x) <= 80).
    { split; [rewrite <- rn_0; apply round_le; [typeclasses eauto|typeclasses eauto|lra]|]. apply Rle_trans with (rn 80); [apply round_le; [typeclasses eauto|typeclasses eauto|lra]|rewrite rn_id by exact F80; lra]. }
    exists (Ztrunc (rn (80 / B2R x))). split; [eapply toint_rep; [exact R|]; apply in_int_R, Rabs_le; lra|].
    set (r := rn _) in *. clearbody r. pose proof (Ztrunc_le _ _ (proj1 R80)) as P1. pose proof (Ztrunc_le _ _ (proj2 R80)) as P2.
    rewrite (Ztrunc_IZR 0) in P1. rewrite (Ztrunc_IZR 80) in P2. lia.
Qed.
Lemma not_le_gt x z : is_nan x = false -> (Z.abs z <= 2 ^ 53)%Z -> leb (a_cmp f64_arith) x (a_ofZ f64_arith z) = false -> gtb (a_cmp f64_arith) x (a_ofZ f64_arith z) = true.
Proof.
  intros N Z. rewrite leb_d, gtb_d, d_ofZ by exact Z. destruct x as [s|[]| |s m e B]; try discriminate; try reflexivity;
    [change (f2e f64_prec f64_emax (B754_zero s)) with (Fin 0)|rewrite d_fin by reflexivity]; rewrite leb_Fin_false, gtb_Fin; auto.
Qed.
Lemma expint1_defined_ieee comb log exp x : is_nan x = false -> expint1 f64_arith comb f64_toint log exp x <> ub.
Proof.
  intros N. unfold expint1. destruct (ltb _ _ _); [discriminate|]. destruct (eqb _ _ _); [discriminate|]. destruct (leb _ _ _) eqn:L; [discriminate|].
  destruct (toint_80 x (not_le_gt x 1 N ltac:(lia) L)) as (q & Q & _). unfold expint1_t. rewrite Q. discriminate.
Qed.
Lemma expint1_nan_ieee comb log exp : expint1 f64_arith comb f64_toint log exp B754_nan = ub.
Proof. reflexivity. Qed.
Lemma logexpint1_defined_ieee comb log log1p x : logexpint1 f64_arith comb f64_toint log log1p x <> ub.
Proof.
  unfold logexpint1. cbv zeta.
  match goal with |- (if ?b then _ else _) <> _ => destruct b; [discriminate|] end.
  match goal with |- (if ?b then _ else _) <> _ => destruct b; [discriminate|] end.
  match goal with |- (if ?b then _ else _) <> _ => destruct b eqn:L; [discriminate|] end.
  match goal with |- (if ?b then _ else _) <> _ => destruct b eqn:L2; [|discriminate] end.
  assert (N : is_nan x = false) by (destruct x; try reflexivity; discriminate L2).
  destruct (toint_80 x (not_le_gt x 1 N ltac:(lia) L)) as (q & Q & _). unfold expint1_t. rewrite Q. discriminate.
Qed.

(** at +oo *)
Lemma expint1_inf_ieee comb log exp : exp (B754_infinity true) = B754_zero false ->
  expint1 f64_arith comb f64_toint log exp (B754_infinity false) = ret (B754_zero false).
Proof.
  intros E. unfold expint1, expint1_t.
  replace (f64_toint (a_div f64_arith (a_ofZ f64_arith 80) (B754_infinity false))) with (@ret Z 0%Z) by (symmetry; vm_compute; reflexivity).
  cbn [bind ret].
  replace (a_div f64_arith (a_ofZ f64_arith 1) (a_add f64_arith (B754_infinity false) (expint1_cf f64_arith (Z.to_nat (20 + 0)) (B754_infinity false) (a_ofZ f64_arith 0))))
    with (B754_zero false : f64) by (vm_compute; reflexivity).
  change (a_opp f64_arith (B754_infinity false)) with (B754_infinity true : f64). rewrite E. vm_compute. reflexivity.
Qed.
Lemma logexpint1_inf_ieee comb log log1p : log (B754_infinity false) = B754_infinity false -> log1p (B754_zero true) = B754_zero true ->
  logexpint1 f64_arith comb f64_toint log log1p (B754_infinity false) = ret (B754_infinity true).
Proof.
  intros E E1. unfold logexpint1. rewrite E. set (s := a_div f64_arith _ (B754_infinity false)). replace s with (B754_zero true : f64) by (vm_compute; reflexivity).
  rewrite E1. vm_compute. reflexivity.
Qed.
(** NaN propagates through logexpint1 *)
Lemma nan_add_l y : a_add f64_arith B754_nan y = B754_nan. Proof. destruct y; reflexivity. Qed.
Lemma nan_sub_l y : a_sub f64_arith B754_nan y = B754_nan. Proof. destruct y; reflexivity. Qed.
Lemma logexpint1_nan_ieee comb log log1p : logexpint1 f64_arith comb f64_toint log log1p B754_nan = ret B754_nan.
Proof.
  unfold logexpint1. change (a_opp f64_arith B754_nan) with (B754_nan : f64). rewrite nan_sub_l, nan_add_l. reflexivity.
Qed.

(** ** debye1: which approximant is used *)
Lemma rn_mono a b : a <= b -> rn a <= rn b.
Proof. intros H. apply round_le; [typeclasses eauto|typeclasses eauto|exact H]. Qed.
Lemma rn_IZR z : (Z.abs z <= 2 ^ 53)%Z -> rn (IZR z) = IZR z.
Proof. intros H. apply rn_id. eapply rep_format. exact (rep_ofZ z 53 ltac:(lia) H). Qed.
Lemma pow53 : pow2 (-53) <= 1 / (8 * 10 ^ 15) /\ pow2 (-1075) <= 1 / 10 ^ 20 /\ 0 < pow2 (-53) /\ 0 < pow2 (-1075).
Proof.
  split; [cbn; lra|]. split; [|split; apply bpow_gt_0].
  apply Rle_trans with (pow2 (-70)); [apply bpow_le; lia|cbn; lra].
Qed.
(** the index computed in a block, for x in [a - 1, a + 10) *)
Lemma block_index x a n : is_finite x = true -> (0 <= a <= 30)%Z -> (0 < n <= 50)%Z -> IZR a - 1 / 100 <= B2R x <= IZR a + 10 ->
  let q := IZR n * (B2R x - IZR a) / 10 in
  exists y, f64_toint (a_mul f64_arith (a_ofZ f64_arith n) (a_div f64_arith (a_sub f64_arith x (a_ofZ f64_arith a)) (a_ofZ f64_arith 10))) = ret (Ztrunc y)
    /\ Rabs (y - q) <= 35 / 10 ^ 17 * Rabs q + 2 / 10 ^ 18.
Proof.
  intros F A N X q. pose proof pow53 as (P1 & P2 & P3 & P4).
  assert (C : pow2 (-53) <= 11103 / 10 ^ 20) by (cbn; lra).
  assert (NR : 0 < IZR n <= 50) by (split; [apply IZR_lt|apply IZR_le]; lia). assert (AR : 0 <= IZR a <= 30) by (split; apply IZR_le; lia).
  assert (RX : rep 6 x (B2R x)) by (apply rep_intro; [exact F|]; apply Rabs_le; change (pow2 6) with 64; lra).
  pose proof (rep_sub _ _ _ _ _ _ RX (rep_ofZ a 5 ltac:(lia) ltac:(lia)) ltac:(lia)) as R1. cbn [Z.max Z.compare Pos.compare Pos.compare_cont Z.add Pos.add] in R1.
  assert (RE : forall r, Rabs (rn r - r) <= 11103 / 10 ^ 20 * Rabs r + 1 / 10 ^ 20).
  { intros r. eapply Rle_trans; [apply (rn_err_le r (Rabs r)); lra|]. apply Rplus_le_compat; [apply Rmult_le_compat_r; [apply Rabs_pos|exact C]|exact P2]. }
  set (D := B2R x - IZR a) in *. assert (DB : Rabs D <= 1001 / 100) by (apply Rabs_le; unfold D; lra).
  assert (E1 := RE D). set (d := rn D) in *.
  assert (D1 : Rabs d <= Rabs D + (11103 / 10 ^ 20 * Rabs D + 1 / 10 ^ 20)) by (replace d with (D + (d - D)) by ring; eapply Rle_trans; [apply Rabs_triang|]; lra).
  assert (A10 : forall z, Rabs (z / 10) = Rabs z / 10) by (intros z; unfold Rdiv; rewrite Rabs_mult, (Rabs_pos_eq (/ 10)) by lra; reflexivity).
  pose proof (Rabs_pos D) as DP.
  assert (Q2 : Rabs (d / 10) <= 2) by (rewrite A10; cbn [pow] in *; lra).
  pose proof (rep_div 7 4 _ _ _ _ R1 (rep_ofZ 10 4 ltac:(lia) ltac:(lia)) ltac:(lra) ltac:(change (pow2 7) with 128; lra) ltac:(lia)) as R2.
  assert (E2 := RE (d / 10)). rewrite A10 in E2. set (e := rn (d / 10)) in *.
  assert (E3 : Rabs (e - D / 10) <= 2223 / 10 ^ 19 * (Rabs D / 10) + 2 / 10 ^ 20).
  { replace (e - D / 10) with ((e - d / 10) + (d - D) / 10) by field. eapply Rle_trans; [apply Rabs_triang|]. rewrite A10. cbn [pow] in *. lra. }
  assert (E4 : Rabs e <= (1 + 2223 / 10 ^ 19) * (Rabs D / 10) + 2 / 10 ^ 20).
  { replace e with ((e - D / 10) + D / 10) by ring. eapply Rle_trans; [apply Rabs_triang|]. rewrite A10. lra. }
  pose proof (rep_mul _ _ _ _ _ _ (rep_ofZ n 6 ltac:(lia) ltac:(lia)) R2 ltac:(lia)) as R3. cbn [Z.add Pos.add] in R3.
  assert (E5 := RE (IZR n * e)). rewrite Rabs_mult, (Rabs_pos_eq (IZR n)) in E5 by lra. set (y := rn (IZR n * e)) in *.
  assert (QA : Rabs q = IZR n * (Rabs D / 10)) by (unfold q; fold D; unfold Rdiv; rewrite !Rabs_mult, (Rabs_pos_eq (IZR n)), (Rabs_pos_eq (/ 10)) by lra; ring).
  exists y. assert (B : Rabs (y - q) <= 35 / 10 ^ 17 * Rabs q + 2 / 10 ^ 18).
  { rewrite QA. unfold q. fold D. replace (y - IZR n * D / 10) with ((y - IZR n * e) + IZR n * (e - D / 10)) by field.
    eapply Rle_trans; [apply Rabs_triang|]. rewrite Rabs_mult, (Rabs_pos_eq (IZR n)) by lra.
    assert (M1 := Rmult_le_compat_l (IZR n) _ _ ltac:(lra) E3). assert (M2 := Rmult_le_compat_l (IZR n) _ _ ltac:(lra) E4).
    rewrite Rmult_plus_distr_l in M1, M2. assert (0 <= IZR n * (Rabs D / 10)) by (apply Rmult_le_pos; lra).
    set (nD := IZR n * (Rabs D / 10)) in *. replace (IZR n * (2223 / 10 ^ 19 * (Rabs D / 10))) with (2223 / 10 ^ 19 * nD) in M1 by (unfold nD; ring).
    replace (IZR n * ((1 + 2223 / 10 ^ 19) * (Rabs D / 10))) with ((1 + 2223 / 10 ^ 19) * nD) in M2 by (unfold nD; ring).
    clearbody nD. set (ne := IZR n * Rabs e) in *. clearbody ne. cbn [pow] in *. lra. }
  split; [|exact B]. eapply toint_rep; [exact R3|]. apply in_int_R.
  assert (QB : Rabs q <= 51). { rewrite QA. assert (IZR n * (Rabs D / 10) <= 50 * (1001 / 1000)) by (apply Rmult_le_compat; lra). lra. }
  replace y with ((y - q) + q) by ring. eapply Rle_trans; [apply Rabs_triang|]. cbn [pow] in *. lra.
Qed.
Section Cells.
  Variable lit : Z -> Z -> f64.
  Variable x : f64.
  Hypothesis F : is_finite x = true.
  Local Notation uses r := (uses_cell lit x r).
  Lemma block_uses a n w sc cells next : (0 <= a <= 30)%Z -> (n * w = 100)%Z -> (2 <= w <= 10)%Z -> (0 < n <= 50)%Z -> length cells = Z.to_nat n ->
    In (10 * a, w, sc, cells)%Z (debye_table debye1_cells_0 debye1_cells_1 debye1_cells_2 debye1_cells_3) ->
    IZR a - 4 / 10 ^ 16 * B2R x <= B2R x < IZR (a + 10) -> 0 <= B2R x ->
    uses (debye1_block f64_arith lit f64_toint a (a + 10) n sc cells x next) \/
    (debye1_block f64_arith lit f64_toint a (a + 10) n sc cells x next = next /\ IZR (a + 10) - 4 / 10 ^ 16 * B2R x <= B2R x).
  Proof.
    intros A NW W N L IN X X0.
    assert (NR : 0 < IZR n <= 50) by (split; [apply IZR_lt|apply IZR_le]; lia). assert (AR : 0 <= IZR a <= 30) by (split; apply IZR_le; lia).
    assert (WR : 2 <= IZR w <= 10) by (split; apply IZR_le; lia). assert (NWR : IZR n * IZR w = 100) by (rewrite <- mult_IZR, NW; reflexivity).
    rewrite plus_IZR in X. destruct (block_index x a n F A N ltac:(cbn [pow] in X; lra)) as (y & T & B). set (q := IZR n * (B2R x - IZR a) / 10) in *.
    unfold debye1_block. rewrite (proj2 (rep_ltb 1024 6 x (a_ofZ f64_arith (a + 10)) _ _ (fin_rep x F) (rep_ofZ (a + 10) 6 ltac:(lia) ltac:(lia)))) by (rewrite plus_IZR; lra).
    rewrite T. cbn [bind ret]. apply Rabs_le_inv in B.
    assert (QX : B2R x = IZR a + q * 10 / IZR n) by (unfold q; field; lra).
    assert (NI : 10 / IZR n = IZR w / 10) by (apply (Rmult_eq_reg_r (10 * IZR n)); [|lra]; replace (10 / IZR n * (10 * IZR n)) with 100 by (field; lra); rewrite <- NWR; field).
    assert (QX' : B2R x = IZR a + q * (IZR w / 10)) by (rewrite QX, <- NI; field; lra).
    assert (Q0 : - (1 / 10 ^ 12) <= q < IZR n).
    { unfold q. split; [|nra]. apply Rle_trans with (50 * (- (1 / 10 ^ 13)) / 10); [cbn [pow]; lra|].
      assert (IZR n * (B2R x - IZR a) >= 50 * - (1 / 10 ^ 13)); [|lra]. assert (B2R x - IZR a >= - (1 / 10 ^ 13)) by (cbn [pow] in *; lra). cbn [pow] in *. nra. }
    assert (QA : Rabs q <= 50) by (apply Rabs_le; cbn [pow] in *; lra).
    assert (Y0 : -1 < y) by (cbn [pow] in *; lra).
    assert (K0 : (0 <= Ztrunc y)%Z). { destruct (Rle_dec 0 y); [rewrite Ztrunc_floor by lra; apply Zfloor_lub; exact r|rewrite Ztrunc_ceil by lra; apply le_IZR; pose proof (Zceil_ub y); apply IZR_le; apply Z.lt_succ_r, lt_IZR; unfold Z.succ; rewrite plus_IZR; lra]. }
    replace (Ztrunc y <? 0)%Z with false by (symmetry; apply Z.ltb_ge; exact K0).
    assert (KB : (0 <= y -> IZR (Ztrunc y) <= y) /\ (y < 0 -> Ztrunc y = 0%Z) /\ y <= IZR (Ztrunc y) + 1).
    { destruct (Rle_dec 0 y) as [Y|Y].
      - rewrite Ztrunc_floor by lra. pose proof (Zfloor_lb y). pose proof (Zfloor_ub y). split; [intros _; exact H|]. split; [intros; lra|lra].
      - assert (H : Ztrunc y = 0%Z). { rewrite Ztrunc_ceil by lra. apply (Zceil_imp 0). cbn. lra. }
        rewrite H. change (IZR 0) with 0. split; [intros; lra|]. split; [auto|lra]. }
    destruct KB as (KB1 & KB2 & KB3).
    (* the index is exact up to a relative 3.6e-16 once q >= 1/2 *)
    assert (BQ : 1 / 2 <= q -> Rabs (y - q) <= 36 / 10 ^ 17 * q).
    { intros H. rewrite (Rabs_pos_eq q) in B by lra. apply Rabs_le. cbn [pow] in *. lra. }
    assert (QW : 36 / 10 ^ 17 * q * (IZR w / 10) <= 4 / 10 ^ 16 * B2R x).
    { rewrite Rmult_assoc. replace (q * (IZR w / 10)) with (B2R x - IZR a) by lra. cbn [pow] in *. lra. }
    set (h := 36 / 10 ^ 17 * q) in *. set (t2 := 4 / 10 ^ 16 * B2R x) in *. assert (T2 : 0 <= t2) by (unfold t2; cbn [pow]; lra).
    assert (Yq : Rabs (y - q) <= 1 / 10 ^ 12) by (apply Rabs_le; cbn [pow] in *; lra).
    assert (KP : (Ztrunc y = 0 \/ 1 <= Ztrunc y)%Z) by lia.
    destruct (nth_error cells (Z.to_nat (Ztrunc y))) as [c|] eqn:NE.
    - left. exists (10 * a)%Z, w, sc, cells, (Z.to_nat (Ztrunc y)), c. split; [exact IN|]. split; [exact NE|]. split; [|reflexivity].
      rewrite Z2Nat.id by exact K0. rewrite !plus_IZR, !mult_IZR, !plus_IZR. change (IZR 10) with 10. change (IZR 1) with 1. fold t2.
      split.
      + destruct KP as [KP|KP].
        * rewrite KP. change (IZR 0) with 0. lra.
        * pose proof (IZR_le _ _ KP) as KR. assert (Y : 0 <= y). { destruct (Rle_dec 0 y) as [Y|Y]; [exact Y|]. rewrite KB2 in KP by lra. lia. }
          specialize (KB1 Y). apply Rabs_le_inv in Yq. assert (HQ : 1 / 2 <= q) by (change (IZR 1) with 1 in KR; cbn [pow] in *; lra). specialize (BQ HQ). apply Rabs_le_inv in BQ.
          assert ((IZR (Ztrunc y) - h) * (IZR w / 10) <= q * (IZR w / 10)) by (apply Rmult_le_compat_r; lra). lra.
      + destruct (Rle_dec (1 / 2) q) as [HQ|HQ].
        * specialize (BQ HQ). apply Rabs_le_inv in BQ. assert (q * (IZR w / 10) <= (IZR (Ztrunc y) + 1 + h) * (IZR w / 10)) by (apply Rmult_le_compat_r; lra). lra.
        * pose proof (IZR_le _ _ K0) as KR. change (IZR 0) with 0 in KR. assert (q * (IZR w / 10) <= (IZR (Ztrunc y) + 1) * (IZR w / 10)) by (apply Rmult_le_compat_r; lra). lra.
    - right. split; [reflexivity|]. apply nth_error_None in NE. assert (KN : (n <= Ztrunc y)%Z) by lia. apply IZR_le in KN.
      assert (N1 : 1 <= IZR n) by (apply IZR_le; lia).
      rewrite plus_IZR. fold t2. change (IZR 10) with 10. destruct (Rle_dec 0 y) as [Y|Y]; [|rewrite KB2 in KN by lra; change (IZR 0) with 0 in KN; lra].
      specialize (KB1 Y). apply Rabs_le_inv in Yq. assert (HQ : 1 / 2 <= q) by (cbn [pow] in *; lra). specialize (BQ HQ). apply Rabs_le_inv in BQ.
      assert ((IZR n - h) * (IZR w / 10) <= q * (IZR w / 10)) by (apply Rmult_le_compat_r; lra). lra.
  Qed.
  Lemma block_skip a n sc cells next : (0 <= a <= 30)%Z -> IZR (a + 10) <= B2R x ->
    debye1_block f64_arith lit f64_toint a (a + 10) n sc cells x next = next.
  Proof.
    intros A X. unfold debye1_block. destruct (ltb _ _ _) eqn:E; [|reflexivity].
    apply (rep_ltb 1024 6 x (a_ofZ f64_arith (a + 10)) _ _ (fin_rep x F) (rep_ofZ (a + 10) 6 ltac:(lia) ltac:(lia))) in E. lra.
  Qed.
  Lemma debye1_pos_uses : 0 <= B2R x < 40 ->
    uses (debye1_pos f64_arith lit f64_toint x) \/
    (40 - 4 / 10 ^ 16 * B2R x <= B2R x /\ debye1_pos f64_arith lit f64_toint x = ret (a_div f64_arith (lit 16449340668482264 (-16))%Z x)).
  Proof.
    intros X. unfold debye1_pos. set (rest := ret (a_div _ _ x)). assert (P12 : 0 <= 4 / 10 ^ 16 * B2R x < 1) by (cbn [pow]; lra). set (t := 4 / 10 ^ 16 * B2R x) in *. destruct X as [X0 X1].
    assert (B3 : 30 - t <= B2R x -> uses (debye1_block f64_arith lit f64_toint 30 40 10 true debye1_cells_3 x rest) \/
       (40 - t <= B2R x /\ debye1_block f64_arith lit f64_toint 30 40 10 true debye1_cells_3 x rest = rest)).
    { intros Y. destruct (block_uses 30 10 10 true debye1_cells_3 rest) as [U|[E G]]; try lia; try reflexivity; [cbn; tauto|fold t; cbn; lra|lra|now left|right; split; [exact G|exact E]]. }
    set (next3 := debye1_block f64_arith lit f64_toint 30 40 10 true debye1_cells_3 x rest) in *. clearbody next3.
    assert (B2 : 20 - t <= B2R x -> uses (debye1_block f64_arith lit f64_toint 20 30 10 true debye1_cells_2 x next3) \/
       (40 - t <= B2R x /\ debye1_block f64_arith lit f64_toint 20 30 10 true debye1_cells_2 x next3 = rest)).
    { intros Y. destruct (Rlt_dec (B2R x) 30) as [Y2|Y2].
      - destruct (block_uses 20 10 10 true debye1_cells_2 next3) as [U|[E G]]; try lia; try reflexivity; [cbn; tauto|fold t; cbn; lra|lra|now left|].
        change (20 + 10)%Z with 30%Z in E. rewrite E. apply B3. exact G.
      - assert (E := block_skip 20 10 true debye1_cells_2 next3 ltac:(lia) ltac:(cbn; lra)). change (20 + 10)%Z with 30%Z in E. rewrite E. apply B3. lra. }
    clear B3. set (next2 := debye1_block f64_arith lit f64_toint 20 30 10 true debye1_cells_2 x next3) in *. clearbody next2.
    assert (B1 : 10 - t <= B2R x -> uses (debye1_block f64_arith lit f64_toint 10 20 50 true debye1_cells_1 x next2) \/
       (40 - t <= B2R x /\ debye1_block f64_arith lit f64_toint 10 20 50 true debye1_cells_1 x next2 = rest)).
    { intros Y. destruct (Rlt_dec (B2R x) 20) as [Y2|Y2].
      - destruct (block_uses 10 50 2 true debye1_cells_1 next2) as [U|[E G]]; try lia; try reflexivity; [cbn; tauto|fold t; cbn; lra|lra|now left|].
        change (10 + 10)%Z with 20%Z in E. rewrite E. apply B2. exact G.
      - assert (E := block_skip 10 50 true debye1_cells_1 next2 ltac:(lia) ltac:(cbn; lra)). change (10 + 10)%Z with 20%Z in E. rewrite E. apply B2. lra. }
    clear B2. set (next1 := debye1_block f64_arith lit f64_toint 10 20 50 true debye1_cells_1 x next2) in *. clearbody next1.
    destruct (Rlt_dec (B2R x) 10) as [Y2|Y2].
    - destruct (block_uses 0 50 2 false debye1_cells_0 next1) as [U|[E G]]; try lia; try reflexivity; [cbn; tauto|fold t; cbn; lra|lra|now left|].
      change (0 + 10)%Z with 10%Z in E. rewrite E. apply B1. exact G.
    - assert (E := block_skip 0 50 false debye1_cells_0 next1 ltac:(lia) ltac:(cbn; lra)). change (0 + 10)%Z with 10%Z in E. rewrite E. apply B1. lra.
  Qed.
End Cells.
Lemma debye1_pos_big lit x : is_finite x = true -> 40 <= B2R x -> debye1_pos f64_arith lit f64_toint x = ret (a_div f64_arith (lit 16449340668482264 (-16))%Z x).
Proof.
  intros F X. unfold debye1_pos.
  assert (E := block_skip lit x F 0 50 false debye1_cells_0). change (0 + 10)%Z with 10%Z in E. rewrite E by (try lia; cbn; lra). clear E.
  assert (E := block_skip lit x F 10 50 true debye1_cells_1). change (10 + 10)%Z with 20%Z in E. rewrite E by (try lia; cbn; lra). clear E.
  assert (E := block_skip lit x F 20 10 true debye1_cells_2). change (20 + 10)%Z with 30%Z in E. rewrite E by (try lia; cbn; lra). clear E.
  assert (E := block_skip lit x F 30 10 true debye1_cells_3). change (30 + 10)%Z with 40%Z in E. rewrite E by (try lia; cbn; lra). reflexivity.
Qed.
Lemma debye1_pos_defined lit x : is_finite x = true -> 0 <= B2R x -> debye1_pos f64_arith lit f64_toint x <> ub.
Proof.
  intros F X. destruct (Rlt_dec (B2R x) 40) as [Y|Y]; [|rewrite debye1_pos_big by (try assumption; lra); discriminate].
  destruct (debye1_pos_uses lit x F (conj X Y)) as [(a & w & sc & cells & k & c & _ & _ & _ & E)|[_ E]]; rewrite E; discriminate.
Qed.
Lemma debye1_unfold lit x : debye1 f64_arith lit f64_toint x =
  if ltb (a_cmp f64_arith) x (a_ofZ f64_arith 0) then
    y <- debye1_pos f64_arith lit f64_toint (a_opp f64_arith x) ;; ret (a_sub f64_arith y (a_div f64_arith x (a_ofZ f64_arith 2)))
  else debye1_pos f64_arith lit f64_toint x.
Proof. reflexivity. Qed.
Lemma debye1_defined_ieee lit x : debye1 f64_arith lit f64_toint x <> ub.
Proof.
  rewrite debye1_unfold. destruct x as [s|[]| |s m e B].
  - replace (ltb (a_cmp f64_arith) (B754_zero s) (a_ofZ f64_arith 0)) with false by reflexivity. now apply debye1_pos_defined; [|cbn; lra].
  - discriminate.
  - discriminate.
  - discriminate.
  - set (x := B754_finite s m e B : f64). assert (F : is_finite x = true) by reflexivity. clearbody x.
    destruct (ltb _ _ _) eqn:L.
    + apply (rep_ltb 1024 6 x (a_ofZ f64_arith 0) _ _ (fin_rep x F) (rep_ofZ 0 6 ltac:(lia) ltac:(lia))) in L.
      assert (D : debye1_pos f64_arith lit f64_toint (a_opp f64_arith x) <> ub).
      { apply debye1_pos_defined; [exact (eq_trans (is_finite_Bopp _ _ x) F)|]. replace (B2R (a_opp f64_arith x)) with (- B2R x) by (symmetry; exact (B2R_Bopp _ _ x)). lra. }
      destruct (debye1_pos f64_arith lit f64_toint (a_opp f64_arith x)) as [y|]; [discriminate|exfalso; apply D; reflexivity].
    + apply debye1_pos_defined; [exact F|]. apply Rnot_lt_le. intros C.
      apply (rep_ltb 1024 6 x (a_ofZ f64_arith 0) _ _ (fin_rep x F) (rep_ofZ 0 6 ltac:(lia) ltac:(lia))) in C. congruence.
Qed.
Lemma debye1_inf_ieee lit : is_finite (lit 16449340668482264 (-16))%Z = true -> Bsign (lit 16449340668482264 (-16))%Z = false ->
  debye1 f64_arith lit f64_toint (B754_infinity false) = ret (B754_zero false) /\
  debye1 f64_arith lit f64_toint (B754_infinity true) = ret (B754_infinity false).
Proof.
  intros F S. rewrite !debye1_unfold.
  assert (E : debye1_pos f64_arith lit f64_toint (B754_infinity false) = ret (B754_zero false)).
  { change (debye1_pos f64_arith lit f64_toint (B754_infinity false)) with (@ret f64 (a_div f64_arith (lit 16449340668482264 (-16))%Z (B754_infinity false))).
    destruct (lit 16449340668482264 (-16))%Z as [s|s| |s m e B]; try discriminate F; cbn in S; subst s; reflexivity. }
  split; [exact E|]. change (a_opp f64_arith (B754_infinity true)) with (B754_infinity false : f64). rewrite E. reflexivity.
Qed.
Lemma debye1_nan_ieee lit : debye1 f64_arith lit f64_toint B754_nan = ret B754_nan.
Proof. rewrite debye1_unfold. change (debye1_pos f64_arith lit f64_toint B754_nan) with (@ret f64 (a_div f64_arith (lit 16449340668482264 (-16))%Z B754_nan)).
  destruct (lit 16449340668482264 (-16))%Z; reflexivity. Qed.
Lemma debye1_zero_ieee lit s : debye1 f64_arith lit f64_toint (B754_zero s) = ret (a_add f64_arith (lit 1 0)%Z (a_mul f64_arith (B754_zero s) (poly f64_arith lit (B754_zero s) (tl (hd [] debye1_cells_0))))).
Proof. destruct s; reflexivity. Qed.

(** ** loggamma1p *)
Lemma lit_rep m e k : (-1074 <= k <= 1000)%Z -> Rabs (IZR m * powerRZ 10 e) <= pow2 k -> rep k (f64_lit m e) (rn (IZR m * powerRZ 10 e)).
Proof. apply rep_of_R. Qed.
Lemma p10 n : powerRZ 10 (- Z.of_nat n) = / 10 ^ n.
Proof. destruct n as [|n]; [cbn; field|]. cbn [Z.of_nat Z.opp powerRZ]. now rewrite SuccNat2Pos.id_succ. Qed.
Lemma quarter : rep 0 (f64_lit (-25) (-2)) (- (1 / 4)).
Proof.
  assert (E : IZR (-25) * powerRZ 10 (-2) = - (1 / 4)) by (change (-2)%Z with (- Z.of_nat 2)%Z; rewrite p10; cbn [pow]; field).
  assert (Q : rn (- (1 / 4)) = - (1 / 4)). { apply rn_id, (multiple_format (-2)); [lia|exists (-1)%Z; cbn; lra|cbn; rewrite Rabs_left; lra]. }
  pose proof (lit_rep (-25) (-2) 0 ltac:(lia)) as R. rewrite E, Q in R. apply R. cbn. rewrite Rabs_left; lra.
Qed.
(** the double nearest to 0.9 is above it *)
Lemma nine_tenths : rep 0 (f64_lit 9 (-1)) (rn (9 / 10)) /\ 9 / 10 < rn (9 / 10) <= 1.
Proof.
  assert (E : IZR 9 * powerRZ 10 (-1) = 9 / 10) by (change (-1)%Z with (- Z.of_nat 1)%Z; rewrite p10; cbn [pow]; field).
  split; [rewrite <- E; apply lit_rep; [lia|rewrite E, Rabs_pos_eq by lra; cbn; lra]|].
  split; [|rewrite <- (rn_IZR 1) by lia; apply rn_mono; lra].
  pose proof pow53 as (P1 & P2 & P3 & P4). assert (B := rn_err_le (9 / 10) 1 ltac:(rewrite Rabs_pos_eq; lra)). apply Rabs_le_inv in B. cbn [pow] in *.
  assert (FR : format (rn (9 / 10))) by (apply generic_format_round; typeclasses eauto).
  destruct (format_multiple 53 (-1074) (rn (9 / 10)) 0 ltac:(reflexivity) FR) as [n En]; [change (pow2 (0 - 1)) with (/ 2); rewrite Rabs_pos_eq by lra; lra|lia|].
  change (pow2 (0 - 53)) with (/ 9007199254740992) in En.
  assert (FG : format (8106479329266893 / 9007199254740992)).
  { apply (multiple_format (-53)); [lia|exists 8106479329266893%Z; change (pow2 (-53)) with (/ 9007199254740992); reflexivity|change (pow2 (-53 + 53)) with 1; rewrite Rabs_pos_eq by lra; lra]. }
  assert (N := round_N_pt radix2 (FLT_exp (-1074) 53) (fun t => negb (Z.even t)) (9 / 10)). destruct N as [_ N]. specialize (N _ FG).
  change (round radix2 (FLT_exp (-1074) 53) (Znearest (fun t => negb (Z.even t))) (9 / 10)) with (rn (9 / 10)) in N. rewrite En in *.
  apply Rnot_le_lt. intros C. assert (I : (n <= 8106479329266892)%Z). { apply Z.lt_succ_r. apply lt_IZR. cbn [Z.succ Z.add Pos.add Pos.succ]. lra. }
  apply IZR_le in I. rewrite (Rabs_pos_eq (8106479329266893 / _ - _)) in N by lra. rewrite Rabs_left1 in N by lra. lra.
Qed.
Lemma tiny : exists r, rep 0 (f64_lit 1 (-20)) r /\ 0 <= r <= pow2 (-53).
Proof.
  assert (E : 0 <= IZR 1 * powerRZ 10 (-20) <= pow2 (-53)) by (change (-20)%Z with (- Z.of_nat 20)%Z; rewrite p10; cbn; lra).
  exists (rn (IZR 1 * powerRZ 10 (-20))). split.
  - apply lit_rep; [lia|]. rewrite Rabs_pos_eq by apply E. eapply Rle_trans; [apply E|]. apply bpow_le. lia.
  - split; [rewrite <- rn_0; apply rn_mono, E|]. rewrite <- (rn_id (pow2 (-53))); [apply rn_mono, E|]. apply generic_format_bpow. unfold FLT_exp. lia.
Qed.
Lemma Babs_pos (y : f64) : 0 < B2R y \/ y = B754_infinity false -> a_abs f64_arith y = y.
Proof.
  intros [H| ->]; [|reflexivity]. destruct y as [s|s| |s m e B]; cbn in H; try lra. destruct s; [|reflexivity]. exfalso.
  assert (F2R (Float radix2 (Zneg m) e) < 0) by (apply F2R_lt_0; reflexivity). cbn in H. unfold F2R in *. cbn in *. lra.
Qed.
(** 1 + x for x > -1 is positive, at least 2^-53, and exact for x <= -1/4 *)
Lemma one_plus (x : f64) : is_finite x = true -> -1 < B2R x ->
  let y := a_add f64_arith (a_ofZ f64_arith 1) x in
  (y = B754_infinity false /\ 1 < B2R x) \/ (is_finite y = true /\ B2R y = rn (1 + B2R x) /\ pow2 (-53) <= B2R y).
Proof.
  intros F X y. assert (P : pow2 (-53) <= rn (1 + B2R x)).
  { rewrite <- (rn_id (pow2 (-53))) by (apply generic_format_bpow; unfold FLT_exp; lia). apply rn_mono.
    destruct (Rle_dec (B2R x) (-1/2)) as [H|H]; [|assert (pow2 (-53) <= 1 / 2) by (cbn; lra); lra].
    (* x is a multiple of 2^-53 *)
    assert (FX : format (B2R x)) by apply (generic_format_B2R f64_prec f64_emax).
    assert (M : multiple (-53) (B2R x)).
    { apply (format_multiple 53 (-1074) (B2R x) 0 ltac:(reflexivity) FX); [cbn; rewrite Rabs_left by lra; lra|lia]. }
    destruct M as [n E]. rewrite E in X |- *. replace 1 with (IZR (2 ^ 53) * pow2 (-53)) by (cbn; lra). rewrite <- Rmult_plus_distr_r, <- plus_IZR.
    assert (0 < 2 ^ 53 + n)%Z. { apply lt_IZR. rewrite plus_IZR. apply (Rmult_lt_reg_r (pow2 (-53))); [apply bpow_gt_0|]. rewrite Rmult_0_l, Rmult_plus_distr_r. replace (IZR (2 ^ 53) * pow2 (-53)) with 1 by (cbn; lra). lra. }
    assert (1 <= IZR (2 ^ 53 + n)) by (apply IZR_le; lia). pose proof (bpow_gt_0 radix2 (-53)). nra. }
  assert (R1 := rep_ofZ 1 0 ltac:(lia) ltac:(lia)). destruct R1 as (F1 & E1 & _).
  assert (E := f2e_plus _ _ f64_Hp f64_He (a_ofZ f64_arith 1) x F1 F). change (f2e f64_prec f64_emax y = frnd f64_prec f64_emax (B2R (a_ofZ f64_arith 1) + B2R x)) in E.
  rewrite E1 in E. pose proof (bpow_gt_0 radix2 (-53)) as PG.
  destruct (frnd_cases f64_prec f64_emax f64_Hp (1 + B2R x)) as [(E2 & _)|[(E2 & _ & B)|(E2 & B & _)]]; rewrite E2 in E; [| |lra].
  - right. apply f2e_fin_finite in E. destruct E as [E3 E4]. rewrite rnd_rn in E4. rewrite E4. auto.
  - left. split; [destruct y as [s|[]| |s m e Bd]; try discriminate; reflexivity|]. rewrite rnd_rn in B. apply Rnot_le_lt. intros X1.
    assert (rn (1 + B2R x) <= 2). { rewrite <- (rn_IZR 2) by lia. apply rn_mono. lra. }
    assert (bpow radix2 2 <= bpow radix2 f64_emax) by (apply bpow_le; unfold f64_emax; lia). cbn in *. lra.
Qed.
Lemma isnan_d x : isnanb (a_cmp f64_arith) x = is_nan x.
Proof. destruct x as [[]|[]| |[] m e B]; try reflexivity; unfold isnanb, eqb; cbn -[Bcompare]; (rewrite Bcompare_correct by reflexivity); rewrite Rcompare_Eq; reflexivity. Qed.
Lemma loggamma1p_domain_ieee log x :
  (is_nan x = true \/ x = B754_infinity true \/ (is_finite x = true /\ B2R x <= -1) -> loggamma1p f64_arith f64_lit log x = B754_nan) /\
  (x = B754_infinity false -> loggamma1p f64_arith f64_lit log x = B754_infinity false) /\
  (is_finite x = true -> B2R x = 0 \/ B2R x = 1 -> loggamma1p f64_arith f64_lit log x = f64_ofZ 0).
Proof.
  split; [|split].
  - intros [N|[->|[F L]]]; unfold loggamma1p; rewrite isnan_d; [now rewrite N|reflexivity|].
    rewrite leb_d, (d_fin x F), d_ofZ by lia. rewrite (proj2 (leb_Fin (B2R x) (-1)) L), orb_true_r. reflexivity.
  - intros ->. reflexivity.
  - intros F V. unfold loggamma1p. rewrite isnan_d, leb_d, !eqb_d, (d_fin x F), !d_ofZ by lia. rewrite (proj2 (leb_Fin_false (B2R x) (-1))) by lra.
    replace (is_nan x) with false by (destruct x; try discriminate F; reflexivity). replace (a_isinf f64_arith x) with false by (destruct x; try discriminate F; reflexivity).
    cbn [orb]. destruct V as [V|V]; [rewrite (proj2 (eqb_Fin (B2R x) 0) V)|rewrite (proj2 (eqb_Fin (B2R x) 1) V), orb_true_r]; reflexivity.
Qed.
Lemma eqb_Fin_neq a b : a <> b -> eqb ecmp (Fin a) (Fin b) = false.
Proof. intros H. destruct (eqb ecmp (Fin a) (Fin b)) eqn:E; [|reflexivity]. apply eqb_Fin in E. contradiction. Qed.
Lemma loggamma1p_branch_ieee log x : is_finite x = true -> -1 < B2R x -> B2R x <> 0 -> B2R x <> 1 ->
  (- (1 / 4) < B2R x <= 9 / 10 /\ loggamma1p f64_arith f64_lit log x = loggamma1p_small_x f64_arith f64_lit x) \/
  ((B2R x <= - (1 / 4) \/ 9 / 10 < B2R x) /\
   let y := a_add f64_arith (f64_ofZ 1) x in
   loggamma1p f64_arith f64_lit log x = lgamma_main f64_arith f64_lit log y /\
   (B2R x <= - (1 / 2) -> is_finite y = true /\ B2R y = 1 + B2R x)).
Proof.
  intros F L N0 N1. unfold loggamma1p. rewrite isnan_d, leb_d, !eqb_d, (d_fin x F), !d_ofZ by lia. rewrite (proj2 (leb_Fin_false (B2R x) (-1))) by lra.
  replace (is_nan x) with false by (destruct x; try discriminate F; reflexivity). replace (a_isinf f64_arith x) with false by (destruct x; try discriminate F; reflexivity).
  rewrite !eqb_Fin_neq by assumption. cbn [orb].
  destruct nine_tenths as (R9 & B9). set (r := rn (9 / 10)) in *. pose proof (rep_gtb 1024 0 x _ _ _ (fin_rep x F) quarter) as G. pose proof (rep_ltb 1024 0 x _ _ _ (fin_rep x F) R9) as LT.
  destruct (gtb (a_cmp f64_arith) x (f64_lit (-25) (-2)) && ltb (a_cmp f64_arith) x (f64_lit 9 (-1)))%bool eqn:E.
  - left. apply andb_prop in E. destruct E as [E1 E2]. apply G in E1. apply LT in E2. split; [|reflexivity]. split; [exact E1|]. apply Rnot_lt_le. intros C.
    assert (FX : format (B2R x)) by apply (generic_format_B2R f64_prec f64_emax). rewrite <- (rn_id _ FX) in E2. assert (r <= rn (B2R x)) by (apply rn_mono; lra). lra.
  - right. assert (D : B2R x <= - (1 / 4) \/ 9 / 10 < B2R x).
    { apply andb_false_iff in E. destruct E as [E|E]; [left|right].
      - apply Rnot_lt_le. intros C. apply G in C. congruence.
      - apply Rlt_le_trans with r; [lra|]. apply Rnot_lt_le. intros C. apply LT in C. congruence. }
    split; [exact D|]. cbv zeta. change (f64_ofZ 1) with (a_ofZ f64_arith 1).
    assert (EX : B2R x <= - (1 / 2) -> rn (1 + B2R x) = 1 + B2R x).
    { intros X. apply rn_id. assert (FX : format (B2R x)) by apply (generic_format_B2R f64_prec f64_emax).
      assert (M2 : multiple (-53) (B2R x)) by (apply (format_multiple 53 (-1074) (B2R x) 0 ltac:(reflexivity) FX); [cbn; rewrite Rabs_left by lra; lra|lia]).
      apply (multiple_format (-53)); [lia|apply multiple_plus; [exists (2 ^ 53)%Z; cbn; lra|exact M2]|cbn; rewrite Rabs_pos_eq; lra]. }
    destruct (one_plus x F L) as [[Y X1]|(FY & EY & PY)].
    + split; [|intros X; lra]. rewrite Y. unfold m_lgamma. destruct tiny as (t & (FT & _) & _).
      assert (LF : ltb (a_cmp f64_arith) (a_abs f64_arith (B754_infinity false)) (f64_lit 1 (-20)) = false) by (rewrite ltb_d, (d_fin _ FT); reflexivity).
      rewrite LF. reflexivity.
    + split; [|intros X; split; [exact FY|rewrite EY; auto]]. set (y := a_add f64_arith (a_ofZ f64_arith 1) x) in *. 
      assert (PP := bpow_gt_0 radix2 (-53)).
      assert (Y1 : B2R y <> 1). { rewrite EY. destruct D as [D|D]; [assert (rn (1 + B2R x) <= rn (1 - 1 / 4)) by (apply rn_mono; lra); replace (rn (1 - 1 / 4)) with (1 - 1 / 4) in H; [lra|]; symmetry; apply rn_id, (multiple_format (-2)); [lia|exists 3%Z; cbn; lra|cbn; rewrite Rabs_pos_eq; lra]|]. assert (rn (1 + 1 / 2) <= rn (1 + B2R x)) by (apply rn_mono; lra). replace (rn (1 + 1 / 2)) with (1 + 1 / 2) in H; [lra|]. symmetry. apply rn_id, (multiple_format (-1)); [lia|exists 3%Z; cbn; lra|cbn; rewrite Rabs_pos_eq; lra]. }
      unfold m_lgamma. rewrite !eqb_d, (d_fin y FY), !d_ofZ by lia. rewrite !eqb_Fin_neq by lra. cbn [orb].
      rewrite (Babs_pos y) by (left; lra). destruct tiny as (t & RT & BT).
      assert (LF : ltb (a_cmp f64_arith) y (f64_lit 1 (-20)) = false).
      { destruct (ltb (a_cmp f64_arith) y (f64_lit 1 (-20))) eqn:C; [|reflexivity]. apply (rep_ltb 1024 0 y _ _ _ (fin_rep y FY) RT) in C. lra. }
      rewrite LF. reflexivity.
Qed.

(** ** the loops: one call per element *)
Lemma special_loop {T U} (f : T -> M U) (d : U) (m : mem T) p step pout ostep (out : mem U) l :
  view m p step l -> writable out pout ostep (length l) -> (forall x, In x l -> f x <> ub) ->
  writes (unary_loop f m p (Z.of_nat (length l)) step pout ostep out) out pout ostep (map (fun x => match f x with Some y => y | None => d end) l).
Proof.
  intros V W D. apply unary_loop_writes; [exact V|exact W|]. apply Forall_forall. intros x I. specialize (D x I). destruct (f x); [reflexivity|]. exfalso. apply D. reflexivity.
Qed.
Lemma logfactorial_loop m p step pout ostep (out : mem ER) l :
  view m p step l -> writable out pout ostep (length l) ->
  exists r, writes (unary_loop (logfactorial_elem earith elit elog) m p (Z.of_nat (length l)) step pout ostep out) out pout ostep r /\
    Forall2 (fun k y => if (k <? 0)%Z then y = ENaN else exists v, y = Fin v /\ Rabs (v - ln_fact (Z.to_nat k)) <= 140 / 10 ^ 18 * ln_fact (Z.to_nat k)) l r.
Proof.
  intros V W. eexists. split; [apply (special_loop _ ENaN); [exact V|exact W|]; intros; apply logfactorial_elem_defined|].
  clear V W. induction l as [|k l IH]; constructor; [|exact IH]. destruct (Z.ltb_spec k 0).
  - now rewrite logfactorial_elem_neg.
  - destruct (logfactorial_elem_acc k H) as (v & -> & B). now exists v.
Qed.
Lemma debye1_loop m p step pout ostep (out : mem ER) l :
  view m p step (map Fin l) -> writable out pout ostep (length l) ->
  exists r, writes (unary_loop (debye1 earith elit etoint) m p (Z.of_nat (length l)) step pout ostep out) out pout ostep (map Fin r) /\
    Forall2 (fun x y => forall v, is_D1 x v -> Rabs (y - v) <= 32 / 10 ^ 16 * v) l r.
Proof.
  intros V W. assert (EX : exists r, Forall2 (fun x y => debye1 earith elit etoint (Fin x) = ret (Fin y) /\ forall v, is_D1 x v -> Rabs (y - v) <= 32 / 10 ^ 16 * v) l r).
  { clear. induction l as [|x l (r & IH)]; [now exists []|]. destruct (D1_exists x) as (v & D). destruct (debye1_acc x v D) as (y & E & B). exists (y :: r). constructor; [|exact IH].
    split; [exact E|]. intros w D2. now rewrite <- (D1_unique x v w D D2). }
  destruct EX as (r & FA). exists r. split; [|clear - FA; induction FA as [|a b l r [_ H] _ IH]; constructor; [exact H|exact IH]].
  replace (map Fin r) with (map (fun x => match debye1 earith elit etoint x with Some y => y | None => ENaN end) (map Fin l)).
  - rewrite <- (map_length Fin l). apply special_loop; [exact V|now rewrite map_length|]. intros x I. apply in_map_iff in I. destruct I as (t & <- & I).
    destruct (D1_exists t) as (v & D). destruct (debye1_acc t v D) as (y & -> & _). discriminate.
  - clear V W. induction FA as [|x y l r (E & _) _ IH]; [reflexivity|]. cbn [map]. now rewrite E, IH.
Qed.

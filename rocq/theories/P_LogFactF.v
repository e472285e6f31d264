(** * P_LogFactF: logfactorial in IEEE double: rounding errors (C51) *)
From Coq Require Import ZArith Reals List Bool Lia Lra.
From Flocq Require Import Core BinarySingleNaN Relative.
From Verif Require Import CSem CSemP Num NumP NumF M_Log1p S_Log1p P_Log1p P_Log1pF M_Special S_Special P_LogFact P_Expint P_SpecialF P_ExpintF.
Import ListNotations.
Open Scope R_scope.

Lemma relmul a A e b B f : 0 <= A -> 0 <= B -> 0 <= e -> 0 <= f -> Rabs (a - A) <= e * A -> Rabs (b - B) <= f * B -> Rabs (a * b - A * B) <= (e + f + e * f) * (A * B).
Proof.
  intros HA HB He Hf Ha Hb. replace (a * b - A * B) with ((a - A) * (b - B) + (a - A) * B + A * (b - B)) by ring.
  eapply Rle_trans; [apply Rabs_triang|]. eapply Rle_trans; [apply Rplus_le_compat_r, Rabs_triang|]. rewrite !Rabs_mult, (Rabs_pos_eq A), (Rabs_pos_eq B) by lra.
  assert (Rabs (a - A) * Rabs (b - B) <= (e * A) * (f * B)) by (apply Rmult_le_compat; auto using Rabs_pos).
  assert (Rabs (a - A) * B <= (e * A) * B) by (apply Rmult_le_compat_r; lra). assert (A * Rabs (b - B) <= A * (f * B)) by (apply Rmult_le_compat_l; lra). lra.
Qed.
Lemma relinv a A e : 0 < A -> 0 <= e <= 1 / 1000 -> Rabs (a - A) <= e * A -> 0 < a /\ Rabs (1 / a - 1 / A) <= 1002 / 1000 * e * (1 / A).
Proof.
  intros HA He H. apply Rabs_le_inv in H. assert (EA : 0 <= e * A <= 1 / 1000 * A) by (split; [apply Rmult_le_pos; lra|apply Rmult_le_compat_r; lra]).
  assert (P : 0 < a) by lra. split; [exact P|]. replace (1 / a - 1 / A) with (- ((a - A) * (/ a * / A))) by (field; lra). rewrite Rabs_Ropp, Rabs_mult, (Rabs_pos_eq (/ a * / A)) by (left; apply Rmult_lt_0_compat; apply Rinv_0_lt_compat; lra).
  apply Rle_trans with ((e * A) * (/ a * / A)); [apply Rmult_le_compat_r; [left; apply Rmult_lt_0_compat; apply Rinv_0_lt_compat; lra|apply Rabs_le; lra]|].
  replace (e * A * (/ a * / A)) with (e * / a) by (field; lra). unfold Rdiv. rewrite Rmult_1_l.
  assert (I : / a <= 1002 / 1000 * / A). { replace (1002 / 1000 * / A) with (/ (1000 / 1002 * A)) by (field; lra). apply Rinv_le_contravar; lra. }
  replace (1002 * / 1000 * e * / A) with (e * (1002 / 1000 * / A)) by (unfold Rdiv; ring). apply Rmult_le_compat_l; lra.
Qed.
(** rounding a number of magnitude at least 2^-150, relatively *)
Lemma rrel x : pow2 (-150) <= Rabs x -> Rabs (rn x - x) <= (1 + 1 / 10 ^ 6) * u * Rabs x.
Proof.
  intros H. pose proof (rerr x) as R. assert (E : eta <= 1 / 10 ^ 6 * u * pow2 (-150)).
  { unfold eta. apply Rle_trans with (pow2 (-300)); [apply bpow_le; lia|]. rewrite <- u_pow. apply Rle_trans with (pow2 (-30) * pow2 (-53) * pow2 (-150)).
    - rewrite <- !bpow_plus. apply bpow_le. lia.
    - apply Rmult_le_compat_r; [apply bpow_ge_0|]. apply Rmult_le_compat_r; [apply bpow_ge_0|]. change (pow2 (-30)) with (/ 1073741824). cbn [pow]. lra. }
  assert (1 / 10 ^ 6 * u * pow2 (-150) <= 1 / 10 ^ 6 * u * Rabs x) by (apply Rmult_le_compat_l; [unfold u; cbn [pow]; lra|exact H]). lra.
Qed.
(** chain a relative error with a rounding *)
Lemma rnrel a A e : pow2 (-149) <= A -> 0 <= e <= 1 / 1000 -> Rabs (a - A) <= e * A -> Rabs (rn a - A) <= (e + (1 + 1 / 10 ^ 6) * (1 + e) * u) * A.
Proof.
  intros HA He H. assert (P : 0 < pow2 (-149)) by apply bpow_gt_0. assert (EA : 0 <= e * A <= 1 / 1000 * A) by (split; [apply Rmult_le_pos; lra|apply Rmult_le_compat_r; lra]).
  assert (H' := H). apply Rabs_le_inv in H'. assert (D : pow2 (-149) = 2 * pow2 (-150)) by exact (pow2_double (-150)).
  pose proof (rrel a ltac:(rewrite Rabs_pos_eq; lra)) as R. rewrite (Rabs_pos_eq a) in R by lra.
  replace (rn a - A) with ((rn a - a) + (a - A)) by ring. eapply Rle_trans; [apply Rabs_triang|].
  assert ((1 + 1 / 10 ^ 6) * u * a <= (1 + 1 / 10 ^ 6) * u * ((1 + e) * A)) by (apply Rmult_le_compat_l; [unfold u; cbn [pow]; lra|lra]). lra.
Qed.
Lemma ln126 : 483 / 100 <= ln 126.
Proof.
  pose proof (lnrun_bounds 125) as B. pose proof lnrun_125 as E. rewrite E in B. destruct B as [A _]. clear E.
  assert (N : INR 125 = 125) by (rewrite INR_IZR_INZ; reflexivity). rewrite N in A. replace (125 + 1) with 126 in A by lra.
  assert (DV : IZR D = 1000000000000000000000000000000000000) by (f_equal; reflexivity). rewrite DV in A. set (l := ln 126) in *. clearbody l. lra.
Qed.
Lemma ofZ_big k : (0 <= k < 2 ^ 63)%Z -> rep 63 (a_ofZ f64_arith k) (rn (IZR k)).
Proof.
  intros H. apply rep_of_frnd; [lia|exact (f2e_ofZ _ _ f64_Hp f64_He k)|]. rewrite Rabs_pos_eq by (apply IZR_le; lia). change (pow2 63) with (IZR (2 ^ 63)). apply IZR_le. lia.
Qed.

(** the table *)
Lemma logfact_table_ieee k L : (0 <= k < 126)%Z -> exists r, logfactorial f64_arith f64_lit L k = ret r /\ is_finite r = true /\ Rabs (B2R r - ln_fact (Z.to_nat k)) <= 26 / 10 ^ 17 * ln_fact (Z.to_nat k).
Proof.
  intros H. unfold logfactorial. change (Z.of_nat (length logfact)) with 126%Z. replace (k <? 126)%Z with true by (symmetry; apply Z.ltb_lt; lia). replace (k <? 0)%Z with false by (symmetry; apply Z.ltb_ge; lia).
  set (n := Z.to_nat k). assert (N : (n < 126)%nat) by (unfold n; lia). clearbody n. clear H k.
  destruct (nth_error logfact n) as [[m e]|] eqn:E; [|apply nth_error_None in E; change (length logfact) with 126%nat in E; lia]. cbn [bind ret].
  eexists. split; [reflexivity|]. unfold litp. cbn [fst snd]. pose proof (table_entry n (m, e) ltac:(lia) E) as T. cbn [fst snd] in T.
  set (q := IZR m * powerRZ 10 e) in *. assert (L0 : 0 <= ln_fact n). { replace 0 with (ln_fact 0) by (unfold ln_fact; cbn; apply ln_1). apply ln_fact_mono. lia. }
  assert (LM : ln_fact n <= 500). { apply Rle_trans with (ln_fact 126); [apply ln_fact_mono; lia|]. pose proof (lnrun_bounds 125) as B. pose proof lnrun_125 as E'. rewrite E' in B. destruct B as [_ A]. clear E'.
    assert (N' : INR 125 = 125) by (rewrite INR_IZR_INZ; reflexivity). rewrite N' in A. assert (DV : IZR D = 1000000000000000000000000000000000000) by (f_equal; reflexivity). rewrite DV in A. set (l := ln_fact 126) in *. clearbody l. lra. }
  assert (T' := T). apply Rabs_le_inv in T'. assert (QB : Rabs q <= pow2 10) by (change (pow2 10) with 1024; apply Rabs_le; cbn [pow] in T'; lra).
  destruct (lit_rep m e 10 ltac:(lia) QB) as (A & B & _). split; [exact A|]. rewrite B. fold q.
  destruct (Nat.le_gt_cases n 1) as [S|S].
  - assert (Z : ln_fact n = 0) by (destruct n as [|[|n]]; [unfold ln_fact; cbn; apply ln_1|unfold ln_fact; cbn; apply ln_1|lia]). rewrite Z in *. assert (Q0 : q = 0) by (cbn [pow] in T'; lra).
    rewrite Q0. replace (rn 0) with 0 by (symmetry; apply round_0; typeclasses eauto). rewrite Rminus_0_r, Rabs_R0. lra.
  - assert (L2 : 1 / 2 <= ln_fact n). { apply Rle_trans with (ln_fact 2); [|apply ln_fact_mono; lia]. unfold ln_fact. cbn [fact Nat.mul Nat.add]. replace (INR 2) with 2 by (cbn; ring).
      pose proof (ln_le_m1 (/ 2) ltac:(lra)) as G. rewrite ln_Rinv in G by lra. lra. }
    assert (P : pow2 (-149) <= ln_fact n). { apply Rle_trans with (pow2 (-1)); [apply bpow_le; lia|]. change (pow2 (-1)) with (/ 2). lra. }
    eapply Rle_trans; [apply (rnrel q (ln_fact n) (140 / 10 ^ 18) P); [cbn [pow]; lra|exact T]|]. apply Rmult_le_compat_r; [lra|]. unfold u. cbn [pow]. lra.
Qed.

(** Stirling's series *)
Section Stirling.
  Variables (fx : f64) (X K : R).
  Hypothesis RX : rep 63 fx X.
  Hypothesis HK : 126 <= K <= IZR (2 ^ 63).
  Hypothesis HX : Rabs (X - K) <= 1001 / 1000 * u * K.
  Let D := a_div f64_arith.
  Let Ml := a_mul f64_arith.
  Let C := a_ofZ f64_arith.
  Lemma UU : 0 < u <= / 10 ^ 15. Proof. unfold u; cbn [pow]; lra. Qed.
  Lemma EU : 0 < eta <= u / 10 ^ 6. Proof. pose proof eta_small as [A B]. split; [exact A|]. unfold u. cbn [pow] in *. lra. Qed.
  Lemma XB : 125 <= X /\ Rabs (X - K) <= 1001 / 1000 * u * K /\ 1001 / 1000 * u * K <= K / 10 ^ 10.
  Proof.
    assert (B : 1001 / 1000 * u * K <= K / 10 ^ 10). { replace (1001 / 1000 * u * K) with (1001 / 1000 * (u * K)) by ring. assert (u * K <= / 10 ^ 15 * K) by (apply Rmult_le_compat_r; [lra|apply UU]). cbn [pow] in *. lra. }
    assert (A := HX). apply Rabs_le_inv in A. split; [cbn [pow] in B; lra|]. split; [exact HX|exact B].
  Qed.
  Lemma small_part : exists h, rep 1 (Ml (D (C 1%Z) fx) (a_sub f64_arith (D (C 1%Z) (C 12%Z)) (D (C 1%Z) (Ml (Ml (C 360%Z) fx) fx)))) h /\ Rabs (h - hS K) <= u / 50.
  Proof.
    pose proof UU as UU. pose proof EU as EU. destruct XB as (X1 & X2 & X3). pose proof (rep_ofZ 1 0 ltac:(lia) ltac:(lia)) as R1. pose proof (rep_ofZ 12 4 ltac:(lia) ltac:(lia)) as R12. pose proof (rep_ofZ 360 9 ltac:(lia) ltac:(lia)) as R360.
    assert (P149 : pow2 (-149) <= / IZR (2 ^ 140)). { replace (/ IZR (2 ^ 140)) with (pow2 (-140)) by reflexivity. apply bpow_le. lia. }
    assert (BIG : 0 < / IZR (2 ^ 140) <= 1) by (split; [apply Rinv_0_lt_compat; apply IZR_lt; lia|rewrite <- Rinv_1; apply Rinv_le_contravar; [lra|apply IZR_le; vm_compute; discriminate]]).
    assert (KK : 126 * 126 <= K * K <= IZR (2 ^ 63) * IZR (2 ^ 63)) by (split; apply Rmult_le_compat; lra).
    (* 360 x x *)
    assert (UU2 : 0 <= u * u <= / 10 ^ 15 * u) by (split; [apply Rmult_le_pos; lra|apply Rmult_le_compat_r; lra]).
    pose proof (rep_mul _ _ _ _ _ _ R360 RX ltac:(lia)) as T1. set (t1 := rn (360 * X)) in *.
    assert (E1 : Rabs (t1 - 360 * K) <= 21 / 10 * u * (360 * K)).
    { eapply Rle_trans; [apply (rnrel (360 * X) (360 * K) (1001 / 1000 * u)); [lra|cbn [pow] in UU; lra|replace (360 * X - 360 * K) with (360 * (X - K)) by ring; rewrite Rabs_mult, (Rabs_pos_eq 360) by lra; lra]|].
      apply Rmult_le_compat_r; [lra|]. cbn [pow] in *. lra. }
    pose proof (rep_mul _ _ _ _ _ _ T1 RX ltac:(lia)) as T2. set (t2 := rn (t1 * X)) in *.
    assert (E2 : Rabs (t2 - 360 * K * K) <= 43 / 10 * u * (360 * K * K)).
    { assert (0 <= 360 * K * K) by lra. pose proof (relmul t1 (360 * K) (21 / 10 * u) X K (1001 / 1000 * u) ltac:(lra) ltac:(lra) ltac:(lra) ltac:(lra) E1 X2) as M.
      eapply Rle_trans; [apply (rnrel (t1 * X) (360 * K * K) (32 / 10 * u)); [lra|cbn [pow] in UU; lra|]|].
      - eapply Rle_trans; [exact M|]. apply Rmult_le_compat_r; [lra|]. cbn [pow] in *. lra.
      - apply Rmult_le_compat_r; [lra|]. cbn [pow] in *. lra. }
    destruct (relinv t2 (360 * K * K) (43 / 10 * u) ltac:(lra) ltac:(cbn [pow] in UU; lra) E2) as [T2P E3].
    set (q := 1 / (360 * K * K)) in *. assert (Q : / IZR (2 ^ 140) <= q <= 1 / 1000000).
    { unfold q, Rdiv. rewrite !Rmult_1_l. split.
      - apply Rinv_le_contravar; [lra|]. apply Rle_trans with (360 * (IZR (2 ^ 63) * IZR (2 ^ 63))); [lra|]. rewrite <- !mult_IZR. apply IZR_le. vm_compute. discriminate.
      - apply Rinv_le_contravar; lra. }
    assert (T2B : Rabs (1 / t2) <= pow2 0). { change (pow2 0) with 1. apply Rabs_le_inv in E3. apply Rabs_le. assert (0 <= u * q <= / 10 ^ 15 * q) by (split; [apply Rmult_le_pos; lra|apply Rmult_le_compat_r; lra]). cbn [pow] in *. lra. }
    pose proof (rep_div _ _ _ _ _ _ R1 T2 ltac:(lra) T2B ltac:(lia)) as T3. set (t3 := rn (1 / t2)) in *.
    assert (E4 : Rabs (t3 - q) <= 6 * u * q).
    { eapply Rle_trans; [apply (rnrel (1 / t2) q (44 / 10 * u)); [lra|cbn [pow] in UU; lra|]|].
      - eapply Rle_trans; [exact E3|]. apply Rmult_le_compat_r; lra.
      - apply Rmult_le_compat_r; [lra|]. cbn [pow] in *. lra. }
    (* 1/12 *)
    pose proof (rep_div _ _ _ _ _ _ R1 R12 ltac:(lra) ltac:(change (pow2 0) with 1; rewrite Rabs_pos_eq; lra) ltac:(lia)) as W. set (w := rn (1 / 12)) in *. pose proof (rerr (1 / 12)) as EW. fold w in EW. rewrite (Rabs_pos_eq (1 / 12)) in EW by lra.
    assert (UQ : 0 <= u * q <= u / 10 ^ 6) by (split; [apply Rmult_le_pos; lra|apply Rle_trans with (u * (1 / 1000000)); [apply Rmult_le_compat_l; lra|cbn [pow]; lra]]).
    pose proof (rep_sub _ _ _ _ _ _ W T3 ltac:(lia)) as S. cbn [Z.max Z.add Z.compare] in S. pose proof (rerr (w - t3)) as ES. set (s := rn (w - t3)) in *.
    assert (EW' := EW). apply Rabs_le_inv in EW'. assert (E4' := E4). apply Rabs_le_inv in E4'.
    assert (ES2 : Rabs (s - (1 / 12 - q)) <= u / 5).
    { replace (s - (1 / 12 - q)) with ((s - (w - t3)) + ((w - 1 / 12) + - (t3 - q))) by ring. eapply Rle_trans; [apply Rabs_triang|].
      assert (Rabs (w - t3) <= 9 / 100) by (apply Rabs_le; cbn [pow] in *; lra). assert (u * Rabs (w - t3) <= u * (9 / 100)) by (apply Rmult_le_compat_l; lra).
      assert (Rabs (w - 1 / 12 + - (t3 - q)) <= (u * (1 / 12) + eta) + 6 * u * q) by (eapply Rle_trans; [apply Rabs_triang|]; rewrite Rabs_Ropp; lra). cbn [pow] in *. lra. }
    (* 1/x *)
    destruct (relinv X K (1001 / 1000 * u) ltac:(lra) ltac:(cbn [pow] in UU; lra) X2) as [XP E5]. set (y0 := 1 / K) in *.
    assert (Y0 : / IZR (2 ^ 140) <= y0 <= 1 / 126). { unfold y0, Rdiv. rewrite !Rmult_1_l. split; apply Rinv_le_contravar; lra. }
    assert (UY : 0 <= u * y0 <= u / 126) by (split; [apply Rmult_le_pos; lra|apply Rle_trans with (u * (1 / 126)); [apply Rmult_le_compat_l; lra|lra]]).
    assert (XB1 : Rabs (1 / X) <= pow2 0). { change (pow2 0) with 1. apply Rabs_le_inv in E5. apply Rabs_le. cbn [pow] in *. lra. }
    pose proof (rep_div _ _ _ _ _ _ R1 RX ltac:(lra) XB1 ltac:(lia)) as Y. set (y := rn (1 / X)) in *.
    assert (E6 : Rabs (y - y0) <= 21 / 10 * u * y0).
    { eapply Rle_trans; [apply (rnrel (1 / X) y0 (1004 / 1000 * u)); [lra|cbn [pow] in UU; lra|]|].
      - eapply Rle_trans; [exact E5|]. apply Rmult_le_compat_r; lra.
      - apply Rmult_le_compat_r; [lra|]. cbn [pow] in *. lra. }
    pose proof (rep_mul _ _ _ _ _ _ Y S ltac:(lia)) as H. cbn [Z.add] in H. pose proof (rerr (y * s)) as EH. set (h := rn (y * s)) in *.
    exists h. split; [exact H|]. assert (E6' := E6). apply Rabs_le_inv in E6'. assert (ES2' := ES2). apply Rabs_le_inv in ES2'.
    change (hS K) with (y0 * (1 / 12 - q)).
    assert (UY2 : u * y0 <= / 10 ^ 15 * y0) by (apply Rmult_le_compat_r; lra).
    assert (YB : 0 <= y <= 1 / 100) by (cbn [pow] in *; lra). assert (SB : 0 <= s <= 9 / 100) by (cbn [pow] in *; lra).
    assert (YS : Rabs (y * s) <= 1 / 1000) by (rewrite Rabs_mult, (Rabs_pos_eq y), (Rabs_pos_eq s) by lra; apply Rle_trans with (1 / 100 * (9 / 100)); [apply Rmult_le_compat; lra|lra]).
    assert (F1 : u * Rabs (y * s) <= u * (1 / 1000)) by (apply Rmult_le_compat_l; lra).
    assert (F2 : Rabs (y * s - y0 * (1 / 12 - q)) <= 1 / 100 * (u / 5) + (21 / 10 * u * y0) * (1 / 10)).
    { replace (y * s - y0 * (1 / 12 - q)) with (y * (s - (1 / 12 - q)) + (y - y0) * (1 / 12 - q)) by ring. eapply Rle_trans; [apply Rabs_triang|]. rewrite !Rabs_mult, (Rabs_pos_eq y), (Rabs_pos_eq (1 / 12 - q)) by lra.
      apply Rplus_le_compat; apply Rmult_le_compat; try lra; apply Rabs_pos. }
    replace (h - y0 * (1 / 12 - q)) with ((h - y * s) + (y * s - y0 * (1 / 12 - q))) by ring. eapply Rle_trans; [apply Rabs_triang|]. cbn [pow] in *. lra.
  Qed.
  Variable L : f64 -> f64.
  Hypothesis HL : good_log L.
  Lemma stirling_ieee : exists r, rep 100 (a_add f64_arith (a_sub f64_arith (Ml (a_add f64_arith fx (f64_lit 5 (-1))) (L fx)) fx)
      (a_add f64_arith (f64_lit 9189385332046728 (-16)) (Ml (D (C 1%Z) fx) (a_sub f64_arith (D (C 1%Z) (C 12%Z)) (D (C 1%Z) (Ml (Ml (C 360%Z) fx) fx)))))) r /\
    Rabs (r - St K) <= 92 / 10 * u * ((K + / 2) * ln K - K) + 4 * u /\ 390 <= (K + / 2) * ln K - K.
  Proof.
    pose proof UU as UU. pose proof EU as EU. destruct XB as (X1 & X2 & X3). destruct small_part as (h & RH & EH).
    assert (UU2 : 0 <= u * u <= / 10 ^ 15 * u) by (split; [apply Rmult_le_pos; lra|apply Rmult_le_compat_r; lra]).
    assert (UK : 0 <= u * K <= / 10 ^ 15 * K) by (split; [apply Rmult_le_pos; lra|apply Rmult_le_compat_r; lra]).
    assert (PS : pow2 (-149) <= 1) by (change 1 with (pow2 0); apply bpow_le; lia). assert (X2' := X2). apply Rabs_le_inv in X2'.
    (* x + 1/2 *)
    assert (LH : rep 0 (f64_lit 5 (-1)) (/ 2)).
    { assert (E : IZR 5 * powerRZ 10 (-1) = / 2) by (change (-1)%Z with (- Z.of_nat 1)%Z; rewrite p10; cbn [pow]; lra). pose proof (lit_rep 5 (-1) 0 ltac:(lia)) as Q. rewrite E in Q.
      replace (rn (/ 2)) with (/ 2) in Q by (symmetry; change (/ 2) with (pow2 (-1)); apply round_generic; [typeclasses eauto|apply generic_format_bpow; cbn; lia]).
      apply Q. change (pow2 0) with 1. rewrite Rabs_pos_eq; lra. }
    pose proof (rep_add _ _ _ _ _ _ RX LH ltac:(lia)) as RA. cbn [Z.max Z.add Z.compare Pos.compare Pos.compare_cont] in RA. set (a := rn (X + / 2)) in *.
    assert (EA : Rabs (a - (K + / 2)) <= 201 / 100 * u * (K + / 2)).
    { eapply Rle_trans; [apply (rnrel (X + / 2) (K + / 2) (1001 / 1000 * u)); [lra|cbn [pow] in UU; lra|replace (X + / 2 - (K + / 2)) with (X - K) by ring; lra]|]. apply Rmult_le_compat_r; [lra|]. cbn [pow] in *. lra. }
    (* log x *)
    destruct (lnrel X K (1001 / 1000 * u) ltac:(lra) ltac:(cbn [pow] in UU; lra) X2) as [XP E1]. assert (LK : 483 / 100 <= ln K) by (eapply Rle_trans; [exact ln126|]; apply ln_mono; lra).
    assert (E1' := E1). apply Rabs_le_inv in E1'. destruct RX as (F1 & F2 & F3). destruct (HL fx F1 ltac:(rewrite F2; exact XP)) as [L1 L2]. rewrite F2 in L2. replace (bpow radix2 (-52)) with (2 * u) in L2 by (unfold u; cbn; lra).
    rewrite (Rabs_pos_eq (ln X)) in L2 by (cbn [pow] in UU; lra). set (l := B2R (L fx)) in *.
    assert (ULK : 0 <= u * ln K <= / 10 ^ 15 * ln K) by (split; [apply Rmult_le_pos; lra|apply Rmult_le_compat_r; lra]). assert (U1 : u * (483 / 100) <= u * ln K) by (apply Rmult_le_compat_l; lra).
    assert (EL : Rabs (l - ln K) <= 23 / 10 * u * ln K).
    { replace (l - ln K) with ((l - ln X) + (ln X - ln K)) by ring. eapply Rle_trans; [apply Rabs_triang|]. assert (2 * u * ln X <= 2 * u * (ln K + 2 * u)) by (apply Rmult_le_compat_l; lra). cbn [pow] in *. lra. }
    assert (LK2 : ln K <= 1000).
    { pose proof (ln_max fx ltac:(rewrite F2; exact XP)) as M. rewrite F2 in M. pose proof (rep_ofZ 1 0 ltac:(lia) ltac:(lia)) as R1.
      assert (ln (IZR (2 ^ 63)) <= 900). { change (IZR (2 ^ 63)) with (pow2 63). rewrite bpow_powerRZ. change (IZR radix2) with 2. change 63%Z with (Z.of_nat 63). rewrite <- pow_powerRZ, ln_pow by lra.
        assert (ln 2 <= 1) by (replace 1 with (2 - 1) by ring; apply ln_le_m1; lra). replace (INR 63) with 63 by (rewrite INR_IZR_INZ; reflexivity). lra. }
      apply Rle_trans with (ln (IZR (2 ^ 63))); [apply ln_mono; lra|lra]. }
    assert (EL' := EL). apply Rabs_le_inv in EL'. assert (RL : rep 10 (L fx) l) by (split; [exact L1|]; split; [reflexivity|]; change (pow2 10) with 1024; apply Rabs_le; cbn [pow] in *; lra).
    pose proof (rep_mul _ _ _ _ _ _ RA RL ltac:(lia)) as RM. cbn [Z.add Pos.add Pos.succ] in RM. set (m := rn (a * l)) in *. set (N := (K + / 2) * ln K) in *.
    assert (N1 : 483 / 100 * K <= N). { unfold N. apply Rle_trans with (K * ln K); [rewrite Rmult_comm; apply Rmult_le_compat_l; lra|]. apply Rmult_le_compat_r; lra. }
    assert (EM : Rabs (m - N) <= 54 / 10 * u * N).
    { pose proof (relmul a (K + / 2) (201 / 100 * u) l (ln K) (23 / 10 * u) ltac:(lra) ltac:(lra) ltac:(lra) ltac:(lra) EA EL) as M. fold N in M.
      eapply Rle_trans; [apply (rnrel (a * l) N (4311 / 1000 * u)); [lra|cbn [pow] in UU; lra|]|].
      - eapply Rle_trans; [exact M|]. apply Rmult_le_compat_r; [lra|]. cbn [pow] in *. lra.
      - apply Rmult_le_compat_r; [lra|]. cbn [pow] in *. lra. }
    assert (UN : 0 <= u * N <= / 10 ^ 15 * N) by (split; [apply Rmult_le_pos; lra|apply Rmult_le_compat_r; lra]). assert (UKN : 483 / 100 * (u * K) <= u * N) by (replace (483 / 100 * (u * K)) with (u * (483 / 100 * K)) by ring; apply Rmult_le_compat_l; lra).
    assert (EM' := EM). apply Rabs_le_inv in EM'.
    (* - x *)
    pose proof (rep_sub _ _ _ _ _ _ RM (conj F1 (conj F2 F3) : rep 63 fx X) ltac:(lia)) as RD. pose proof (rerr (m - X)) as ED. set (d := rn (m - X)) in *.
    assert (B1 : Rabs (m - X) <= 1001 / 1000 * (N - K)) by (apply Rabs_le; cbn [pow] in *; lra).
    assert (Z1 : u * Rabs (m - X) <= u * (1001 / 1000 * (N - K))) by (apply Rmult_le_compat_l; lra).
    assert (ED2 : Rabs (d - (N - K)) <= 54 / 10 * (u * N) + 1001 / 1000 * (u * K) + 1001 / 1000 * (u * (N - K)) + eta).
    { replace (d - (N - K)) with ((d - (m - X)) + (m - N) + - (X - K)) by ring. eapply Rle_trans; [apply Rabs_triang|]. eapply Rle_trans; [apply Rplus_le_compat_r, Rabs_triang|]. rewrite Rabs_Ropp. lra. }
    (* the constant *)
    assert (CE : IZR 9189385332046728 * powerRZ 10 (-16) = half_ln_2pi) by reflexivity. assert (CV : 918 / 1000 <= half_ln_2pi <= 919 / 1000).
    { rewrite <- CE. change (-16)%Z with (- Z.of_nat 16)%Z. rewrite p10. cbn [pow]. lra. }
    pose proof (lit_rep 9189385332046728 (-16) 0 ltac:(lia)) as RC. rewrite CE in RC. specialize (RC ltac:(change (pow2 0) with 1; rewrite Rabs_pos_eq; lra)). pose proof (rerr half_ln_2pi) as EC. rewrite (Rabs_pos_eq half_ln_2pi) in EC by lra. set (c0 := rn half_ln_2pi) in *.
    pose proof (rep_add _ _ _ _ _ _ RC RH ltac:(lia)) as RC2. cbn [Z.max Z.add Z.compare Pos.compare Pos.compare_cont Pos.add] in RC2. pose proof (rerr (c0 + h)) as EC2. set (c := rn (c0 + h)) in *.
    assert (HB : 0 <= hS K <= 1 / 1000).
    { unfold hS. set (y0 := 1 / K). assert (Y0 : 0 <= y0 <= 1 / 126) by (unfold y0, Rdiv; rewrite !Rmult_1_l; split; [left; apply Rinv_0_lt_compat; lra|apply Rinv_le_contravar; lra]).
      assert (KK : 126 * 126 <= K * K) by (apply Rmult_le_compat; lra). assert (QQ : 0 <= 1 / (360 * K * K) <= 1 / 100000) by (unfold Rdiv; rewrite !Rmult_1_l; split; [left; apply Rinv_0_lt_compat; lra|apply Rinv_le_contravar; lra]).
      split; [apply Rmult_le_pos; lra|]. apply Rle_trans with (1 / 126 * (1 / 12)); [apply Rmult_le_compat; lra|lra]. }
    assert (EH' := EH). apply Rabs_le_inv in EH'. assert (EC' := EC). apply Rabs_le_inv in EC'. assert (ucv : u * half_ln_2pi <= u * (919 / 1000)) by (apply Rmult_le_compat_l; lra).
    assert (EC3 : Rabs (c - (half_ln_2pi + hS K)) <= 19 / 10 * u).
    { replace (c - (half_ln_2pi + hS K)) with ((c - (c0 + h)) + (c0 - half_ln_2pi) + (h - hS K)) by ring. eapply Rle_trans; [apply Rabs_triang|]. eapply Rle_trans; [apply Rplus_le_compat_r, Rabs_triang|].
      assert (u * Rabs (c0 + h) <= u * (93 / 100)) by (apply Rmult_le_compat_l; [lra|]; apply Rabs_le; cbn [pow] in *; lra). cbn [pow] in *. lra. }
    pose proof (rep_add _ _ _ _ _ _ RD RC2 ltac:(lia)) as RR. pose proof (rerr (d + c)) as ER. set (r := rn (d + c)) in *.
    assert (UNK : u * (N - K) = u * N - u * K) by ring. assert (ED2' := ED2). apply Rabs_le_inv in ED2'. assert (EC3' := EC3). apply Rabs_le_inv in EC3'.
    assert (Z2 : u * Rabs (d + c) <= u * (1001 / 1000 * (N - K) + 1)) by (apply Rmult_le_compat_l; [lra|]; apply Rabs_le; cbn [pow] in *; lra).
    exists r. split; [eapply rep_weaken; [|exact RR]; cbn; lia|]. split; [|lra].
    unfold St. fold N. replace (r - (N - K + (half_ln_2pi + hS K))) with ((r - (d + c)) + (d - (N - K)) + (c - (half_ln_2pi + hS K))) by ring.
    eapply Rle_trans; [apply Rabs_triang|]. eapply Rle_trans; [apply Rplus_le_compat_r, Rabs_triang|].
    replace (92 / 10 * u * (N - K)) with (92 / 10 * (u * N) - 92 / 10 * (u * K)) by field. replace (u * (1001 / 1000 * (N - K) + 1)) with (1001 / 1000 * (u * N) - 1001 / 1000 * (u * K) + u) in Z2 by field. rewrite UNK in ED2.
    clear - ER Z2 ED2 EC3 UKN EU UN UK. set (g := u * N) in *. set (g2 := u * K) in *. clearbody g g2. cbn [pow] in *. lra.
  Qed.
End Stirling.
Lemma logfactorial_ieee L k : good_log L -> (0 <= k < 2 ^ 63)%Z ->
  exists r, logfactorial_elem f64_arith f64_lit L k = ret r /\ is_finite r = true /\ Rabs (B2R r - ln_fact (Z.to_nat k)) <= 10 * pow2 (-53) * ln_fact (Z.to_nat k).
Proof.
  intros HL H. unfold logfactorial_elem. replace (k <? 0)%Z with false by (symmetry; apply Z.ltb_ge; lia). rewrite u_pow. destruct (Z_lt_le_dec k 126) as [S|S].
  - destruct (logfact_table_ieee k L ltac:(lia)) as (r & A & B & E). exists r. split; [exact A|]. split; [exact B|]. eapply Rle_trans; [exact E|]. apply Rmult_le_compat_r; [|unfold u; cbn [pow]; lra].
    replace 0 with (ln_fact 0) by (unfold ln_fact; cbn; apply ln_1). apply ln_fact_mono. lia.
  - unfold logfactorial. change (Z.of_nat (length logfact)) with 126%Z. replace (k <? 126)%Z with false by (symmetry; apply Z.ltb_ge; lia). cbn zeta.
    assert (K1 : 126 <= IZR k <= IZR (2 ^ 63)) by (split; apply IZR_le; lia). pose proof (ofZ_big k ltac:(lia)) as RX.
    assert (EX : Rabs (rn (IZR k) - IZR k) <= 1001 / 1000 * u * IZR k).
    { pose proof (rrel (IZR k)) as R. rewrite (Rabs_pos_eq (IZR k)) in R by lra. eapply Rle_trans; [apply R|].
      - apply Rle_trans with 1; [change 1 with (pow2 0); apply bpow_le; lia|lra].
      - apply Rmult_le_compat_r; [lra|]. unfold u. cbn [pow]. lra. }
    destruct (stirling_ieee _ _ (IZR k) RX K1 EX L HL) as (r & (A & B & _) & E & NK). eexists. split; [reflexivity|]. split; [exact A|]. rewrite B.
    set (n := (Z.to_nat k - 126)%nat). assert (KN : Z.to_nat k = (126 + n)%nat) by (unfold n; lia). rewrite KN. pose proof (stirling_all n) as SA. pose proof (ln_fact_mono 126 (126 + n) ltac:(lia)) as LM. pose proof ln_fact_126 as L126.
    assert (KI : INR (126 + n) = IZR k) by (rewrite <- KN, INR_IZR_INZ, Z2Nat.id by lia; reflexivity). rewrite KI in SA. pose proof (BS_pos (IZR k) ltac:(lra)) as BP.
    set (F := ln_fact (126 + n)) in *. set (V := (IZR k + / 2) * ln (IZR k) - IZR k) in *.
    assert (UU : 0 < u <= / 10 ^ 15) by (unfold u; cbn [pow]; lra).
    assert (VF : V <= F). { assert (SV : St (IZR k) = V + (half_ln_2pi + hS (IZR k))) by reflexivity. 
      assert (CV : 918 / 1000 <= half_ln_2pi). { change half_ln_2pi with (IZR 9189385332046728 * powerRZ 10 (-16)). change (-16)%Z with (- Z.of_nat 16)%Z. rewrite p10. cbn [pow]. lra. }
      assert (HB : 0 <= hS (IZR k)).
      { unfold hS. set (K := IZR k) in *. assert (KK : 126 * 126 <= K * K) by (apply Rmult_le_compat; lra). assert (QQ : 0 <= 1 / (360 * K * K) <= 1 / 100000) by (unfold Rdiv; rewrite !Rmult_1_l; split; [left; apply Rinv_0_lt_compat; lra|apply Rinv_le_contravar; lra]).
        apply Rmult_le_pos; [unfold Rdiv; rewrite Rmult_1_l; left; apply Rinv_0_lt_compat; lra|lra]. }
      cbn [pow] in SA. lra. }
    assert (UV : u * V <= u * F) by (apply Rmult_le_compat_l; lra). assert (UF : u * 480 <= u * F) by (apply Rmult_le_compat_l; lra).
    assert (SE : Rabs (St (IZR k) - F) <= 26 / 10 ^ 15) by (apply Rabs_le; cbn [pow] in *; lra).
    replace (r - F) with ((r - St (IZR k)) + (St (IZR k) - F)) by ring. eapply Rle_trans; [apply Rabs_triang|].
    assert (T : 26 / 10 ^ 15 <= 235 * u) by (unfold u; cbn [pow]; lra). lra.
Qed.
Lemma logfactorial_loop_ieee L m p step pout ostep (out : mem f64) l : good_log L ->
  view m p step l -> writable out pout ostep (length l) -> List.Forall (fun k => - 2 ^ 63 <= k < 2 ^ 63)%Z l ->
  exists r, writes (unary_loop (logfactorial_elem f64_arith f64_lit L) m p (Z.of_nat (length l)) step pout ostep out) out pout ostep r /\
    List.Forall2 (fun k y => if (k <? 0)%Z then y = B754_nan else is_finite y = true /\ Rabs (B2R y - ln_fact (Z.to_nat k)) <= 10 * pow2 (-53) * ln_fact (Z.to_nat k)) l r.
Proof.
  intros HL V W F. eexists. split; [apply (special_loop _ B754_nan); [exact V|exact W|]; intros; apply logfactorial_elem_defined|].
  clear V W. induction F as [|k l Fk F IH]; constructor; [|exact IH]. destruct (Z.ltb_spec k 0).
  - now rewrite logfactorial_elem_neg.
  - destruct (logfactorial_ieee L k HL ltac:(lia)) as (r & -> & A & B). now split.
Qed.

(** * P_ErfcxR: accuracy of the tables and of the continued fraction for erfcx, over the reals *)
From Coq Require Import ZArith Reals List Bool Lia Lra Psatz Machin.
From Coquelicot Require Import Coquelicot.
From Verif Require Import M_Erfcx P_Erf P_ErfcxT.
Import ListNotations.
Open Scope R_scope.

(** ** pi and 1/sqrt(pi) *)
Definition PS40 : Z := (10 ^ 40)%Z.
Definition at_term (n : nat) : Z :=
  (2 * (PS40 / (3 ^ (2 * Z.of_nat n + 1) * (2 * Z.of_nat n + 1))) + PS40 / (7 ^ (2 * Z.of_nat n + 1) * (2 * Z.of_nat n + 1)))%Z.
Fixpoint at_sum (n : nat) : Z :=
  match n with O => at_term 0 | S n' => (at_sum n' + (if Nat.even n then at_term n else - at_term n))%Z end.
Lemma div_near a b : (0 < b)%Z -> 0 <= IZR a / IZR b - IZR (a / b) <= 1.
Proof.
  intros Hb. pose proof (Z.div_mod a b ltac:(lia)) as E. pose proof (Z.mod_pos_bound a b Hb) as M.
  assert (H : IZR a = IZR b * IZR (a / b) + IZR (a mod b)) by (rewrite <- mult_IZR, <- plus_IZR; f_equal; exact E).
  assert (0 < IZR b) by (apply IZR_lt; exact Hb).
  assert (0 <= IZR (a mod b) < IZR b) by (split; [apply IZR_le|apply IZR_lt]; lia).
  replace (IZR a / IZR b - IZR (a / b)) with (IZR (a mod b) / IZR b) by (rewrite H; field; lra).
  split; [apply Rdiv_le_0_compat; lra|]. apply (Rmult_le_reg_r (IZR b)); [lra|]. unfold Rdiv. rewrite Rmult_assoc, Rinv_l by lra. lra.
Qed.
Lemma at_den p n : (0 < p)%Z -> IZR PS40 * Ratan_seq (/ IZR p) n = IZR PS40 / IZR (p ^ (2 * Z.of_nat n + 1) * (2 * Z.of_nat n + 1)).
Proof.
  intros Hp. unfold Ratan_seq. rewrite mult_IZR, plus_IZR, mult_IZR, <- INR_IZR_INZ.
  replace (IZR (p ^ (2 * Z.of_nat n + 1))) with (IZR p ^ (2 * n + 1)).
  2:{ rewrite pow_IZR. f_equal. f_equal. lia. }
  rewrite plus_INR, mult_INR, pow_inv.
  simpl (INR 2). simpl (INR 1).
  assert (IZR p ^ (2 * n + 1) <> 0) by (apply pow_nonzero, not_0_IZR; lia).
  pose proof (pos_INR n). field. split; [lra|assumption].
Qed.
Lemma three a b c d : 0 <= a - b <= 1 -> 0 <= c - d <= 1 -> Rabs (2 * a + c - (2 * b + d)) <= 3.
Proof. intros. apply Rabs_le. lra. Qed.
Lemma at_term_near n : Rabs (IZR PS40 * PI_2_3_7_tg n - IZR (at_term n)) <= 3.
Proof.
  unfold PI_2_3_7_tg, at_term. rewrite Rmult_plus_distr_l.
  replace (IZR PS40 * (2 * Ratan_seq (/ 3) n)) with (2 * (IZR PS40 * Ratan_seq (/ 3) n)) by ring.
  rewrite (at_den 3), (at_den 7) by lia. rewrite plus_IZR, (mult_IZR 2).
  apply three; apply div_near; (apply Z.mul_pos_pos; [apply Z.pow_pos_nonneg; lia|lia]).
Qed.
Lemma alt_step P s S t T m e : Rabs (P * s - S) <= 3 * m -> Rabs (P * t - T) <= 3 -> e = 1 \/ e = -1 -> Rabs (P * s + P * (e * t) - (S + e * T)) <= 3 * (m + 1).
Proof. intros H1 H2 [-> | ->]; apply Rabs_le_between in H1; apply Rabs_le_between in H2; apply Rabs_le_between; nra. Qed.
Lemma at_sum_near n : Rabs (IZR PS40 * sum_f_R0 (tg_alt PI_2_3_7_tg) n - IZR (at_sum n)) <= 3 * INR (S n).
Proof.
  induction n as [|n IH].
  - cbn [sum_f_R0 at_sum]. unfold tg_alt. simpl pow. rewrite Rmult_1_l. simpl INR. pose proof (at_term_near 0). lra.
  - cbn [sum_f_R0 at_sum]. rewrite plus_IZR, Rmult_plus_distr_l. rewrite (S_INR (S n)).
    pose proof (at_term_near (S n)) as T. unfold tg_alt.
    assert (E : exists e, (-1) ^ S n = e /\ IZR (if Nat.even (S n) then at_term (S n) else (- at_term (S n))%Z) = e * IZR (at_term (S n)) /\ (e = 1 \/ e = -1)).
    { exists (if Nat.even (S n) then 1 else -1). repeat split.
      - clear. induction n as [|n IH]; [simpl; lra|]. rewrite <- tech_pow_Rmult, IH. rewrite (Nat.even_succ (S n)), <- Nat.negb_even. destruct (Nat.even (S n)); simpl; lra.
      - destruct (Nat.even (S n)); [ring|rewrite opp_IZR; ring].
      - destruct (Nat.even (S n)); auto. }
    destruct E as (e & -> & -> & He). apply alt_step; assumption.
Qed.
Definition PIlo : Z := 314159265358979323846264338327950288418%Z.
Lemma four P s z m q lo hi : Rabs (P * s - IZR z) <= 3 * m -> 3 * m <= 126 -> (lo <= 4 * z - 504)%Z -> (4 * z + 504 <= hi)%Z -> 
  (q = s -> IZR lo <= P * (4 * q) <= IZR hi).
Proof.
  intros H Hm L U ->. apply Rabs_le_between in H. apply IZR_le in L. apply IZR_le in U. rewrite minus_IZR, mult_IZR in L. rewrite plus_IZR, mult_IZR in U. lra.
Qed.
Lemma PI_near : IZR (PIlo * 100 - 400) <= IZR PS40 * PI <= IZR (PIlo * 100 + 700).
Proof.
  pose proof (PI_2_3_7_ineq 20) as [L U].
  assert (P : 0 < IZR PS40) by (apply IZR_lt; reflexivity).
  destruct (four (IZR PS40) _ _ (INR 42) _ (PIlo * 100 - 400) (PIlo * 100 + 700) (at_sum_near (S (2 * 20))) ltac:(rewrite INR_IZR_INZ; simpl; lra)
             ltac:(apply Z.leb_le; vm_compute; reflexivity) ltac:(apply Z.leb_le; vm_compute; reflexivity) eq_refl) as [A _].
  destruct (four (IZR PS40) _ _ (INR 41) _ (PIlo * 100 - 400) (PIlo * 100 + 700) (at_sum_near (2 * 20)) ltac:(rewrite INR_IZR_INZ; simpl; lra)
             ltac:(apply Z.leb_le; vm_compute; reflexivity) ltac:(apply Z.leb_le; vm_compute; reflexivity) eq_refl) as [_ A'].
  clear -L U A A' P. set (s1 := sum_f_R0 (tg_alt PI_2_3_7_tg) (S (2 * 20))) in *. set (s2 := sum_f_R0 (tg_alt PI_2_3_7_tg) (2 * 20)) in *.
  clearbody s1 s2. set (a := IZR (PIlo * 100 - 400)) in *. set (b := IZR (PIlo * 100 + 700)) in *. clearbody a b.
  set (p := IZR PS40) in *. clearbody p. split; nra.
Qed.
(** the literal of the source *)
Definition ispi : Z := 5641895835477562869480794515607725858%Z.
Lemma B_near_aux (pi p lo hi b s l h : R) : 0 < p -> lo <= p * pi <= hi -> 0 < b -> b * b * pi = 1 -> 0 < s -> 0 < l -> 0 < h ->
  l * l * hi <= p * (s * s) -> p * (s * s) <= h * h * lo -> l <= s * b <= h.
Proof.
  intros Pp [Lo Hi] Hb E Hs Hl Hh A C.
  assert (E' : (s * b) * (s * b) * (p * pi) = p * (s * s)) by (replace ((s * b) * (s * b) * (p * pi)) with (p * (s * s) * (b * b * pi)) by ring; rewrite E; ring).
  set (u := s * b) in *. assert (0 < u) by (apply Rmult_lt_0_compat; lra). clearbody u.
  assert (0 < p * (s * s)) by (repeat apply Rmult_lt_0_compat; lra).
  assert (0 < p * pi).
  { apply Rnot_le_lt. intros N. assert (u * u * (p * pi) <= 0) by (assert (0 < u * u) by nra; nra). lra. }
  set (w := p * pi) in *. clearbody w.
  split; apply Rnot_lt_le; intros N.
  - assert (u * u < l * l) by nra. assert (u * u * w < l * l * w) by nra. assert (l * l * w <= l * l * hi) by nra. lra.
  - assert (h * h < u * u) by nra. assert (h * h * w < u * u * w) by nra. assert (h * h * lo <= h * h * w) by nra. lra.
Qed.
Lemma B_near : IZR (ispi - 1) <= 10 ^ 37 * B <= IZR (ispi + 1).
Proof.
  pose proof PI_near as P. pose proof B_pos as Q. pose proof B_sq as R'.
  assert (E : 10 ^ 37 = IZR (10 ^ 37)) by (rewrite pow_IZR; reflexivity). rewrite E.
  apply (B_near_aux PI (IZR PS40) (IZR (PIlo * 100 - 400)) (IZR (PIlo * 100 + 700)) B); try assumption;
    try (apply IZR_lt; reflexivity); rewrite <- !mult_IZR; apply IZR_le; apply Z.leb_le; vm_compute; reflexivity.
Qed.
Lemma B_B0 : Rabs (IZR SW * B - IZR B0) <= 1.
Proof.
  pose proof B_near as [L U].
  assert (E : 10 ^ 37 = 10 ^ 7 * IZR SW) by (rewrite !pow_IZR, <- mult_IZR; reflexivity). rewrite E in *.
  apply Rabs_le. split; apply (Rmult_le_reg_l (10 ^ 7)); try (apply pow_lt; lra).
  - apply Rle_trans with (IZR (ispi - 1) - IZR (10 ^ 7 * B0)); [rewrite <- minus_IZR|].
    + replace (10 ^ 7 * - (1)) with (IZR (- 10 ^ 7)) by (rewrite opp_IZR; replace (IZR (10 ^ 7)) with (10 ^ 7) by (rewrite pow_IZR; reflexivity); ring). apply IZR_le, Z.leb_le. vm_compute. reflexivity.
    + rewrite mult_IZR. replace (IZR (10 ^ 7)) with (10 ^ 7) by (rewrite pow_IZR; reflexivity). lra.
  - apply Rle_trans with (IZR (ispi + 1) - IZR (10 ^ 7 * B0)).
    + rewrite mult_IZR. replace (IZR (10 ^ 7)) with (10 ^ 7) by (rewrite pow_IZR; reflexivity). lra.
    + rewrite <- minus_IZR, Rmult_1_r, pow_IZR. apply IZR_le, Z.leb_le. vm_compute. reflexivity.
Qed.
Lemma B_half : 1 / 2 < B < 6 / 10.
Proof.
  pose proof B_near as [L U]. assert (0 < 10 ^ 37) by (apply pow_lt; lra).
  assert (A : IZR (5 * 10 ^ 36) < IZR (ispi - 1)) by (apply IZR_lt; reflexivity).
  assert (C : IZR (ispi + 1) < IZR (6 * 10 ^ 36)) by (apply IZR_lt; reflexivity).
  assert (E : 10 ^ 37 = 10 * IZR (10 ^ 36)) by (rewrite pow_IZR, <- mult_IZR; reflexivity).
  rewrite mult_IZR in A, C. assert (0 < IZR (10 ^ 36)) by (apply IZR_lt; reflexivity). rewrite E in *.
  set (w := IZR (10 ^ 36)) in *. clearbody w. set (i1 := IZR (ispi - 1)) in *. set (i2 := IZR (ispi + 1)) in *. clearbody i1 i2. split; nra.
Qed.

(** ** the continued fractions *)
Definition D4 (x : R) : R := x ^ 5 + 5 * x ^ 3 + 15 / 4 * x.
Definition N4 (x : R) : R := x ^ 4 + 9 / 2 * x ^ 2 + 2.
Definition D5 (x : R) : R := x ^ 6 + 15 / 2 * x ^ 4 + 45 / 4 * x ^ 2 + 15 / 8.
Definition N5 (x : R) : R := x ^ 5 + 7 * x ^ 3 + 33 / 4 * x.
Lemma x_pos3 x : 0 < x -> 0 < x ^ 2 /\ 0 < x ^ 3 /\ 0 < x ^ 4 /\ 0 < x ^ 5 /\ 0 < x ^ 6.
Proof. intros; repeat split; apply pow_lt; assumption. Qed.
Lemma D4_pos x : 0 < x -> 0 < D4 x. Proof. intros H. pose proof (x_pos3 x H). unfold D4. lra. Qed.
Lemma D5_pos x : 0 < x -> 0 < D5 x. Proof. intros H. pose proof (x_pos3 x H). unfold D5. lra. Qed.
Definition g4 (x : R) : R := B * N4 x / D4 x.
Definition g5 (x : R) : R := B * N5 x / D5 x.
Definition g4' (x : R) : R := 2 * x * g4 x - 2 * B - 15 / 2 * B / (D4 x * D4 x).
Definition g5' (x : R) : R := 2 * x * g5 x - 2 * B + 45 / 2 * B / (D5 x * D5 x).
Lemma g4_derive x : 0 < x -> is_derive g4 x (g4' x).
Proof. intros H. pose proof (D4_pos x H) as P. unfold g4', g4, N4, D4 in *. auto_derive; [lra|]. field. lra. Qed.
Lemma g5_derive x : 0 < x -> is_derive g5 x (g5' x).
Proof. intros H. pose proof (D5_pos x H) as P. unfold g5', g5, N5, D5 in *. auto_derive; [lra|]. field. lra. Qed.
Lemma g4_small x : 0 < x -> 0 <= g4 x <= B / x.
Proof.
  intros H. pose proof (D4_pos x H) as P. pose proof B_pos. pose proof (x_pos3 x H). unfold g4. split.
  - apply Rdiv_le_0_compat; [|exact P]. apply Rmult_le_pos; [lra|unfold N4; lra].
  - apply (Rmult_le_reg_r (D4 x * x)); [apply Rmult_lt_0_compat; lra|].
    replace (B * N4 x / D4 x * (D4 x * x)) with (B * (N4 x * x)) by (field; lra).
    replace (B / x * (D4 x * x)) with (B * D4 x) by (field; lra).
    apply Rmult_le_compat_l; [lra|]. unfold N4, D4. nra.
Qed.
Lemma g5_small x : 0 < x -> 0 <= g5 x <= B / x.
Proof.
  intros H. pose proof (D5_pos x H) as P. pose proof B_pos. pose proof (x_pos3 x H). unfold g5. split.
  - apply Rdiv_le_0_compat; [|exact P]. apply Rmult_le_pos; [lra|unfold N5; lra].
  - apply (Rmult_le_reg_r (D5 x * x)); [apply Rmult_lt_0_compat; lra|].
    replace (B * N5 x / D5 x * (D5 x * x)) with (B * (N5 x * x)) by (field; lra).
    replace (B / x * (D5 x * x)) with (B * D5 x) by (field; lra).
    apply Rmult_le_compat_l; [lra|]. unfold N5, D5. nra.
Qed.
Lemma small_vanishes (g : R -> R) : (forall x, 0 < x -> 0 <= g x <= B / x) -> vanishes (fun x => gauss x * g x).
Proof.
  intros H. pose proof B_pos. apply (vanishes_inv _ B ltac:(lra)). intros x Hx. specialize (H x ltac:(lra)).
  pose proof (gauss_pos x). assert (gauss x <= 1).
  { pose proof (gauss_small x Hx). assert (/ x < 1) by (rewrite <- Rinv_1; apply Rinv_lt_contravar; lra). lra. }
  rewrite Rabs_right by (apply Rle_ge, Rmult_le_pos; lra). nra.
Qed.
Lemma D4_mono x y : 0 < x <= y -> D4 x <= D4 y.
Proof. intros H. unfold D4. assert (x ^ 5 <= y ^ 5) by (apply pow_incr; lra). assert (x ^ 3 <= y ^ 3) by (apply pow_incr; lra). lra. Qed.
Lemma D5_mono x y : 0 < x <= y -> D5 x <= D5 y.
Proof. intros H. unfold D5. assert (x ^ 6 <= y ^ 6) by (apply pow_incr; lra). assert (x ^ 4 <= y ^ 4) by (apply pow_incr; lra). assert (x ^ 2 <= y ^ 2) by (apply pow_incr; lra). lra. Qed.
Lemma inv_sq_le u v : 0 < u <= v -> / (v * v) <= / (u * u).
Proof. intros H. apply Rinv_le_contravar; nra. Qed.
Lemma g4_bounds x : 0 < x -> erfcxR x <= g4 x <= (1 + 15 / 4 / (D4 x * D4 x)) * erfcxR x.
Proof.
  intros H. pose proof B_pos as HB. split.
  - replace (erfcxR x) with ((1 - 0) * erfcxR x) by ring.
    apply (below g4 g4' x 0); [intros y Hy; apply g4_derive; lra|apply small_vanishes, g4_small| |lra].
    intros y Hy. unfold resid, g4'. pose proof (D4_pos y ltac:(lra)).
    assert (0 < 15 / 2 * B / (D4 y * D4 y)) by (apply Rdiv_lt_0_compat; nra). lra.
  - pose proof (D4_pos x H) as P.
    apply (above g4 g4' x); [intros y Hy; apply g4_derive; lra|apply small_vanishes, g4_small| |].
    + intros y Hy. unfold resid, g4'. pose proof (inv_sq_le (D4 x) (D4 y) ltac:(split; [lra|apply D4_mono; lra])).
      unfold Rdiv. nra.
    + left. apply Rdiv_lt_0_compat; nra.
Qed.
Lemma g5_bounds x : 0 < x -> 45 / 4 / (D5 x * D5 x) <= 1 -> (1 - 45 / 4 / (D5 x * D5 x)) * erfcxR x <= g5 x <= erfcxR x.
Proof.
  intros H L. pose proof B_pos as HB. pose proof (D5_pos x H) as P. split.
  - apply (below g5 g5' x); [intros y Hy; apply g5_derive; lra|apply small_vanishes, g5_small| |].
    + intros y Hy. unfold resid, g5'. pose proof (inv_sq_le (D5 x) (D5 y) ltac:(split; [lra|apply D5_mono; lra])).
      unfold Rdiv. nra.
    + split; [left; apply Rdiv_lt_0_compat; nra|exact L].
  - replace (erfcxR x) with ((1 + 0) * erfcxR x) by ring.
    apply (above g5 g5' x 0); [intros y Hy; apply g5_derive; lra|apply small_vanishes, g5_small| |lra].
    intros y Hy. unfold resid, g5'. pose proof (D5_pos y ltac:(lra)).
    assert (0 < 45 / 2 * B / (D5 y * D5 y)) by (apply Rdiv_lt_0_compat; nra). lra.
Qed.
Lemma erfcx_upper x : 0 < x -> erfcxR x <= B / x.
Proof. intros H. pose proof (g4_bounds x H). pose proof (g4_small x H). lra. Qed.
Lemma erfcx_decr x y : 0 <= x <= y -> erfcxR y <= erfcxR x.
Proof.
  intros [H0 [H| ->]]; [|lra]. destruct (MVT_cor2 erfcxR (fun x => 2 * x * erfcxR x - 2 * B) x y H) as (c & E & Hc).
  { intros c _. apply is_derive_Reals, erfcxR_derive. }
  pose proof (erfcx_upper c ltac:(lra)). assert (c * erfcxR c <= B).
  { replace B with (c * (B / c)) by (field; lra). apply Rmult_le_compat_l; lra. }
  nra.
Qed.

(** ** the cells *)
Lemma SW_pos : 0 < IZR SW. Proof. apply IZR_lt; reflexivity. Qed.
Definition gq (k : Z) (q : list Z) (x : R) : R := pev q (800 / (4 + x) - (2 * IZR k + 1)) / IZR SW.
Definition gq' (k : Z) (q : list Z) (x : R) : R := pev (pder q) (800 / (4 + x) - (2 * IZR k + 1)) * (- 800 / ((4 + x) * (4 + x))) / IZR SW.
Lemma gq_derive k q x : -4 < x -> is_derive (gq k q) x (gq' k q x).
Proof.
  intros H. unfold gq, gq'. pose proof SW_pos.
  apply (is_derive_scal_l (V:=R_NormedModule) (fun x => pev q (800 / (4 + x) - (2 * IZR k + 1))) x _ (/ IZR SW)).
  rewrite (Rmult_comm (pev (pder q) _)).
  apply (is_derive_comp (V:=R_NormedModule) (pev q) (fun x => 800 / (4 + x) - (2 * IZR k + 1))); [apply pev_der|].
  auto_derive; [lra|]. field. lra.
Qed.
Lemma rpoly_spec k q t : let c := 2 * IZR k + 1 in
  pev (rpoly k q) t = - (c + t) ^ 3 * pev (pder q) t - 1600 * (800 - 4 * (c + t)) * pev q t + 1600 * IZR B0 * (c + t).
Proof.
  unfold rpoly. rewrite !pev_add, pev_scal, !pev_mul. cbn [pev].
  rewrite !opp_IZR, !mult_IZR, !minus_IZR, !plus_IZR, !mult_IZR, !plus_IZR, !mult_IZR. cbn zeta. ring.
Qed.
Lemma resid_spec k q x : -4 < x -> let t := 800 / (4 + x) - (2 * IZR k + 1) in
  resid (gq k q) (gq' k q) x * (640000 / (4 + x)) * IZR SW = pev (rpoly k q) t + 1600 * (IZR SW * B - IZR B0) * (800 / (4 + x)).
Proof.
  intros H t. rewrite rpoly_spec. unfold resid, gq, gq'. fold t. pose proof SW_pos.
  replace (2 * IZR k + 1 + t) with (800 / (4 + x)) by (unfold t; ring).
  set (P := pev q t). set (P' := pev (pder q) t). field. split; lra.
Qed.
Definition in_cell (k : Z) (x : R) : Prop := 400 / (IZR k + 1) - 4 <= x <= 400 / IZR k - 4.
Lemma cell_y k x : (1 <= k)%Z -> in_cell k x -> -4 < x /\ IZR k <= 400 / (4 + x) <= IZR k + 1.
Proof.
  intros Hk [L U]. apply IZR_le in Hk.
  assert (0 < 400 / (IZR k + 1)) by (apply Rdiv_lt_0_compat; lra).
  assert (P : 0 < 4 + x) by lra. split; [lra|].
  assert (L' : 400 / (IZR k + 1) <= 4 + x) by lra. assert (U' : 4 + x <= 400 / IZR k) by lra.
  split.
  - apply (Rmult_le_reg_r (4 + x)); [lra|]. unfold Rdiv at 1. rewrite Rmult_assoc, Rinv_l, Rmult_1_r by lra.
    apply Rle_trans with (IZR k * (400 / IZR k)); [apply Rmult_le_compat_l; lra|]. right. field. lra.
  - apply (Rmult_le_reg_r (4 + x)); [lra|]. unfold Rdiv at 1. rewrite Rmult_assoc, Rinv_l, Rmult_1_r by lra.
    apply Rle_trans with ((IZR k + 1) * (400 / (IZR k + 1))); [right; field; lra|]. apply Rmult_le_compat_l; lra.
Qed.
Lemma resid_small k q x : (1 <= k <= 99)%Z -> rcheck k q = true -> in_cell k x -> Rabs (resid (gq k q) (gq' k q) x) <= / 10 ^ 26.
Proof.
  intros Hk C I. destruct (cell_y k x ltac:(lia) I) as [Hx [Y1 Y2]]. pose proof (resid_spec k q x Hx) as E. cbn zeta in E.
  unfold rcheck in C. apply Z.leb_le in C. apply IZR_le in C. rewrite !mult_IZR, plus_IZR in C.
  replace (IZR (10 ^ 26)) with (10 ^ 26) in C by (rewrite pow_IZR; reflexivity).
  set (t := 800 / (4 + x) - (2 * IZR k + 1)) in *.
  assert (Et : t = 2 * (400 / (4 + x)) - (2 * IZR k + 1)) by (unfold t; field; lra). clearbody t.
  replace (800 / (4 + x)) with (2 * (400 / (4 + x))) in * by (field; lra).
  replace (640000 / (4 + x)) with (1600 * (400 / (4 + x))) in E by (field; lra).
  set (y := 400 / (4 + x)) in *. clearbody y.
  assert (T : -1 <= t <= 1) by lra.
  pose proof (pev_abs (rpoly k q) t T) as A. pose proof B_B0 as BB. pose proof SW_pos.
  destruct Hk as [K1 K2]. apply IZR_le in K1. apply IZR_le in K2.
  assert (A2 : Rabs (1600 * (IZR SW * B - IZR B0) * (2 * y)) <= 320000).
  { rewrite !Rabs_mult, (Rabs_right 1600), (Rabs_right 2), (Rabs_right y) by lra. pose proof (Rabs_pos (IZR SW * B - IZR B0)). nra. }
  assert (A3 : Rabs (resid (gq k q) (gq' k q) x) * (1600 * y) * IZR SW <= IZR (pabs (rpoly k q)) + 320000).
  { replace (Rabs (resid (gq k q) (gq' k q) x) * (1600 * y) * IZR SW) with (Rabs (resid (gq k q) (gq' k q) x * (1600 * y) * IZR SW)).
    2:{ rewrite !Rabs_mult, (Rabs_right 1600), (Rabs_right y), (Rabs_right (IZR SW)) by lra. ring. }
    rewrite E. eapply Rle_trans; [apply Rabs_triang|]. lra. }
  set (r := Rabs (resid (gq k q) (gq' k q) x)) in *. assert (0 <= r) by apply Rabs_pos. clearbody r.
  assert (T26 : 0 < 10 ^ 26) by (apply pow_lt; lra). set (w := 10 ^ 26) in *. clearbody w.
  set (s := IZR SW) in *. clearbody s. set (pa := IZR (pabs (rpoly k q))) in *. clearbody pa.
  apply (Rmult_le_reg_r w); [lra|]. rewrite Rinv_l by lra.
  assert (r * (1600 * y) * s * w <= 1600 * IZR k * s) by (eapply Rle_trans; [apply Rmult_le_compat_r; [lra|exact A3]|exact C]).
  assert (0 < 1600 * y * s) by (repeat apply Rmult_lt_0_compat; lra).
  apply (Rmult_le_reg_r (1600 * y * s)); [lra|].
  replace (r * w * (1600 * y * s)) with (r * (1600 * y) * s * w) by ring. 
  assert (1600 * IZR k * s <= 1600 * y * s) by (apply Rmult_le_compat_r; lra). lra.
Qed.
Lemma in_cell_sub k x y : in_cell k x -> x <= y <= 400 / IZR k - 4 -> in_cell k y.
Proof. unfold in_cell. lra. Qed.
Lemma cell_acc k q d : (1 <= k <= 99)%Z -> rcheck k q = true -> / 10 ^ 26 <= d ->
  Rabs (IZR (atm1 q) / IZR SW - erfcxR (400 / IZR k - 4)) <= d * erfcxR (400 / IZR k - 4) ->
  forall x, in_cell k x -> Rabs (gq k q x - erfcxR x) <= d * erfcxR x.
Proof.
  intros Hk C Hd E x I. destruct (cell_y k x ltac:(lia) I) as [Hx _].
  assert (Hk' := proj1 Hk). apply IZR_le in Hk'.
  apply (inward (gq k q) (gq' k q) x (400 / IZR k - 4)).
  - apply I.
  - intros y Hy. apply gq_derive. lra.
  - intros y Hy. eapply Rle_trans; [apply (resid_small k q y Hk C); apply (in_cell_sub k x y I Hy)|].
    pose proof B_half. assert (0 < / 10 ^ 26) by (apply Rinv_0_lt_compat, pow_lt; lra). nra.
  - replace (gq k q (400 / IZR k - 4)) with (IZR (atm1 q) / IZR SW); [exact E|].
    unfold gq. f_equal. replace (800 / (4 + (400 / IZR k - 4)) - (2 * IZR k + 1)) with (-1) by (field; lra).
    clear. induction q as [|a q IH]; cbn [pev atm1]; [reflexivity|]. rewrite minus_IZR, IH. ring.
Qed.
Lemma pev_1 q : pev q 1 = IZR (at1 q).
Proof. induction q as [|a q IH]; cbn [pev at1 fold_right]; [reflexivity|]. rewrite plus_IZR. unfold at1 in IH. rewrite IH. ring. Qed.
(** the value at the right end of cell k - 1 (in t) carries over to cell k *)
Lemma jump_acc k p q d : (2 <= k)%Z -> jcheck p q = true -> 0 <= d <= 1 ->
  Rabs (IZR (at1 p) / IZR SW - erfcxR (400 / IZR k - 4)) <= d * erfcxR (400 / IZR k - 4) ->
  Rabs (IZR (atm1 q) / IZR SW - erfcxR (400 / IZR k - 4)) <= (d + 2 / 10 ^ 27) * erfcxR (400 / IZR k - 4).
Proof.
  intros Hk J Hd E. unfold jcheck in J. apply Z.leb_le in J. apply IZR_le in J. rewrite mult_IZR, abs_IZR, minus_IZR in J.
  replace (IZR (10 ^ 27)) with (10 ^ 27) in J by (rewrite pow_IZR; reflexivity).
  pose proof SW_pos. pose proof (erfcxR_pos (400 / IZR k - 4)) as F.
  set (f := erfcxR (400 / IZR k - 4)) in *. clearbody f. set (s := IZR SW) in *. clearbody s.
  set (a := IZR (at1 p)) in *. set (b := IZR (atm1 q)) in *. clearbody a b.
  assert (T : 0 < 10 ^ 27) by (apply pow_lt; lra). set (w := 10 ^ 27) in *. clearbody w.
  assert (a / s <= 2 * f) by (apply Rabs_le_between in E; nra).
  assert (Rabs (b / s - a / s) <= 2 * f / w).
  { replace (b / s - a / s) with ((b - a) / s) by (field; lra). unfold Rdiv at 1. rewrite Rabs_mult, (Rabs_right (/ s)) by (left; apply Rinv_0_lt_compat; lra).
    apply (Rmult_le_reg_r w); [lra|]. replace (2 * f / w * w) with (2 * f) by (field; lra).
    replace (Rabs (b - a) * / s * w) with (Rabs (b - a) * w / s) by (field; lra).
    apply Rle_trans with (a / s); [|lra]. apply Rmult_le_compat_r; [left; apply Rinv_0_lt_compat; lra|exact J]. }
  replace (b / s - f) with ((b / s - a / s) + (a / s - f)) by ring.
  eapply Rle_trans; [apply Rabs_triang|]. replace ((d + 2 / w) * f) with (2 * f / w + d * f) by (field; lra). lra.
Qed.
Lemma chain l : forall k p d, (2 <= k)%Z -> (k + Z.of_nat (length l) <= 100)%Z -> wcheck k p l = true -> / 10 ^ 26 <= d -> d + 2 * INR (length l) / 10 ^ 27 <= 1 ->
  Rabs (IZR (at1 p) / IZR SW - erfcxR (400 / IZR k - 4)) <= d * erfcxR (400 / IZR k - 4) ->
  forall i q, nth_error l i = Some q -> forall x, in_cell (k + Z.of_nat i) x ->
  Rabs (gq (k + Z.of_nat i) q x - erfcxR x) <= (d + 2 * INR (length l) / 10 ^ 27) * erfcxR x.
Proof.
  assert (T : 0 < 10 ^ 27) by (apply pow_lt; lra). assert (T26 : 0 < / 10 ^ 26) by (apply Rinv_0_lt_compat, pow_lt; lra).
  induction l as [|q l IH]; intros k p d Hk Hl C Hd Hd1 E i q' Hi x I; [destruct i; discriminate|].
  cbn [wcheck] in C. apply andb_prop in C. destruct C as [C C3]. apply andb_prop in C. destruct C as [C1 C2].
  cbn [length] in *. rewrite S_INR in *. pose proof (pos_INR (length l)) as PL.
  assert (G : 0 <= 2 * INR (length l) / 10 ^ 27) by (apply Rdiv_le_0_compat; lra).
  assert (G2 : 0 < 2 / 10 ^ 27) by (apply Rdiv_lt_0_compat; lra).
  replace (2 * (INR (length l) + 1) / 10 ^ 27) with (2 / 10 ^ 27 + 2 * INR (length l) / 10 ^ 27) in * by (field; lra).
  pose proof (jump_acc k p q d Hk C2 ltac:(lra) E) as J.
  assert (A : forall x, in_cell k x -> Rabs (gq k q x - erfcxR x) <= (d + 2 / 10 ^ 27) * erfcxR x).
  { apply cell_acc; [lia|exact C1|lra|exact J]. }
  destruct i as [|i].
  - injection Hi as <-. rewrite Z.add_0_r in *. eapply Rle_trans; [apply A; exact I|]. apply Rmult_le_compat_r; [left; apply erfcxR_pos|lra].
  - cbn [nth_error] in Hi. 
    assert (Ek : (k + Z.of_nat (S i) = (k + 1) + Z.of_nat i)%Z) by lia. rewrite Ek in *.
    replace (d + (2 / 10 ^ 27 + 2 * INR (length l) / 10 ^ 27)) with ((d + 2 / 10 ^ 27) + 2 * INR (length l) / 10 ^ 27) by ring.
    apply (IH (k + 1)%Z q (d + 2 / 10 ^ 27)); [lia|lia|exact C3|lra|lra| |exact Hi|exact I].
    assert (2 <= IZR k) by (apply IZR_le; lia).
    assert (IC : in_cell k (400 / IZR (k + 1) - 4)).
    { unfold in_cell. rewrite plus_IZR. split; [lra|]. assert (/ (IZR k + 1) <= / IZR k) by (apply Rinv_le_contravar; lra). unfold Rdiv. lra. }
    specialize (A _ IC). unfold gq in A. rewrite plus_IZR in *.
    replace (800 / (4 + (400 / (IZR k + 1) - 4)) - (2 * IZR k + 1)) with 1 in A by (field; lra). rewrite pev_1 in A. exact A.
Qed.
(** the anchor: cell 3 at its largest x *)
Definition nz : Z := (8 * (388 ^ 5 * 3 + 7 * (388 ^ 3 * 27)) + 66 * (388 * 243))%Z.
Definition dz : Z := (8 * 388 ^ 6 + 60 * (388 ^ 4 * 9) + 90 * (388 ^ 2 * 81) + 15 * 729)%Z.
Lemma nz_spec : N5 (388 / 3) = IZR nz / 5832. Proof. unfold N5. transitivity ((8 * (388 ^ 5 * 3 + 7 * (388 ^ 3 * 27)) + 66 * (388 * 243)) / 5832); [field|]. rewrite !pow_IZR, <- !mult_IZR, <- ?plus_IZR, <- !mult_IZR, <- !plus_IZR. reflexivity. Qed.
Lemma dz_spec : D5 (388 / 3) = IZR dz / 5832. Proof. unfold D5. transitivity ((8 * 388 ^ 6 + 60 * (388 ^ 4 * 9) + 90 * (388 ^ 2 * 81) + 15 * 729) / 5832); [field|]. rewrite !pow_IZR, <- !mult_IZR, <- !plus_IZR. reflexivity. Qed.
Definition acheck (a : Z) : bool :=
  ((Z.abs (a * dz - B0 * nz) + nz) * (10 ^ 24) <=? (B0 - 1) * nz)%Z.
Lemma anchor_checked : match wit with q :: _ => acheck (atm1 q) | [] => false end = true.
Proof. vm_compute. reflexivity. Qed.
Lemma anchor_eps : 45 / 4 / (D5 (388 / 3) * D5 (388 / 3)) <= 6 / 10 ^ 25.
Proof.
  rewrite dz_spec. assert (E : IZR (45 * 5832 * 5832 * 10 ^ 25) <= IZR (24 * dz * dz)) by (apply IZR_le; vm_compute; discriminate).
  rewrite !mult_IZR in E. replace (IZR (10 ^ 25)) with (10 ^ 25) in E by (rewrite pow_IZR; reflexivity).
  assert (D : 0 < IZR dz) by (apply IZR_lt; reflexivity). assert (T : 0 < 10 ^ 25) by (apply pow_lt; lra).
  set (d := IZR dz) in *. clearbody d. set (w := 10 ^ 25) in *. clearbody w.
  assert (0 < d * d) by nra. 
  apply (Rmult_le_reg_r (4 * w * (d * d))); [nra|].
  replace (45 / 4 / (d / 5832 * (d / 5832)) * (4 * w * (d * d))) with (45 * 5832 * 5832 * w) by (field; lra).
  replace (6 / w * (4 * w * (d * d))) with (24 * d * d) by (field; lra). exact E.
Qed.
Lemma anchor_lemma (a s b b0 n d w g f e : R) : 0 < s -> 0 < n -> 0 < d -> 0 < w -> Rabs (s * b - b0) <= 1 -> g = b * (n / 5832) / (d / 5832) ->
  (Rabs (a * d - b0 * n) + n) * w <= (b0 - 1) * n -> 0 <= f -> (1 - e) * f <= g <= f -> e <= 6 / (10 * w) ->
  Rabs (a / s - f) <= 16 / 10 * / w * f.
Proof.
  intros Hs Hn Hd Hw HB -> C Hf [G1 G2] He.
  assert (E : b * (n / 5832) / (d / 5832) = b * n / d) by (field; lra). rewrite E in *.
  assert (P : 0 < / (s * d)) by (apply Rinv_0_lt_compat; nra).
  assert (A : Rabs (a / s - b * n / d) <= / w * (b * n / d)).
  { replace (a / s - b * n / d) with (((a * d - b0 * n) - (s * b - b0) * n) * / (s * d)) by (field; lra).
    rewrite Rabs_mult, (Rabs_right (/ (s * d))) by lra.
    apply Rle_trans with ((Rabs (a * d - b0 * n) + n) * / (s * d)).
    - apply Rmult_le_compat_r; [lra|]. eapply Rle_trans; [apply Rabs_triang|]. rewrite Rabs_Ropp, Rabs_mult, (Rabs_right n) by lra. nra.
    - replace (/ w * (b * n / d)) with (s * b * n * / w * / (s * d)) by (field; lra).
      apply Rmult_le_compat_r; [lra|]. apply (Rmult_le_reg_r w); [lra|].
      replace (s * b * n * / w * w) with (s * b * n) by (field; lra).
      apply Rabs_le_between in HB. nra. }
  assert (F : Rabs (b * n / d - f) <= 6 / (10 * w) * f). { apply Rabs_le. nra. }
  replace (a / s - f) with ((a / s - b * n / d) + (b * n / d - f)) by ring.
  eapply Rle_trans; [apply Rabs_triang|].
  assert (P4 : 0 < / w) by (apply Rinv_0_lt_compat; lra).
  replace (6 / (10 * w)) with (/ w * 6 / 10) in F by (field; lra).
  assert (/ w * (b * n / d) <= / w * f) by (apply Rmult_le_compat_l; lra). nra.
Qed.
Lemma anchor : match wit with q :: _ =>
  Rabs (IZR (atm1 q) / IZR SW - erfcxR (400 / 3 - 4)) <= 16 / 10 * / 10 ^ 24 * erfcxR (400 / 3 - 4) | [] => False end.
Proof.
  pose proof anchor_checked as C. destruct wit as [|q l]; [discriminate|]. replace (400 / 3 - 4) with (388 / 3) by field.
  unfold acheck in C. apply Z.leb_le in C. apply IZR_le in C. rewrite !mult_IZR, plus_IZR, abs_IZR, !minus_IZR, !mult_IZR in C.
  replace (IZR (10 ^ 24)) with (10 ^ 24) in C by (rewrite pow_IZR; reflexivity).
  pose proof anchor_eps as E.
  apply (anchor_lemma (IZR (atm1 q)) (IZR SW) B (IZR B0) (IZR nz) (IZR dz) (10 ^ 24) (g5 (388 / 3)) _ (45 / 4 / (D5 (388 / 3) * D5 (388 / 3)))).
  - apply SW_pos.
  - apply IZR_lt; reflexivity.
  - apply IZR_lt; reflexivity.
  - apply pow_lt; lra.
  - apply B_B0.
  - unfold g5. rewrite nz_spec, dz_spec. reflexivity.
  - exact C.
  - left; apply erfcxR_pos.
  - apply g5_bounds; [lra|]. eapply Rle_trans; [exact E|]. lra.
  - eapply Rle_trans; [exact E|]. right. field. 
Qed.
Lemma witness_acc i q x : nth_error wit i = Some q -> in_cell (3 + Z.of_nat i) x -> Rabs (gq (3 + Z.of_nat i) q x - erfcxR x) <= 2 / 10 ^ 24 * erfcxR x.
Proof.
  pose proof wit_checked as C. pose proof anchor as A. assert (L : length wit = 97%nat) by (vm_compute; reflexivity).
  destruct wit as [|q0 l]; [discriminate|]. apply andb_prop in C. destruct C as [C _]. apply andb_prop in C. destruct C as [C0 C].
  injection L as L. intros Hi I.
  assert (T : 0 < / 10 ^ 24) by (apply Rinv_0_lt_compat, pow_lt; lra).
  assert (A0 : forall x, in_cell 3 x -> Rabs (gq 3 q0 x - erfcxR x) <= 16 / 10 * / 10 ^ 24 * erfcxR x).
  { apply cell_acc; [lia|exact C0|lra|exact A]. }
  destruct i as [|i].
  - injection Hi as <-. eapply Rle_trans; [apply A0; exact I|]. apply Rmult_le_compat_r; [left; apply erfcxR_pos|lra].
  - cbn [nth_error] in Hi. replace (3 + Z.of_nat (S i))%Z with (4 + Z.of_nat i)%Z in * by lia.
    eapply Rle_trans; [apply (chain l 4 q0 (16 / 10 * / 10 ^ 24)); [lia|rewrite L; cbn; lia|exact C|lra| | |exact Hi|exact I]|].
    + rewrite L, INR_IZR_INZ. change (Z.of_nat 96) with 96%Z. lra.
    + assert (IC : in_cell 3 (400 / 4 - 4)) by (unfold in_cell; lra).
      specialize (A0 _ IC). unfold gq in A0. replace (800 / (4 + (400 / 4 - 4)) - (2 * 3 + 1)) with 1 in A0 by field. rewrite pev_1 in A0. exact A0.
    + apply Rmult_le_compat_r; [left; apply erfcxR_pos|]. rewrite L, INR_IZR_INZ. change (Z.of_nat 96) with 96%Z. lra.
Qed.

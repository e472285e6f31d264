(** * P_Log1pF: the double-double arithmetic of log1p in IEEE double precision (C50) *)
From Coq Require Import ZArith Reals List Bool Lia Lra.
From Flocq Require Import Core BinarySingleNaN Relative Plus_error Mult_error Sterbenz Pff.Pff2Flocq.
From Verif Require Import CSem Num NumP NumF M_Log1p S_Log1p.
Open Scope R_scope.


#[local] Instance p53 : Prec_gt_0 53 := eq_refl.
#[local] Instance v53 : Valid_exp fexp64 := FLT_exp_valid _ _.
#[local] Instance m53 : Monotone_exp fexp64 := FLT_exp_monotone _ _.
#[local] Instance p26 : Prec_gt_0 26 := eq_refl.
#[local] Instance v26 : Valid_exp (FLT_exp (-1074) 26) := FLT_exp_valid _ _.

Lemma rn_opp x : rn (- x) = - rn x.
Proof. apply round_NE_opp. Qed.
Lemma rn_format x : format (rn x).
Proof. apply generic_format_round; typeclasses eauto. Qed.
Lemma rn_id x : format x -> rn x = x.
Proof. intros H. apply round_generic; [typeclasses eauto|exact H]. Qed.
Lemma rn_0 : rn 0 = 0. Proof. apply round_0. typeclasses eauto. Qed.
Lemma rn_abs_le x e : (-1074 <= e)%Z -> Rabs x <= pow2 e -> Rabs (rn x) <= pow2 e.
Proof.
  intros He H. apply abs_round_le_generic; [typeclasses eauto|typeclasses eauto| |exact H].
  apply generic_format_bpow. unfold FLT_exp. lia.
Qed.
(** rounding error *)
Lemma rn_err x : exists d, Rabs d <= pow2 (-53) * Rabs x + pow2 (-1075) /\ rn x = x + d.
Proof.
  exists (rn x - x). split; [|ring].
  destruct (error_N_FLT radix2 (-1074) 53 ltac:(reflexivity) (fun t => negb (Z.even t)) x) as (eps & eta & He & Hn & _ & E).
  change (rn x) with (round radix2 fexp64 (Znearest (fun t => negb (Z.even t))) x). rewrite E.
  replace (x * (1 + eps) + eta - x) with (x * eps + eta) by ring.
  eapply Rle_trans; [apply Rabs_triang|]. rewrite Rabs_mult.
  assert (E1 : / 2 * bpow radix2 (- (53) + 1) = pow2 (-53)).
  { change (- (53) + 1)%Z with (-53 + 1)%Z. rewrite bpow_plus. change (bpow radix2 1) with 2. field. }
  assert (E2 : / 2 * bpow radix2 (-1074) = pow2 (-1075)).
  { change (-1074)%Z with (-1075 + 1)%Z. rewrite bpow_plus. change (bpow radix2 1) with 2. field. }
  rewrite E1 in He. rewrite E2 in Hn. pose proof (Rabs_pos x). apply Rplus_le_compat; [|exact Hn].
  rewrite Rmult_comm. now apply Rmult_le_compat_r.
Qed.
Lemma rn_err_le x b : Rabs x <= b -> Rabs (rn x - x) <= pow2 (-53) * b + pow2 (-1075).
Proof.
  intros H. destruct (rn_err x) as (d & Hd & ->). replace (x + d - x) with d by ring.
  pose proof (bpow_gt_0 radix2 (-53)). nra.
Qed.

(** ** error-free sums *)
Lemma even_sym : forall z, negb (Z.even z) = negb (negb (Z.even (- (z + 1)))).
Proof. intros z. rewrite Z.even_opp, Z.even_add. cbn. destruct (Z.even z); reflexivity. Qed.
Lemma two_sum_R x y : format x -> format y ->
  let s := rn (x + y) in let v := rn (s - x) in
  s + rn (rn (x - rn (s - v)) + rn (y - v)) = x + y.
Proof.
  intros Fx Fy. cbv zeta.
  apply (TwoSum_correct (-1074) 53 (fun t => negb (Z.even t))); auto; try lia.
  exact even_sym.
Qed.
Lemma quick_R x y : format x -> format y -> Rabs y <= Rabs x \/ x = 0 ->
  rn (x + y) + rn (y - rn (rn (x + y) - x)) = x + y.
Proof.
  intros Fx Fy [H| ->].
  - pose proof (Fast2Sum_correct (-1074) 53 (fun t => negb (Z.even t)) ltac:(lia) ltac:(lia) even_sym x y Fx Fy H) as Q.
    rewrite <- Q at 3. f_equal. f_equal. unfold Rminus at 1. f_equal.
    rewrite <- rn_opp. f_equal. ring.
  - rewrite Rplus_0_l, (rn_id y Fy), Rminus_0_r, (rn_id y Fy), Rminus_diag_eq by reflexivity. rewrite rn_0. ring.
Qed.

(** ** multiples of a power of two *)
Definition multiple (e : Z) (x : R) : Prop := exists n : Z, x = IZR n * pow2 e.
Lemma multiple_le e e' x : (e' <= e)%Z -> multiple e x -> multiple e' x.
Proof.
  intros H [n ->]. exists (n * 2 ^ (e - e'))%Z. rewrite mult_IZR.
  change 2%Z with (radix_val radix2). rewrite IZR_Zpower by lia. rewrite Rmult_assoc, <- bpow_plus. do 2 f_equal. lia.
Qed.
Lemma multiple_plus e x y : multiple e x -> multiple e y -> multiple e (x + y).
Proof. intros [n ->] [k ->]. exists (n + k)%Z. rewrite plus_IZR. ring. Qed.
Lemma multiple_opp e x : multiple e x -> multiple e (- x).
Proof. intros [n ->]. exists (- n)%Z. rewrite opp_IZR. ring. Qed.
Lemma multiple_minus e x y : multiple e x -> multiple e y -> multiple e (x - y).
Proof. intros H K. apply multiple_plus; [exact H|now apply multiple_opp]. Qed.
Lemma multiple_mult e e' x y : multiple e x -> multiple e' y -> multiple (e + e') (x * y).
Proof. intros [n ->] [k ->]. exists (n * k)%Z. rewrite mult_IZR, bpow_plus. ring. Qed.
Lemma multiple_format e x : (-1074 <= e)%Z -> multiple e x -> Rabs x <= pow2 (e + 53) -> format x.
Proof.
  intros He [n ->] H. destruct (Z_lt_le_dec (Z.abs n) (2 ^ 53)) as [L|L].
  - apply generic_format_FLT. exists (Float radix2 n e); [reflexivity|exact L|exact He].
  - rewrite Rabs_mult, (Rabs_right (pow2 e)) in H by (apply Rle_ge, bpow_ge_0).
    rewrite Z.add_comm, bpow_plus in H. apply Rmult_le_reg_r in H; [|apply bpow_gt_0].
    rewrite <- abs_IZR in H. change (pow2 53) with (IZR (2 ^ 53)) in H. apply le_IZR in H.
    assert (Q : Z.abs n = (2 ^ 53)%Z) by lia.
    assert (G : format (IZR (2 ^ 53) * pow2 e)).
    { change (IZR (2 ^ 53)) with (pow2 53). rewrite <- bpow_plus. apply generic_format_bpow. unfold FLT_exp. lia. }
    destruct (Z.abs_spec n) as [[_ E]|[_ E]]; rewrite E in Q.
    + now rewrite Q.
    + replace n with (- (2 ^ 53))%Z by lia. rewrite opp_IZR, Ropp_mult_distr_l_reverse. now apply generic_format_opp.
Qed.
(** a number of [p] bits below 2^E is a multiple of 2^(E-p) *)
Lemma format_multiple p emin x E : Prec_gt_0 p -> generic_format radix2 (FLT_exp emin p) x ->
  pow2 (E - 1) <= Rabs x -> (emin <= E - p)%Z -> multiple (E - p) x.
Proof.
  intros Hp F HE Hm. rewrite F. unfold F2R. cbn.
  assert (M : (E <= mag radix2 x)%Z) by (apply mag_ge_bpow; exact HE).
  apply multiple_le with (cexp radix2 (FLT_exp emin p) x).
  - unfold cexp, FLT_exp. lia.
  - eexists. reflexivity.
Qed.

(** ** Veltkamp's splitting and the square *)
Definition hi (x : R) : R := let p := rn (IZR (2 ^ 27 + 1) * x) in rn (p - rn (p - x)).
Lemma split_R x : format x ->
  (exists choice, hi x = round radix2 (FLT_exp (-1074) 26) (Znearest choice) x) /\ rn (x - hi x) = x - hi x.
Proof.
  intros Fx.
  assert (E : hi x = rn (rn (x - rn (x * (pow2 27 + 1))) + rn (x * (pow2 27 + 1)))).
  { unfold hi. replace (IZR (2 ^ 27 + 1) * x) with (x * (pow2 27 + 1)).
    2:{ change (pow2 27) with (IZR (2 ^ 27)). rewrite plus_IZR. ring. }
    set (p := rn (x * _)). f_equal. rewrite Rplus_comm. unfold Rminus at 1. f_equal. rewrite <- rn_opp. f_equal. ring. }
  split.
  - destruct (Veltkamp radix2 (-1074) 53 (fun t => negb (Z.even t)) 27 ltac:(lia) ltac:(lia) ltac:(lia) ltac:(lia) x Fx) as [c Hc].
    exists c. rewrite E. exact Hc.
  - destruct (Veltkamp_tail radix2 (-1074) 53 (fun t => negb (Z.even t)) 27 ltac:(lia) ltac:(lia) ltac:(lia) ltac:(lia) x Fx) as [H _].
    rewrite E. set (h := rn (rn _ + _)) in *. lra.
Qed.

Definition sq_lower (x : R) : R :=
  let u := rn (x * x) in let h := hi x in let l := rn (x - h) in
  rn (rn (rn (rn (h * h) - u) + rn (rn (2 * h) * l)) + rn (l * l)).

Lemma pow2_double e : pow2 (e + 1) = 2 * pow2 e.
Proof. rewrite bpow_plus. change (pow2 1) with 2. ring. Qed.
Lemma pow2_mult a b : pow2 a * pow2 b = pow2 (a + b).
Proof. symmetry. apply bpow_plus. Qed.

Lemma square_exact_R x : format x -> pow2 (-485) <= Rabs x <= pow2 500 -> rn (x * x) + sq_lower x = x * x.
Proof.
  intros Fx [Lo Hi].
  assert (Nx : x <> 0). { intros ->. rewrite Rabs_R0 in Lo. pose proof (bpow_gt_0 radix2 (-485)). lra. }
  set (E := mag_val radix2 x (mag radix2 x)).
  assert (B1 : pow2 (E - 1) <= Rabs x) by (apply bpow_mag_le; exact Nx).
  assert (B2 : Rabs x < pow2 E) by apply bpow_mag_gt.
  assert (HE : (-484 <= E)%Z) by (apply mag_ge_bpow; exact Lo).
  destruct (split_R x Fx) as [[c Hh] Hl]. unfold sq_lower. rewrite Hl. set (h := hi x) in *.
  assert (Mx : multiple (E - 53) x) by (apply (format_multiple 53 (-1074)); [exact p53|exact Fx|exact B1|lia]).
  (* h *)
  assert (Fh : generic_format radix2 (FLT_exp (-1074) 26) h).
  { rewrite Hh. apply generic_format_round; [exact v26|typeclasses eauto]. }
  assert (Hlow : pow2 (E - 1) <= Rabs h).
  { rewrite Hh. apply abs_round_ge_generic; [exact v26|typeclasses eauto| |exact B1].
    apply generic_format_bpow. unfold FLT_exp. lia. }
  assert (Hhi : Rabs h <= pow2 E).
  { rewrite Hh. apply abs_round_le_generic; [exact v26|typeclasses eauto| |now apply Rlt_le].
    apply generic_format_bpow. unfold FLT_exp. lia. }
  assert (Mh : multiple (E - 26) h) by (apply (format_multiple 26 (-1074)); [exact p26|exact Fh|exact Hlow|lia]).
  (* l *)
  set (l := x - h) in *.
  assert (Ml : multiple (E - 53) l).
  { apply multiple_minus; [exact Mx|]. apply multiple_le with (E - 26)%Z; [lia|exact Mh]. }
  assert (Bl : Rabs l <= pow2 (E - 27)).
  { unfold l. rewrite <- Rabs_Ropp, Ropp_minus_distr. rewrite Hh.
    eapply Rle_trans; [apply error_le_half_ulp; exact v26|].
    rewrite ulp_neq_0 by exact Nx. unfold cexp, FLT_exp. fold E. rewrite Z.max_l by lia.
    replace (E - 26)%Z with (E - 27 + 1)%Z by lia. rewrite pow2_double. lra. }
  set (u := rn (x * x)).
  (* u *)
  assert (Bxx : pow2 (2 * E - 2) <= x * x < pow2 (2 * E)).
  { rewrite <- (Rabs_right (x * x)) by (apply Rle_ge, Rle_0_sqr). rewrite Rabs_mult.
    replace (2 * E - 2)%Z with ((E - 1) + (E - 1))%Z by lia. replace (2 * E)%Z with (E + E)%Z by lia.
    rewrite !bpow_plus. pose proof (bpow_ge_0 radix2 (E - 1)). pose proof (Rabs_pos x). split.
    - apply Rmult_le_compat; lra.
    - apply Rmult_le_0_lt_compat; lra. }
  assert (Bu : pow2 (2 * E - 2) <= Rabs u).
  { unfold u. apply abs_round_ge_generic; [typeclasses eauto|typeclasses eauto| |].
    - apply generic_format_bpow. unfold FLT_exp. lia.
    - rewrite Rabs_right; [apply Bxx|apply Rle_ge, Rle_0_sqr]. }
  assert (Mu : multiple (2 * E - 54) u).
  { replace (2 * E - 54)%Z with ((2 * E - 1) - 53)%Z by lia. apply (format_multiple 53 (-1074)); [exact p53|apply rn_format| |lia].
    replace (2 * E - 1 - 1)%Z with (2 * E - 2)%Z by lia. exact Bu. }
  assert (Eu : Rabs (x * x - u) <= pow2 (2 * E - 54)).
  { unfold u. rewrite <- Rabs_Ropp, Ropp_minus_distr. eapply Rle_trans; [apply error_le_half_ulp; typeclasses eauto|].
    assert (Nxx : x * x <> 0) by (pose proof (bpow_gt_0 radix2 (2 * E - 2)); lra).
    rewrite ulp_neq_0 by exact Nxx.
    assert (mag radix2 (x * x) <= 2 * E)%Z.
    { apply mag_le_bpow; [exact Nxx|]. rewrite Rabs_right by (apply Rle_ge, Rle_0_sqr). apply Bxx. }
    assert (pow2 (cexp radix2 fexp64 (x * x)) <= pow2 (2 * E - 53)) by (apply bpow_le; unfold cexp, FLT_exp; lia).
    replace (2 * E - 53)%Z with (2 * E - 54 + 1)%Z in * by lia. rewrite pow2_double in *. lra. }
  (* products *)
  assert (Bhl : Rabs (h * l) <= pow2 (2 * E - 27)).
  { rewrite Rabs_mult. replace (2 * E - 27)%Z with (E + (E - 27))%Z by lia. rewrite bpow_plus.
    apply Rmult_le_compat; auto using Rabs_pos. }
  assert (Bll : Rabs (l * l) <= pow2 (2 * E - 54)).
  { rewrite Rabs_mult. replace (2 * E - 54)%Z with ((E - 27) + (E - 27))%Z by lia. rewrite bpow_plus.
    apply Rmult_le_compat; auto using Rabs_pos. }
  assert (Phh : rn (h * h) = h * h).
  { apply rn_id. apply (multiple_format (2 * E - 52)); [lia| |].
    - replace (2 * E - 52)%Z with ((E - 26) + (E - 26))%Z by lia. now apply multiple_mult.
    - rewrite Rabs_mult. eapply Rle_trans; [apply Rmult_le_compat; [apply Rabs_pos|apply Rabs_pos|exact Hhi|exact Hhi]|].
      rewrite pow2_mult. apply bpow_le. lia. }
  assert (P2h : rn (2 * h) = 2 * h).
  { apply rn_id. apply (multiple_format (E - 25)); [lia| |].
    - replace (E - 25)%Z with (1 + (E - 26))%Z by lia. apply multiple_mult; [|exact Mh]. exists 1%Z. change (pow2 1) with 2. ring.
    - rewrite Rabs_mult, (Rabs_right 2) by lra. replace (E - 25 + 53)%Z with ((E + 27) + 1)%Z by lia. rewrite pow2_double.
      assert (pow2 E <= pow2 (E + 27)) by (apply bpow_le; lia). lra. }
  assert (M2hl : multiple (2 * E - 78) (2 * h * l)).
  { replace (2 * E - 78)%Z with (1 + (E - 26) + (E - 53))%Z by lia. apply multiple_mult; [|exact Ml].
    apply multiple_mult; [|exact Mh]. exists 1%Z. change (pow2 1) with 2. ring. }
  assert (P2hl : rn (2 * h * l) = 2 * h * l).
  { apply rn_id. apply (multiple_format (2 * E - 78)); [lia|exact M2hl|].
    replace (2 * h * l) with (2 * (h * l)) by ring. rewrite Rabs_mult, (Rabs_right 2) by lra.
    replace (2 * E - 78 + 53)%Z with ((2 * E - 26) + 1)%Z by lia. rewrite pow2_double.
    assert (pow2 (2 * E - 27) <= pow2 (2 * E - 26)) by (apply bpow_le; lia). lra. }
  assert (Pll : rn (l * l) = l * l).
  { apply rn_id. apply (multiple_format (2 * E - 106)); [lia| |].
    - replace (2 * E - 106)%Z with ((E - 53) + (E - 53))%Z by lia. now apply multiple_mult.
    - eapply Rle_trans; [exact Bll|]. apply bpow_le. lia. }
  rewrite Phh, P2h, P2hl, Pll.
  (* sums *)
  assert (T1 : rn (h * h - u) = h * h - u).
  { apply rn_id. apply (multiple_format (2 * E - 54)); [lia| |].
    - apply multiple_minus; [|exact Mu]. apply multiple_le with (2 * E - 52)%Z; [lia|].
      replace (2 * E - 52)%Z with ((E - 26) + (E - 26))%Z by lia. now apply multiple_mult.
    - replace (h * h - u) with ((x * x - u) + (- (2 * (h * l)) + - (l * l))) by (unfold l; ring).
      eapply Rle_trans; [apply Rabs_triang|]. eapply Rle_trans; [apply Rplus_le_compat_l, Rabs_triang|].
      rewrite !Rabs_Ropp, Rabs_mult, (Rabs_right 2) by lra.
      assert (pow2 (2 * E - 54) <= pow2 (2 * E - 27)) by (apply bpow_le; lia).
      assert (G : 4 * pow2 (2 * E - 27) <= pow2 (2 * E - 54 + 53)).
      { replace 4 with (pow2 2) by (cbn; lra). rewrite pow2_mult. apply bpow_le. lia. }
      lra. }
  rewrite T1.
  assert (T2 : rn (h * h - u + 2 * h * l) = h * h - u + 2 * h * l).
  { apply rn_id. apply (multiple_format (2 * E - 78)); [lia| |].
    - apply multiple_plus; [|exact M2hl]. apply multiple_minus.
      + apply multiple_le with (2 * E - 52)%Z; [lia|]. replace (2 * E - 52)%Z with ((E - 26) + (E - 26))%Z by lia. now apply multiple_mult.
      + apply multiple_le with (2 * E - 54)%Z; [lia|exact Mu].
    - replace (h * h - u + 2 * h * l) with ((x * x - u) + - (l * l)) by (unfold l; ring).
      eapply Rle_trans; [apply Rabs_triang|]. rewrite Rabs_Ropp.
      assert (G : 2 * pow2 (2 * E - 54) <= pow2 (2 * E - 78 + 53)).
      { replace 2 with (pow2 1) by reflexivity. rewrite pow2_mult. apply bpow_le. lia. }
      lra. }
  rewrite T2.
  assert (T3 : rn (h * h - u + 2 * h * l + l * l) = h * h - u + 2 * h * l + l * l).
  { replace (h * h - u + 2 * h * l + l * l) with (x * x - u) by (unfold l; ring).
    apply rn_id. apply (multiple_format (2 * E - 106)); [lia| |].
    - apply multiple_minus; [replace (2 * E - 106)%Z with ((E - 53) + (E - 53))%Z by lia; now apply multiple_mult|].
      apply multiple_le with (2 * E - 54)%Z; [lia|exact Mu].
    - eapply Rle_trans; [exact Eu|]. apply bpow_le. lia. }
  rewrite T3. unfold l. ring.
Qed.

Definition kappa := pow2 (-900).
Lemma rn_le_k x k : (-1074 <= k)%Z -> Rabs x <= pow2 k -> Rabs (rn x) <= pow2 k.
Proof. apply rn_abs_le. Qed.
Lemma abs_plus_k a b k : Rabs a <= pow2 k -> Rabs b <= pow2 k -> Rabs (a + b) <= pow2 (k + 1).
Proof. intros H K. rewrite pow2_double. eapply Rle_trans; [apply Rabs_triang|]. lra. Qed.
Lemma abs_minus_k a b k : Rabs a <= pow2 k -> Rabs b <= pow2 k -> Rabs (a - b) <= pow2 (k + 1).
Proof. intros H K. apply abs_plus_k; [exact H|now rewrite Rabs_Ropp]. Qed.
Lemma abs_mult_k a b k j : Rabs a <= pow2 k -> Rabs b <= pow2 j -> Rabs (a * b) <= pow2 (k + j).
Proof. intros H K. rewrite Rabs_mult, bpow_plus. apply Rmult_le_compat; auto using Rabs_pos. Qed.
Lemma abs_le_k a k j : Rabs a <= pow2 k -> (k <= j)%Z -> Rabs a <= pow2 j.
Proof. intros H K. eapply Rle_trans; [exact H|now apply bpow_le]. Qed.

Lemma sq_lower_format x : format (sq_lower x). Proof. apply rn_format. Qed.

Lemma square_R x : format x -> Rabs x <= 4 ->
  Rabs (rn (x * x)) <= 16 /\ Rabs (sq_lower x) <= 16 * pow2 (-53) + kappa /\
  Rabs (rn (x * x) + sq_lower x - x * x) <= kappa.
Proof.
  intros Fx Hx.
  assert (B : Rabs (x * x) <= pow2 4).
  { replace 4%Z with (2 + 2)%Z by reflexivity. apply abs_mult_k; cbn; lra. }
  assert (U : Rabs (rn (x * x)) <= pow2 4) by (apply rn_le_k; [lia|exact B]).
  split; [cbn in U; lra|].
  assert (K : 0 < kappa) by apply bpow_gt_0. assert (P53 : 0 < pow2 (-53)) by apply bpow_gt_0.
  assert (K1 : pow2 (-1075) <= kappa) by (apply bpow_le; lia).
  destruct (Rle_or_lt (pow2 (-485)) (Rabs x)) as [Big|Small].
  - assert (E := square_exact_R x Fx).
    assert (Rabs x <= pow2 500) by (apply Rle_trans with (pow2 2); [cbn; lra|apply bpow_le; lia]).
    specialize (E (conj Big H)). split.
    + replace (sq_lower x) with (- (rn (x * x) - x * x)) by lra. rewrite Rabs_Ropp.
      assert (Q := rn_err_le (x * x) 16). cbn in B. specialize (Q ltac:(lra)). lra.
    + rewrite E, Rminus_diag_eq by reflexivity. rewrite Rabs_R0. lra.
  - assert (Hs : Rabs x <= pow2 (-485)) by lra.
    assert (Sxx : Rabs (x * x) <= pow2 (-908)) by (apply abs_le_k with (-485 + -485)%Z; [now apply abs_mult_k|lia]).
    assert (SU : Rabs (rn (x * x)) <= pow2 (-908)) by (apply rn_le_k; [lia|exact Sxx]).
    assert (C : Rabs (IZR (2 ^ 27 + 1)) <= pow2 28) by (rewrite Rabs_right; [cbn; lra|cbn; lra]).
    assert (Bp : Rabs (rn (IZR (2 ^ 27 + 1) * x)) <= pow2 (-457)).
    { apply rn_le_k; [lia|]. apply abs_le_k with (28 + -485)%Z; [now apply abs_mult_k|lia]. }
    assert (Bh : Rabs (hi x) <= pow2 (-455)).
    { unfold hi. set (p := rn (IZR _ * x)) in *. apply rn_le_k; [lia|]. change (-455)%Z with (-456 + 1)%Z.
      apply abs_minus_k; [now apply abs_le_k with (-457)%Z; [|lia]|]. apply rn_le_k; [lia|]. change (-456)%Z with (-457 + 1)%Z.
      apply abs_minus_k; [exact Bp|]. now apply abs_le_k with (-485)%Z; [|lia]. }
    assert (Bl : Rabs (rn (x - hi x)) <= pow2 (-454)).
    { apply rn_le_k; [lia|]. change (-454)%Z with (-455 + 1)%Z. apply abs_minus_k; [|exact Bh]. now apply abs_le_k with (-485)%Z; [|lia]. }
    assert (BL : Rabs (sq_lower x) <= pow2 (-906)).
    { unfold sq_lower. set (l := rn (x - hi x)) in *. set (h := hi x) in *. apply rn_le_k; [lia|]. change (-906)%Z with (-907 + 1)%Z.
      apply abs_plus_k.
      - apply rn_le_k; [lia|]. change (-907)%Z with (-908 + 1)%Z. apply abs_plus_k.
        + apply rn_le_k; [lia|]. change (-908)%Z with (-909 + 1)%Z. apply abs_minus_k.
          * apply rn_le_k; [lia|]. apply abs_le_k with (-455 + -455)%Z; [now apply abs_mult_k|lia].
          * apply abs_le_k with (-970)%Z; [|lia]. apply rn_le_k; [lia|]. change (-970)%Z with (-485 + -485)%Z. now apply abs_mult_k.
        + apply rn_le_k; [lia|]. apply abs_le_k with (-454 + -454)%Z; [|lia]. apply abs_mult_k; [|exact Bl].
          apply rn_le_k; [lia|]. change (-454)%Z with (1 + -455)%Z. apply abs_mult_k; [cbn; rewrite Rabs_right; lra|exact Bh].
      - apply rn_le_k; [lia|]. apply abs_le_k with (-454 + -454)%Z; [now apply abs_mult_k|lia]. }
    assert (G : 8 * pow2 (-906) <= kappa).
    { replace 8 with (pow2 3) by (cbn; lra). rewrite pow2_mult. apply bpow_le. lia. }
    assert (G2 : pow2 (-908) <= pow2 (-906)) by (apply bpow_le; lia).
    assert (0 < pow2 (-906)) by apply bpow_gt_0.
    split; [lra|].
    replace (rn (x * x) + sq_lower x - x * x) with ((rn (x * x) + sq_lower x) + - (x * x)) by ring.
    eapply Rle_trans; [apply Rabs_triang|]. rewrite Rabs_Ropp.
    pose proof (Rabs_triang (rn (x * x)) (sq_lower x)). lra.
Qed.

(** ** the real-number image of the computation *)
Definition rarith : arith R :=
  mkArith R IZR (fun x y => rn (x + y)) (fun x y => rn (x - y)) (fun x y => rn (x * y)) (fun x y => rn (x / y))
    Ropp Rabs (fun x => rn (sqrt x)) (fun x y => Some (Rcompare x y)) 0 0 (fun _ => false).

Ltac unabs := repeat match goal with H : Rabs _ <= _ |- _ => apply Rabs_le_inv in H end.

Theorem xsq_error x y : format x -> format y -> Rabs x <= 4 -> Rabs y <= 4 ->
  Rabs (xsquared_plus_2x_plus_ysquared rarith x y - (x * x + 2 * x + y * y))
    <= pow2 (-53) * Rabs (x * x + 2 * x + y * y) + pow2 (-97).
Proof.
  intros Fx Fy Hx Hy.
  destruct (square_R x Fx Hx) as (U1 & L1 & S1). destruct (square_R y Fy Hy) as (U2 & L2 & S2).
  unfold xsquared_plus_2x_plus_ysquared, double_sum, square, split, two_sum, two_sum_quick.
  cbn [rarith a_add a_sub a_mul a_ofZ fst snd].
  change (rn (rn (IZR (2 ^ 27 + 1) * x) - rn (rn (IZR (2 ^ 27 + 1) * x) - x))) with (hi x).
  change (rn (rn (IZR (2 ^ 27 + 1) * y) - rn (rn (IZR (2 ^ 27 + 1) * y) - y))) with (hi y).
  change (rn (rn (rn (rn (hi x * hi x) - rn (x * x)) + rn (rn (2 * hi x) * rn (x - hi x))) + rn (rn (x - hi x) * rn (x - hi x)))) with (sq_lower x).
  change (rn (rn (rn (rn (hi y * hi y) - rn (y * y)) + rn (rn (2 * hi y) * rn (y - hi y))) + rn (rn (y - hi y) * rn (y - hi y)))) with (sq_lower y).
  assert (FU1 := rn_format (x * x)). assert (FU2 := rn_format (y * y)).
  assert (FL1 := sq_lower_format x). assert (FL2 := sq_lower_format y).
  set (u1 := rn (x * x)) in *. set (u2 := rn (y * y)) in *. set (l1 := sq_lower x) in *. set (l2 := sq_lower y) in *.
  clearbody u1 u2 l1 l2.
  assert (F2x : format (2 * x)).
  { apply (mult_bpow_pos_exact_FLT radix2 (-1074) 53 x 1) in Fx; [|lia]. change (pow2 1) with 2 in Fx. now rewrite Rmult_comm. }
  rewrite (rn_id _ F2x). rewrite Rplus_0_r, (rn_id _ FL1).
  pose (u := pow2 (-53)). assert (Hu : 0 < u) by apply bpow_gt_0.
  assert (Hu1 : u <= / 1048576) by (unfold u; replace (/ 1048576) with (pow2 (-20)) by (cbn; lra); apply bpow_le; lia).
  pose (w := u * u). assert (Hw : 0 < w) by (unfold w; nra).
  assert (Hk : 0 < kappa <= w / 1048576).
  { split; [apply bpow_gt_0|]. unfold w, u, kappa. replace (/ 1048576) with (pow2 (-20)) by (cbn; lra).
    replace (pow2 (-53) * pow2 (-53) / 1048576) with (pow2 (-53) * pow2 (-53) * pow2 (-20)) by (cbn; lra).
    rewrite !pow2_mult. apply bpow_le. lia. }
  pose (eta := pow2 (-1075)). assert (He : 0 < eta <= w / 1048576).
  { split; [apply bpow_gt_0|]. assert (eta <= kappa) by (apply bpow_le; lia). lra. }
  assert (Hwu : w <= u / 1048576) by (unfold w; nra).
  fold u in L1, L2.
  assert (ERR : forall v b, Rabs v <= b -> Rabs (rn v - v) <= u * b + eta) by exact rn_err_le.
  (* first sum *)
  assert (TS1 := two_sum_R u1 (2 * x) FU1 F2x). cbv zeta in TS1. assert (FS := rn_format (u1 + 2 * x)).
  assert (E1 := ERR (u1 + 2 * x) 24). set (s := rn (u1 + 2 * x)) in *.
  set (e := rn (rn (u1 - rn (s - rn (s - u1))) + rn (2 * x - rn (s - u1)))) in *.
  assert (A1 : Rabs (u1 + 2 * x) <= 24).
  { eapply Rle_trans; [apply Rabs_triang|]. rewrite Rabs_mult, (Rabs_right 2) by lra. lra. }
  specialize (E1 A1). clearbody e s.
  assert (Ee : e = - (s - (u1 + 2 * x))) by lra.
  assert (Be : Rabs e <= u * 24 + eta) by (rewrite Ee, Rabs_Ropp; exact E1).
  assert (Bs : Rabs s <= 25) by (unabs; apply Rabs_le; lra).
  (* lower part of the first sum *)
  assert (A2 : Rabs (e + l1) <= 41 * u) by (unabs; apply Rabs_le; lra).
  assert (E2 := ERR _ _ A2). assert (FE := rn_format (e + l1)). set (e' := rn (e + l1)) in *. clearbody e'.
  replace (u * (41 * u)) with (41 * w) in E2 by (unfold w; ring).
  assert (Be' : Rabs e' <= 42 * u) by (unabs; apply Rabs_le; lra).
  (* renormalisation *)
  assert (Q : exists d2, Rabs d2 <= 44 * w /\ rn (s + e') + rn (e' - rn (rn (s + e') - s)) = s + e' + d2).
  { destruct (Rle_or_lt (Rabs e') (Rabs s)) as [C|C].
    - exists 0. rewrite Rabs_R0. split; [lra|]. rewrite quick_R; auto. ring.
    - assert (A : Rabs (s + e') <= 84 * u) by (eapply Rle_trans; [apply Rabs_triang|]; lra).
      assert (X1 := ERR _ _ A). set (r := rn (s + e')) in *. clearbody r.
      replace (u * (84 * u)) with (84 * w) in X1 by (unfold w; ring).
      assert (A' : Rabs (r - s) <= 43 * u) by (unabs; apply Rabs_le; lra).
      assert (X2 := ERR _ _ A'). set (t := rn (r - s)) in *. clearbody t.
      replace (u * (43 * u)) with (43 * w) in X2 by (unfold w; ring).
      assert (A'' : Rabs (e' - t) <= 129 * w) by (unabs; apply Rabs_le; lra).
      assert (X3 := ERR _ _ A''). set (f := rn (e' - t)) in *. clearbody f.
      assert (u * (129 * w) <= w / 2) by nra.
      exists (r + f - (s + e')). split; [|ring]. unabs. apply Rabs_le. lra. }
  destruct Q as (d2 & Bd2 & Q).
  assert (A3 : Rabs (s + e') <= 26) by (unabs; apply Rabs_le; lra).
  assert (E3 := ERR _ _ A3). assert (FR1 := rn_format (s + e')).
  set (r1 := rn (s + e')) in *.
  set (f1 := rn (e' - rn (r1 - s))) in *. clearbody f1 r1.
  assert (Bf1 : Rabs f1 <= 27 * u) by (unabs; apply Rabs_le; lra).
  assert (Br1 : Rabs r1 <= 27) by (unabs; apply Rabs_le; lra).
  (* second sum *)
  assert (TS2 := two_sum_R r1 u2 FR1 FU2). cbv zeta in TS2.
  assert (A4 : Rabs (r1 + u2) <= 43) by (unabs; apply Rabs_le; lra).
  assert (E4 := ERR _ _ A4). set (s2 := rn (r1 + u2)) in *.
  set (e2 := rn (rn (r1 - rn (s2 - rn (s2 - r1))) + rn (u2 - rn (s2 - r1)))) in *. clearbody e2 s2.
  assert (Be2 : Rabs e2 <= 44 * u) by (unabs; apply Rabs_le; lra).
  assert (A5 : Rabs (f1 + l2) <= 44 * u) by (unabs; apply Rabs_le; lra).
  assert (E5 := ERR _ _ A5). set (g := rn (f1 + l2)) in *. clearbody g.
  replace (u * (44 * u)) with (44 * w) in E5 by (unfold w; ring).
  assert (A6 : Rabs (e2 + g) <= 89 * u) by (unabs; apply Rabs_le; lra).
  assert (E6 := ERR _ _ A6). set (e3 := rn (e2 + g)) in *. clearbody e3.
  replace (u * (89 * u)) with (89 * w) in E6 by (unfold w; ring).
  set (V := x * x + 2 * x + y * y).
  assert (D : Rabs (s2 + e3 - V) <= 222 * w) by (unabs; apply Rabs_le; unfold V; lra).
  assert (E7 := ERR (s2 + e3) (Rabs V + 222 * w)).
  assert (A7 : Rabs (s2 + e3) <= Rabs V + 222 * w).
  { replace (s2 + e3) with (V + (s2 + e3 - V)) by ring. eapply Rle_trans; [apply Rabs_triang|]. lra. }
  specialize (E7 A7).
  assert (Hfin : 224 * w <= pow2 (-97)).
  { unfold w, u. rewrite pow2_mult. apply Rle_trans with (pow2 8 * pow2 (-53 + -53)); [apply Rmult_le_compat_r; [apply bpow_ge_0|cbn; lra]|].
    rewrite pow2_mult. apply bpow_le. lia. }
  assert (u * (222 * w) <= w / 2) by nra.
  replace (rn (s2 + e3) - V) with ((rn (s2 + e3) - (s2 + e3)) + (s2 + e3 - V)) by ring.
  eapply Rle_trans; [apply Rabs_triang|]. fold u. fold V. rewrite Rmult_plus_distr_l in E7. lra.
Qed.

(** ** from doubles to their real images *)
Definition rep (k : Z) (f : f64) (r : R) : Prop := is_finite f = true /\ B2R f = r /\ Rabs r <= pow2 k.
Lemma rnd_rn r : rnd f64_prec f64_emax r = rn r. Proof. reflexivity. Qed.

Lemma rep_of_frnd (f : f64) k r : (-1074 <= k <= 1000)%Z -> f2e f64_prec f64_emax f = frnd f64_prec f64_emax r ->
  Rabs r <= pow2 k -> rep k f (rn r).
Proof.
  intros Hk E H. destruct (frnd_small f64_prec f64_emax f64_Hp r k) as [E1 E2]; [unfold f64_prec, f64_emax; lia|exact H|].
  rewrite E1 in E. apply f2e_fin_finite in E. destruct E as [E3 E4]. split; [exact E3|]. rewrite E4. split; [reflexivity|exact E2].
Qed.
Lemma rep_add k j f g r s : rep k f r -> rep j g s -> (-1074 <= Z.max k j + 1 <= 1000)%Z ->
  rep (Z.max k j + 1) (a_add f64_arith f g) (rn (r + s)).
Proof.
  intros (F1 & <- & B1) (F2 & <- & B2) Hk. apply rep_of_frnd; [exact Hk|now apply (f2e_plus _ _ f64_Hp f64_He)|].
  apply abs_plus_k; eapply abs_le_k; eauto; lia.
Qed.
Lemma rep_sub k j f g r s : rep k f r -> rep j g s -> (-1074 <= Z.max k j + 1 <= 1000)%Z ->
  rep (Z.max k j + 1) (a_sub f64_arith f g) (rn (r - s)).
Proof.
  intros (F1 & <- & B1) (F2 & <- & B2) Hk. apply rep_of_frnd; [exact Hk|now apply (f2e_minus _ _ f64_Hp f64_He)|].
  apply abs_minus_k; eapply abs_le_k; eauto; lia.
Qed.
Lemma rep_mul k j f g r s : rep k f r -> rep j g s -> (-1074 <= k + j <= 1000)%Z ->
  rep (k + j) (a_mul f64_arith f g) (rn (r * s)).
Proof.
  intros (F1 & <- & B1) (F2 & <- & B2) Hk. apply rep_of_frnd; [exact Hk|now apply (f2e_mult _ _ f64_Hp f64_He)|].
  now apply abs_mult_k.
Qed.
Lemma rep_ofZ z k : (0 <= k <= 53)%Z -> (Z.abs z <= 2 ^ k)%Z -> rep k (a_ofZ f64_arith z) (IZR z).
Proof.
  intros Hk Hz. assert (B : Rabs (IZR z) <= pow2 k).
  { rewrite <- abs_IZR, <- IZR_Zpower by lia. now apply IZR_le. }
  replace (IZR z) with (rn (IZR z)).
  2:{ apply rn_id. apply (multiple_format 0); [lia|exists z; cbn; ring|]. eapply abs_le_k; [exact B|lia]. }
  apply rep_of_frnd; [lia|apply (f2e_ofZ _ _ f64_Hp f64_He)|exact B].
Qed.
Lemma rep_format k f r : rep k f r -> format r.
Proof. intros (_ & <- & _). apply (generic_format_B2R f64_prec f64_emax). Qed.
Lemma rep_weaken k j f r : (k <= j)%Z -> rep k f r -> rep j f r.
Proof. intros H (A & B & C). split; [exact A|]. split; [exact B|]. eapply abs_le_k; eauto. Qed.

Definition rep2 (k : Z) (f : f64 * f64) (r : R * R) : Prop := rep k (fst f) (fst r) /\ rep k (snd f) (snd r).

Lemma rep_two_sum k f g r s : (0 <= k <= 900)%Z -> rep k f r -> rep k g s -> rep2 (k + 5) (two_sum f64_arith f g) (two_sum rarith r s).
Proof.
  intros Hk Hf Hg. unfold two_sum. cbn [rarith a_add a_sub a_mul a_ofZ].
  assert (A := rep_add k k f g r s Hf Hg ltac:(lia)). rewrite Z.max_id in A. set (S := a_add f64_arith f g) in *.
  assert (B := rep_sub _ _ _ _ _ _ A Hf ltac:(lia)). replace (Z.max (k + 1) k + 1)%Z with (k + 2)%Z in B by lia.
  assert (C := rep_sub _ _ _ _ _ _ A B ltac:(lia)). replace (Z.max (k + 1) (k + 2) + 1)%Z with (k + 3)%Z in C by lia.
  assert (D := rep_sub _ _ _ _ _ _ Hf C ltac:(lia)). replace (Z.max k (k + 3) + 1)%Z with (k + 4)%Z in D by lia.
  assert (E := rep_sub _ _ _ _ _ _ Hg B ltac:(lia)). replace (Z.max k (k + 2) + 1)%Z with (k + 3)%Z in E by lia.
  assert (F := rep_add _ _ _ _ _ _ D E ltac:(lia)). replace (Z.max (k + 4) (k + 3) + 1)%Z with (k + 5)%Z in F by lia.
  split; cbn [fst snd]; [|exact F]. apply rep_weaken with (k + 1)%Z; [lia|exact A].
Qed.
Lemma rep_quick k f g r s : (0 <= k <= 900)%Z -> rep k f r -> rep k g s -> rep2 (k + 3) (two_sum_quick f64_arith f g) (two_sum_quick rarith r s).
Proof.
  intros Hk Hf Hg. unfold two_sum_quick. cbn [rarith a_add a_sub a_mul a_ofZ].
  assert (A := rep_add k k f g r s Hf Hg ltac:(lia)). rewrite Z.max_id in A.
  assert (B := rep_sub _ _ _ _ _ _ A Hf ltac:(lia)). replace (Z.max (k + 1) k + 1)%Z with (k + 2)%Z in B by lia.
  assert (C := rep_sub _ _ _ _ _ _ Hg B ltac:(lia)). replace (Z.max k (k + 2) + 1)%Z with (k + 3)%Z in C by lia.
  split; cbn [fst snd]; [|exact C]. apply rep_weaken with (k + 1)%Z; [lia|exact A].
Qed.
Lemma rep_double_sum k x y rx ry : (0 <= k <= 800)%Z -> rep2 k x rx -> rep2 k y ry ->
  rep2 (k + 10) (double_sum f64_arith x y) (double_sum rarith rx ry).
Proof.
  intros Hk [X1 X2] [Y1 Y2]. unfold double_sum. destruct (rep_two_sum k _ _ _ _ ltac:(lia) X1 Y1) as [T1 T2].
  destruct (two_sum f64_arith (fst x) (fst y)) as [s e], (two_sum rarith (fst rx) (fst ry)) as [s' e']. cbn [fst snd] in T1, T2.
  assert (L := rep_add _ _ _ _ _ _ X2 Y2 ltac:(lia)). rewrite Z.max_id in L.
  assert (L' := rep_add _ _ _ _ _ _ T2 L ltac:(lia)). replace (Z.max (k + 5) (k + 1) + 1)%Z with (k + 6)%Z in L' by lia.
  replace (k + 10)%Z with ((k + 7) + 3)%Z by lia.
  apply rep_quick; [lia|apply rep_weaken with (k + 5)%Z; [lia|exact T1]|apply rep_weaken with (k + 6)%Z; [lia|exact L']].
Qed.
Lemma rep_square k x r : (0 <= k <= 300)%Z -> rep k x r -> rep2 (2 * k + 70) (square f64_arith x) (square rarith r).
Proof.
  intros Hk H. unfold square, split. cbn [rarith a_add a_sub a_mul a_ofZ].
  assert (U := rep_mul _ _ _ _ _ _ H H ltac:(lia)).
  assert (P := rep_mul _ _ _ _ _ _ (rep_ofZ (2 ^ 27 + 1) 28 ltac:(lia) ltac:(vm_compute; discriminate)) H ltac:(lia)).
  assert (Q := rep_sub _ _ _ _ _ _ P H ltac:(lia)). replace (Z.max (28 + k) k + 1)%Z with (k + 29)%Z in Q by lia.
  assert (Hh := rep_sub _ _ _ _ _ _ P Q ltac:(lia)). replace (Z.max (28 + k) (k + 29) + 1)%Z with (k + 30)%Z in Hh by lia.
  assert (L := rep_sub _ _ _ _ _ _ H Hh ltac:(lia)). replace (Z.max k (k + 30) + 1)%Z with (k + 31)%Z in L by lia.
  assert (HH := rep_mul _ _ _ _ _ _ Hh Hh ltac:(lia)).
  assert (T1 := rep_sub _ _ _ _ _ _ HH U ltac:(lia)). replace (Z.max (k + 30 + (k + 30)) (k + k) + 1)%Z with (2 * k + 61)%Z in T1 by lia.
  assert (H2 := rep_mul _ _ _ _ _ _ (rep_ofZ 2 1 ltac:(lia) ltac:(vm_compute; discriminate)) Hh ltac:(lia)).
  assert (HL := rep_mul _ _ _ _ _ _ H2 L ltac:(lia)).
  assert (T2 := rep_add _ _ _ _ _ _ T1 HL ltac:(lia)). replace (Z.max (2 * k + 61) (1 + (k + 30) + (k + 31)) + 1)%Z with (2 * k + 63)%Z in T2 by lia.
  assert (LL := rep_mul _ _ _ _ _ _ L L ltac:(lia)).
  assert (T3 := rep_add _ _ _ _ _ _ T2 LL ltac:(lia)). replace (Z.max (2 * k + 63) (k + 31 + (k + 31)) + 1)%Z with (2 * k + 64)%Z in T3 by lia.
  split; cbn [fst snd]; (eapply rep_weaken; [|eassumption]); lia.
Qed.
Lemma rep_xsq x y r s : rep 2 x r -> rep 2 y s ->
  rep 100 (xsquared_plus_2x_plus_ysquared f64_arith x y) (xsquared_plus_2x_plus_ysquared rarith r s).
Proof.
  intros Hx Hy. unfold xsquared_plus_2x_plus_ysquared.
  assert (X := rep_square 2 x r ltac:(lia) Hx). assert (Y := rep_square 2 y s ltac:(lia) Hy).
  assert (T := rep_mul _ _ _ _ _ _ (rep_ofZ 2 1 ltac:(lia) ltac:(vm_compute; discriminate)) Hx ltac:(lia)).
  assert (Z0 := rep_ofZ 0 0 ltac:(lia) ltac:(vm_compute; discriminate)).
  assert (W : rep2 74 (a_mul f64_arith (a_ofZ f64_arith 2) x, a_ofZ f64_arith 0) (a_mul rarith (a_ofZ rarith 2) r, a_ofZ rarith 0)).
  { split; cbn [fst snd]; (eapply rep_weaken; [|eassumption]); lia. }
  assert (S1 := rep_double_sum 74 _ _ _ _ ltac:(lia) X W).
  assert (Y' : rep2 84 (square f64_arith y) (square rarith s)) by (destruct Y; split; (eapply rep_weaken; [|eassumption]); lia).
  assert (S2 := rep_double_sum 84 _ _ _ _ ltac:(lia) S1 Y').
  destruct S2 as [S2 _]. eapply rep_weaken; [|exact S2]. lia.
Qed.

Lemma rep_intro (x : f64) k : is_finite x = true -> Rabs (B2R x) <= pow2 k -> rep k x (B2R x).
Proof. intros H K. split; [exact H|]. split; [reflexivity|exact K]. Qed.

(** the double-double polynomial, in IEEE double *)
Theorem xsq_accurate (x y : f64) : is_finite x = true -> is_finite y = true -> Rabs (B2R x) <= 4 -> Rabs (B2R y) <= 4 ->
  let X := B2R x in let Y := B2R y in let V := X * X + 2 * X + Y * Y in
  let r := xsquared_plus_2x_plus_ysquared f64_arith x y in
  is_finite r = true /\ Rabs (B2R r - V) <= pow2 (-53) * Rabs V + pow2 (-97).
Proof.
  intros Fx Fy Hx Hy. cbv zeta.
  assert (P2 : pow2 2 = 4) by (cbn; lra).
  assert (Rx := rep_intro x 2 Fx ltac:(lra)). assert (Ry := rep_intro y 2 Fy ltac:(lra)).
  destruct (rep_xsq x y _ _ Rx Ry) as (F & E & _). split; [exact F|]. rewrite E.
  apply xsq_error; eauto using rep_format.
Qed.

Theorem two_sum_ieee (x y : f64) : is_finite x = true -> is_finite y = true ->
  Rabs (B2R x) <= pow2 900 -> Rabs (B2R y) <= pow2 900 ->
  let '(s, e) := two_sum f64_arith x y in
  is_finite s = true /\ is_finite e = true /\ B2R s = rn (B2R x + B2R y) /\ B2R s + B2R e = B2R x + B2R y.
Proof.
  intros Fx Fy Hx Hy. assert (Rx := rep_intro x _ Fx Hx). assert (Ry := rep_intro y _ Fy Hy).
  destruct (rep_two_sum 900 x y _ _ ltac:(lia) Rx Ry) as [(F1 & E1 & _) (F2 & E2 & _)].
  destruct (two_sum f64_arith x y) as [s e]. cbn [fst snd two_sum rarith a_add a_sub] in *.
  split; [exact F1|]. split; [exact F2|]. split; [exact E1|]. rewrite E1, E2.
  apply two_sum_R; eapply rep_format; eauto.
Qed.
Theorem two_sum_quick_ieee (x y : f64) : is_finite x = true -> is_finite y = true ->
  Rabs (B2R x) <= pow2 900 -> Rabs (B2R y) <= Rabs (B2R x) \/ B2R x = 0 /\ Rabs (B2R y) <= pow2 900 ->
  let '(s, e) := two_sum_quick f64_arith x y in
  is_finite s = true /\ is_finite e = true /\ B2R s = rn (B2R x + B2R y) /\ B2R s + B2R e = B2R x + B2R y.
Proof.
  intros Fx Fy Hx Hy. assert (Rx := rep_intro x _ Fx Hx).
  assert (Hy' : Rabs (B2R y) <= pow2 900) by (destruct Hy as [H|[_ H]]; lra).
  assert (Ry := rep_intro y _ Fy Hy').
  destruct (rep_quick 900 x y _ _ ltac:(lia) Rx Ry) as [(F1 & E1 & _) (F2 & E2 & _)].
  destruct (two_sum_quick f64_arith x y) as [s e]. cbn [fst snd two_sum_quick rarith a_add a_sub] in *.
  split; [exact F1|]. split; [exact F2|]. split; [exact E1|]. rewrite E1, E2.
  apply quick_R; [eapply rep_format; eauto|eapply rep_format; eauto|tauto].
Qed.
Theorem square_ieee (x : f64) : is_finite x = true -> pow2 (-485) <= Rabs (B2R x) <= pow2 300 ->
  let '(u, l) := square f64_arith x in
  is_finite u = true /\ is_finite l = true /\ B2R u = rn (B2R x * B2R x) /\ B2R u + B2R l = B2R x * B2R x.
Proof.
  intros Fx Hx. assert (Rx := rep_intro x 300 Fx ltac:(lra)).
  destruct (rep_square 300 x _ ltac:(lia) Rx) as [(F1 & E1 & _) (F2 & E2 & _)].
  destruct (square f64_arith x) as [u l]. cbn [fst snd square split rarith a_add a_sub a_mul a_ofZ] in *.
  split; [exact F1|]. split; [exact F2|]. split; [exact E1|]. rewrite E1, E2.
  apply square_exact_R; [eapply rep_format; eauto|]. split; [lra|]. apply Rle_trans with (pow2 300); [lra|apply bpow_le; lia].
Qed.

(** ** the branch structure of log1p_doubledouble, in IEEE double *)
Lemma rep_div k j f g r s : rep k f r -> rep j g s -> s <> 0 -> Rabs (r / s) <= pow2 k -> (-1074 <= k <= 1000)%Z ->
  rep k (a_div f64_arith f g) (rn (r / s)).
Proof.
  intros (F1 & <- & B1) (F2 & <- & B2) N B Hk. apply rep_of_frnd; [exact Hk|now apply (f2e_div _ _ f64_Hp f64_He)|exact B].
Qed.
Lemma rep_abs k f r : rep k f r -> rep k (a_abs f64_arith f) (Rabs r).
Proof.
  intros (F & E & B). assert (A := f2e_abs f64_prec f64_emax f). rewrite (f2e_finite _ _ f F) in A. cbn in A.
  apply f2e_fin_finite in A. destruct A as [A1 A2]. split; [exact A1|]. split; [rewrite <- E; exact A2|].
  now rewrite Rabs_Rabsolu.
Qed.
Lemma rep_ltb k j f g r s : rep k f r -> rep j g s -> ltb (a_cmp f64_arith) f g = true <-> r < s.
Proof.
  intros (F1 & E1 & _) (F2 & E2 & _). assert (L := ltb_f f64_prec f64_emax f g). change (ltb (a_cmp f64_arith) f g = ltb ecmp (f2e f64_prec f64_emax f) (f2e f64_prec f64_emax g)) in L. rewrite L.
  rewrite !f2e_finite, E1, E2 by assumption. apply ltb_Fin.
Qed.
Lemma rep_gtb k j f g r s : rep k f r -> rep j g s -> gtb (a_cmp f64_arith) f g = true <-> s < r.
Proof.
  intros (F1 & E1 & _) (F2 & E2 & _). assert (L := gtb_f f64_prec f64_emax f g). change (gtb (a_cmp f64_arith) f g = gtb ecmp (f2e f64_prec f64_emax f) (f2e f64_prec f64_emax g)) in L. rewrite L.
  rewrite !f2e_finite, E1, E2 by assumption. apply gtb_Fin.
Qed.
Lemma fin_between (x a b : f64) : is_finite a = true -> is_finite b = true ->
  gtb (a_cmp f64_arith) x a = true -> ltb (a_cmp f64_arith) x b = true -> is_finite x = true.
Proof.
  intros Fa Fb. 
  assert (L := gtb_f f64_prec f64_emax x a). change (gtb (a_cmp f64_arith) x a = gtb ecmp (f2e f64_prec f64_emax x) (f2e f64_prec f64_emax a)) in L. rewrite L.
  assert (L' := ltb_f f64_prec f64_emax x b). change (ltb (a_cmp f64_arith) x b = ltb ecmp (f2e f64_prec f64_emax x) (f2e f64_prec f64_emax b)) in L'. rewrite L'.
  rewrite (f2e_finite _ _ a Fa), (f2e_finite _ _ b Fb).
  destruct x as [?|[]| |? ? ? ?]; intros H K; first [reflexivity | discriminate H | discriminate K].
Qed.

(** a decimal literal z/10 of the source is within 2^-50 of its value *)
Lemma literal z : (Z.abs z <= 32)%Z -> exists r, rep 5 (a_div f64_arith (a_ofZ f64_arith z) (a_ofZ f64_arith 10)) r /\ Rabs (r - IZR z / 10) <= pow2 (-47).
Proof.
  intros Hz. assert (A := rep_ofZ z 5 ltac:(lia) ltac:(cbn; lia)). assert (B := rep_ofZ 10 4 ltac:(lia) ltac:(vm_compute; discriminate)).
  assert (Q : Rabs (IZR z / 10) <= pow2 5).
  { destruct A as (_ & _ & A). unfold Rdiv. rewrite Rabs_mult, (Rabs_right (/ 10)) by lra. pose proof (Rabs_pos (IZR z)). cbn in A |- *. lra. }
  exists (rn (IZR z / 10)). split; [apply (rep_div 5 4); try assumption; [lra|lia]|].
  pose proof (rn_err_le _ _ Q) as E. rewrite pow2_mult in E. change (-53 + 5)%Z with (-48)%Z in E.
  assert (pow2 (-1075) <= pow2 (-48)) by (apply bpow_le; lia).
  assert (Q2 := pow2_double (-48)). change (-48 + 1)%Z with (-47)%Z in Q2.
  lra.
Qed.

(** the test value of the source, in double *)
Lemma test_value (x y : f64) : is_finite x = true -> is_finite y = true -> Rabs (B2R x) <= 4 -> Rabs (B2R y) <= 4 ->
  let t := a_abs f64_arith (a_add f64_arith (a_mul f64_arith x (a_add f64_arith (a_ofZ f64_arith 2) x)) (a_mul f64_arith y y)) in
  exists r, rep 7 t r /\ Rabs (r - Rabs (B2R x * B2R x + 2 * B2R x + B2R y * B2R y)) <= pow2 (-40).
Proof.
  intros Fx Fy Hx Hy. cbv zeta. assert (P2 : pow2 2 = 4) by (cbn; lra).
  assert (Rx := rep_intro x 2 Fx ltac:(lra)). assert (Ry := rep_intro y 2 Fy ltac:(lra)).
  set (X := B2R x) in *. set (Y := B2R y) in *.
  assert (T := rep_ofZ 2 1 ltac:(lia) ltac:(vm_compute; discriminate)).
  assert (A := rep_add _ _ _ _ _ _ T Rx ltac:(lia)). assert (B := rep_mul _ _ _ _ _ _ Rx A ltac:(lia)).
  assert (C := rep_mul _ _ _ _ _ _ Ry Ry ltac:(lia)). assert (D := rep_add _ _ _ _ _ _ B C ltac:(lia)).
  assert (E := rep_abs _ _ _ D). eexists. split; [eapply rep_weaken; [|exact E]; lia|].
  pose (u := pow2 (-53)). assert (Hu : 0 < u) by apply bpow_gt_0.
  assert (Hu1 : u <= / 1048576) by (unfold u; replace (/ 1048576) with (pow2 (-20)) by (cbn; lra); apply bpow_le; lia).
  assert (He : pow2 (-1075) <= u) by (apply bpow_le; lia). assert (He0 : 0 < pow2 (-1075)) by apply bpow_gt_0.
  assert (A1 : Rabs (2 + X) <= 6) by (unabs; apply Rabs_le; lra). assert (E1 := rn_err_le _ _ A1). set (a := rn (2 + X)) in *. clearbody a.
  assert (A2 : Rabs (X * a) <= 28).
  { rewrite Rabs_mult. apply Rle_trans with (4 * 7); [|lra]. apply Rmult_le_compat; auto using Rabs_pos.
    fold u in E1. unabs. apply Rabs_le. lra. }
  assert (E2 := rn_err_le _ _ A2). set (b := rn (X * a)) in *. clearbody b.
  assert (A3 : Rabs (Y * Y) <= 16) by (rewrite Rabs_mult; apply Rle_trans with (4 * 4); [|lra]; apply Rmult_le_compat; auto using Rabs_pos).
  assert (E3 := rn_err_le _ _ A3). set (c := rn (Y * Y)) in *. clearbody c.
  assert (A4 : Rabs (b + c) <= 46) by (fold u in E2, E3; unabs; apply Rabs_le; lra).
  assert (E4 := rn_err_le _ _ A4). set (d := rn (b + c)) in *. clearbody d. fold u in E1, E2, E3, E4.
  eapply Rle_trans; [apply Rabs_triang_inv2|].
  assert (M : Rabs (X * a - (X * X + 2 * X)) <= 4 * (7 * u)).
  { replace (X * a - (X * X + 2 * X)) with (X * (a - (2 + X))) by ring. rewrite Rabs_mult. apply Rmult_le_compat; auto using Rabs_pos. lra. }
  assert (G : 256 * u <= pow2 (-40)).
  { unfold u. replace 256 with (pow2 8) by (cbn; lra). rewrite pow2_mult. apply bpow_le. lia. }
  unabs. apply Rabs_le. lra.
Qed.

Definition dd_box (x y : f64) : bool :=
  let A := f64_arith in let lit z := a_div A (a_ofZ A z) (a_ofZ A 10) in
  gtb (a_cmp A) x (lit (-22)%Z) && ltb (a_cmp A) x (lit 2%Z) && gtb (a_cmp A) y (lit (-12)%Z) && ltb (a_cmp A) y (lit 12%Z).

Lemma lit_bounds : forall z, (Z.abs z <= 32)%Z -> exists f r, f = a_div f64_arith (a_ofZ f64_arith z) (a_ofZ f64_arith 10) /\
  rep 5 f r /\ IZR z / 10 - / 1000 <= r <= IZR z / 10 + / 1000.
Proof.
  intros z Hz. destruct (literal z Hz) as (r & H & E). exists (a_div f64_arith (a_ofZ f64_arith z) (a_ofZ f64_arith 10)), r.
  split; [reflexivity|]. split; [exact H|].
  assert (pow2 (-47) <= / 1024) by (replace (/ 1024) with (pow2 (-10)) by (cbn; lra); apply bpow_le; lia).
  apply Rabs_le_inv in E. lra.
Qed.

Lemma box_inside x y : dd_box x y = true -> is_finite x = true /\ is_finite y = true /\ Rabs (B2R x) <= 4 /\ Rabs (B2R y) <= 4.
Proof.
  unfold dd_box. cbv zeta.
  destruct (lit_bounds (-22) ltac:(lia)) as (f1 & r1 & E1 & R1 & B1). destruct (lit_bounds 2 ltac:(lia)) as (f2 & r2 & E2 & R2 & B2).
  destruct (lit_bounds (-12) ltac:(lia)) as (f3 & r3 & E3 & R3 & B3). destruct (lit_bounds 12 ltac:(lia)) as (f4 & r4 & E4 & R4 & B4).
  rewrite <- E1, <- E2, <- E3, <- E4. intros H. apply andb_prop in H as [H H4]. apply andb_prop in H as [H H3]. apply andb_prop in H as [H1 H2].
  assert (Fx : is_finite x = true) by (apply (fin_between x f1 f2); [apply R1|apply R2|exact H1|exact H2]).
  assert (Fy : is_finite y = true) by (apply (fin_between y f3 f4); [apply R3|apply R4|exact H3|exact H4]).
  assert (B : forall v : f64, is_finite v = true -> exists k, rep k v (B2R v)).
  { intros v Fv. exists 1024%Z. apply rep_intro; [exact Fv|]. apply Rlt_le, (abs_B2R_lt_emax f64_prec f64_emax). }
  destruct (B x Fx) as [kx Rx]. destruct (B y Fy) as [ky Ry].
  rewrite (rep_gtb _ _ _ _ _ _ Rx R1) in H1. rewrite (rep_ltb _ _ _ _ _ _ Rx R2) in H2.
  rewrite (rep_gtb _ _ _ _ _ _ Ry R3) in H3. rewrite (rep_ltb _ _ _ _ _ _ Ry R4) in H4.
  split; [exact Fx|]. split; [exact Fy|]. split; apply Rabs_le; lra.
Qed.

Theorem dd_ieee_cases (log log1p : f64 -> f64) (hypot atan2 : f64 -> f64 -> f64) (x y : f64) :
  let re := fst (log1p_doubledouble f64_arith log log1p hypot atan2 (x, y)) in
  let X := B2R x in let Y := B2R y in let V := X * X + 2 * X + Y * Y in
  re = log (hypot (a_add f64_arith x (f64_ofZ 1)) y) \/
  is_finite x = true /\ is_finite y = true /\
  exists v, re = a_mul f64_arith (a_div f64_arith (f64_ofZ 1) (f64_ofZ 2)) (log1p v) /\
    is_finite v = true /\ Rabs (B2R v - V) <= pow2 (-53) * Rabs V + pow2 (-97).
Proof.
  cbv zeta. unfold log1p_doubledouble. cbn [fst].
  match goal with |- context [if ?c then _ else _] => change c with (dd_box x y); destruct (dd_box x y) eqn:B end; [|now left].
  match goal with |- context [if ?c then _ else _] => destruct c eqn:L end; [|now left].
  right. apply box_inside in B. destruct B as (Fx & Fy & Bx & By). split; [exact Fx|]. split; [exact Fy|].
  eexists. split; [reflexivity|]. now apply xsq_accurate.
Qed.

Theorem dd_ieee_near (log log1p : f64 -> f64) (hypot atan2 : f64 -> f64 -> f64) (x y : f64) :
  let re := fst (log1p_doubledouble f64_arith log log1p hypot atan2 (x, y)) in
  let X := B2R x in let Y := B2R y in let V := X * X + 2 * X + Y * Y in
  is_finite x = true -> is_finite y = true -> Rabs V <= 39 / 100 ->
  exists v, re = a_mul f64_arith (a_div f64_arith (f64_ofZ 1) (f64_ofZ 2)) (log1p v) /\
    is_finite v = true /\ Rabs (B2R v - V) <= pow2 (-53) * Rabs V + pow2 (-97).
Proof.
  cbv zeta. intros Fx Fy HV. set (X := B2R x) in *. set (Y := B2R y) in *.
  assert (HV' := Rabs_le_inv _ _ HV).
  assert (Circ : Y * Y <= 139 / 100 /\ (X + 1) * (X + 1) <= 139 / 100).
  { pose proof (Rle_0_sqr Y) as Q1. pose proof (Rle_0_sqr (X + 1)) as Q2. unfold Rsqr in Q1, Q2. lra. }
  assert (Sq : forall w, w * w <= 139 / 100 -> -(118 / 100) <= w <= 118 / 100) by (intros w Hw; split; nra).
  assert (By := Sq _ (proj1 Circ)). assert (Bx := Sq _ (proj2 Circ)).
  assert (P2 : pow2 2 = 4) by (cbn; lra).
  assert (Hx : Rabs (B2R x) <= 4) by (fold X; apply Rabs_le; lra). assert (Hy : Rabs (B2R y) <= 4) by (fold Y; apply Rabs_le; lra).
  assert (Rx := rep_intro x 2 Fx ltac:(lra)). assert (Ry := rep_intro y 2 Fy ltac:(lra)).
  destruct (test_value x y Fx Fy Hx Hy) as (t & Rt & Et). fold X Y in Et.
  assert (dd_box x y = true /\ ltb (a_cmp f64_arith) (a_abs f64_arith (a_add f64_arith (a_mul f64_arith x (a_add f64_arith (a_ofZ f64_arith 2) x)) (a_mul f64_arith y y)))
     (a_div f64_arith (a_ofZ f64_arith 4) (a_ofZ f64_arith 10)) = true) as [B L].
  { unfold dd_box. cbv zeta.
    destruct (lit_bounds (-22) ltac:(lia)) as (f1 & r1 & E1 & R1 & B1). destruct (lit_bounds 2 ltac:(lia)) as (f2 & r2 & E2 & R2 & B2).
    destruct (lit_bounds (-12) ltac:(lia)) as (f3 & r3 & E3 & R3 & B3). destruct (lit_bounds 12 ltac:(lia)) as (f4 & r4 & E4 & R4 & B4).
    destruct (lit_bounds 4 ltac:(lia)) as (f5 & r5 & E5 & R5 & B5).
    rewrite <- E1, <- E2, <- E3, <- E4, <- E5. split.
    - rewrite !andb_true_iff. repeat split; [apply (rep_gtb _ _ _ _ _ _ Rx R1)|apply (rep_ltb _ _ _ _ _ _ Rx R2)|apply (rep_gtb _ _ _ _ _ _ Ry R3)|apply (rep_ltb _ _ _ _ _ _ Ry R4)]; fold X Y; lra.
    - apply (rep_ltb _ _ _ _ _ _ Rt R5).
      assert (pow2 (-40) <= / 1024) by (replace (/ 1024) with (pow2 (-10)) by (cbn; lra); apply bpow_le; lia).
      apply Rabs_le_inv in Et. lra. }
  exists (xsquared_plus_2x_plus_ysquared f64_arith x y). split; [|now apply xsq_accurate].
  unfold log1p_doubledouble. cbn [fst].
  match goal with |- (if ?c then _ else _) = _ => change c with (dd_box x y); rewrite B end.
  now rewrite L.
Qed.

(** log1p_theorem4: the correction factor z / (u - 1) uses the exact difference u - 1 *)
Theorem theorem4_ieee (clog : f64 * f64 -> f64 * f64) (cmul cdiv : f64 * f64 -> f64 * f64 -> f64 * f64) (x y : f64) :
  is_finite x = true -> is_finite y = true -> Rabs (B2R x) <= 1 / 2 ->
  exists u w : f64, is_finite u = true /\ is_finite w = true /\ B2R u = rn (1 + B2R x) /\ B2R w = B2R u - 1 /\
    let r := log1p_theorem4 f64_arith clog cmul cdiv (x, y) in
    (B2R u = 1 /\ B2R y = 0 -> r = (x, y)) /\
    (B2R u <> 1 \/ B2R y <> 0 -> B2R u = 1 + B2R x -> r = clog (u, y)) /\
    (B2R u <> 1 \/ B2R y <> 0 -> B2R u <> 1 + B2R x -> r = cmul (clog (u, y)) (cdiv (x, y) (w, y))).
Proof.
  intros Fx Fy Hx.
  assert (Rx : rep 0 x (B2R x)) by (apply rep_intro; [exact Fx|change (pow2 0) with 1; lra]).
  assert (R1 : rep 0 (a_ofZ f64_arith 1) 1) by (apply rep_ofZ; [lia|reflexivity]).
  assert (Ru := rep_add 0 0 _ _ _ _ Rx R1 ltac:(cbn; lia)). cbn [Z.max Z.add] in Ru.
  set (u := a_add f64_arith x (a_ofZ f64_arith 1)) in *.
  assert (Rw := rep_sub _ _ _ _ _ _ Ru R1 ltac:(cbn; lia)). set (w := a_sub f64_arith u (a_ofZ f64_arith 1)) in *.
  assert (Bu : 1 / 2 <= rn (B2R x + 1) <= 3 / 2).
  { apply Rabs_le_inv in Hx. split.
    - rewrite <- (rn_id (1 / 2)); [apply round_le; try typeclasses eauto; lra|].
      replace (1 / 2) with (pow2 (-1)) by (cbn; lra). apply generic_format_bpow. unfold FLT_exp. lia.
    - rewrite <- (rn_id (3 / 2)); [apply round_le; try typeclasses eauto; lra|].
      apply (multiple_format (-1)); [lia|exists 3%Z; cbn; lra|]. rewrite Rabs_pos_eq by lra.
      apply Rle_trans with (pow2 1); [cbn; lra|apply bpow_le; lia]. }
  assert (Ew : rn (rn (B2R x + 1) - 1) = rn (B2R x + 1) - 1).
  { apply rn_id. apply Sterbenz.sterbenz; try typeclasses eauto; [apply rn_format| |lra].
    apply (generic_format_bpow radix2 fexp64 0). unfold FLT_exp. lia. }
  rewrite Ew in Rw.
  assert (Eu : B2R u = rn (1 + B2R x)) by (rewrite (Rplus_comm 1); apply Ru).
  exists u, w. split; [apply Ru|]. split; [apply Rw|]. split; [exact Eu|].
  assert (Ew' : B2R w = B2R u - 1) by (rewrite Eu, (Rplus_comm 1); apply Rw).
  split; [exact Ew'|]. cbv zeta. unfold log1p_theorem4. cbn [fst snd]. fold u. fold w.
  assert (Q : forall (a b : f64), is_finite a = true -> is_finite b = true -> eqb (a_cmp f64_arith) a b = true <-> B2R a = B2R b).
  { intros a b Ha Hb. assert (L := eqb_f f64_prec f64_emax a b).
    change (eqb (a_cmp f64_arith) a b = eqb ecmp (f2e f64_prec f64_emax a) (f2e f64_prec f64_emax b)) in L. rewrite L.
    rewrite !f2e_finite by assumption. apply eqb_Fin. }
  assert (Z0 : B2R (a_ofZ f64_arith 0) = 0) by reflexivity.
  assert (Z1 : B2R (a_ofZ f64_arith 1) = 1) by (apply R1).
  pose proof (Q u (a_ofZ f64_arith 1) (proj1 Ru) eq_refl) as Q1. rewrite Z1 in Q1.
  pose proof (Q y (a_ofZ f64_arith 0) Fy eq_refl) as Q2. rewrite Z0 in Q2.
  pose proof (Q w x (proj1 Rw) Fx) as Q3. rewrite Ew' in Q3.
  assert (D : forall b (P : Prop), (b = true <-> P) -> b = true /\ P \/ b = false /\ ~ P).
  { intros b P I. destruct b; [left; tauto|right]. split; [reflexivity|]. intros HP. apply I in HP. discriminate. }
  destruct (D _ _ Q1) as [[-> C1]|[-> C1]], (D _ _ Q2) as [[-> C2]|[-> C2]], (D _ _ Q3) as [[-> C3]|[-> C3]]; cbn [andb];
  repeat split; intros; try reflexivity; exfalso; intuition lra.
Qed.

(** * P_ErfcxD: sensitivity of erfcx and the integer checks for the rounding errors of one cell *)
From Coq Require Import ZArith Reals Lra Lia List Bool.
From Coquelicot Require Import Coquelicot.
From Verif Require Import CSem Num M_Erfcx S_Special P_Erf P_ErfcxT P_ErfcxR P_Erfcx.
Import ListNotations.
Open Scope R_scope.

Definition sq2 (x : R) : R := sqrt (x * x + 2).
Lemma sq2_sq x : sq2 x * sq2 x = x * x + 2. Proof. apply sqrt_sqrt. nra. Qed.
Lemma sq2_pos x : 0 < sq2 x. Proof. apply sqrt_lt_R0. nra. Qed.
Lemma sq2_x x : x < sq2 x /\ - x < sq2 x. Proof. pose proof (sq2_sq x). pose proof (sq2_pos x). split; nra. Qed.
Definition gl (x : R) : R := 2 * B / (x + sq2 x).
Definition gl' (x : R) : R := - (2 * B) / (sq2 x * (x + sq2 x)).
Lemma gl_derive x : is_derive gl x (gl' x).
Proof.
  pose proof (sq2_pos x) as P. pose proof (sq2_x x) as [P1 P2]. unfold gl, gl'.
  pose proof (Rle_0_sqr x) as X. unfold Rsqr in X. unfold sq2 in *. auto_derive; [repeat split; lra|]. field. lra.
Qed.
Lemma erfcx_lower x : 0 <= x -> 2 * B / (x + sq2 x) <= erfcxR x.
Proof.
  intros H. pose proof B_pos as HB. change (gl x <= erfcxR x). replace (erfcxR x) with ((1 + 0) * erfcxR x) by ring.
  apply (above gl gl' x 0); [intros y _; apply gl_derive| | |lra].
  - apply small_vanishes. intros y Hy. unfold gl. pose proof (sq2_x y). pose proof (sq2_pos y). split; [apply Rdiv_le_0_compat; lra|].
    apply (Rmult_le_reg_r (y * (y + sq2 y))); [nra|]. replace (2 * B / (y + sq2 y) * (y * (y + sq2 y))) with (2 * B * y) by (field; lra).
    replace (B / y * (y * (y + sq2 y))) with (B * (y + sq2 y)) by (field; lra). nra.
  - intros y Hy. unfold resid, gl', gl. pose proof (sq2_x y) as [Q1 Q2]. pose proof (sq2_pos y) as P. pose proof (sq2_sq y) as S.
    assert (E : - (2 * B) / (sq2 y * (y + sq2 y)) - 2 * y * (2 * B / (y + sq2 y)) + 2 * B = 2 * B * ((sq2 y * sq2 y - 1 - y * sq2 y) / (sq2 y * (y + sq2 y)))) by (field; lra).
    rewrite E, S. replace (- 0 * (2 * B)) with 0 by ring. apply Rmult_le_pos; [lra|]. apply Rdiv_le_0_compat; [|apply Rmult_lt_0_compat; lra].
    assert (y * sq2 y <= y * y + 1); [|lra]. apply Rsqr_incr_0; [|nra|nra]. unfold Rsqr.
    replace (y * sq2 y * (y * sq2 y)) with (y * y * (sq2 y * sq2 y)) by ring. rewrite S. nra.
Qed.
(** the relative change of erfcx is at most 5.66 times the change of x relative to 4 + x *)
Lemma erfcx_slope c : 0 <= c -> 0 <= 2 * B - 2 * c * erfcxR c <= 566 / 100 / (4 + c) * erfcxR c.
Proof.
  intros H. pose proof B_pos as HB. pose proof (erfcxR_pos c) as F. split.
  { destruct H as [H| <-]; [|lra]. pose proof (erfcx_upper c H). assert (c * erfcxR c <= B); [|lra].
    replace B with (c * (B / c)) by (field; lra). apply Rmult_le_compat_l; lra. }
  pose proof (erfcx_lower c H) as L. pose proof (sq2_sq c) as S. pose proof (sq2_pos c) as P. pose proof (sq2_x c) as [P1 _].
  assert (L2 : 2 * B <= erfcxR c * (c + sq2 c)). { apply (Rmult_le_compat_r (c + sq2 c)) in L; [|lra]. replace (2 * B / (c + sq2 c) * (c + sq2 c)) with (2 * B) in L by (field; lra). exact L. }
  assert (W : sq2 c - c <= 566 / 100 / (4 + c)).
  { assert (Q : 141421 / 100000 <= sq2 c) by nra.
    assert (E : (sq2 c - c) * (sq2 c + c) = 2) by lra.
    apply (Rmult_le_reg_r ((4 + c) * (sq2 c + c))); [nra|]. replace ((sq2 c - c) * ((4 + c) * (sq2 c + c))) with ((sq2 c - c) * (sq2 c + c) * (4 + c)) by ring.
    rewrite E. replace (566 / 100 / (4 + c) * ((4 + c) * (sq2 c + c))) with (566 / 100 * (sq2 c + c)) by (field; lra). lra. }
  apply Rle_trans with ((sq2 c - c) * erfcxR c); [lra|]. apply Rmult_le_compat_r; lra.
Qed.
Lemma erfcx_step y z h : 0 <= y <= z -> z - y <= h * (4 + y) -> 0 <= h -> 0 <= erfcxR y - erfcxR z <= 566 / 100 * h * erfcxR y.
Proof.
  intros Hyz Hz Hh. pose proof (erfcx_decr y z Hyz) as D. split; [lra|].
  destruct Hyz as [H0 [Hlt| ->]]; [|pose proof (erfcxR_pos z); nra].
  destruct (MVT_cor2 erfcxR (fun x => 2 * x * erfcxR x - 2 * B) y z Hlt) as (c & E & Hc).
  { intros c _. apply is_derive_Reals, erfcxR_derive. }
  destruct (erfcx_slope c ltac:(lra)) as [S1 S2]. pose proof (erfcx_decr y c ltac:(lra)) as D2. pose proof (erfcxR_pos c).
  assert (K : 566 / 100 / (4 + c) * erfcxR c <= 566 / 100 / (4 + y) * erfcxR y).
  { apply Rmult_le_compat; try lra; [apply Rdiv_le_0_compat; lra|]. unfold Rdiv. apply Rmult_le_compat_l; [lra|]. apply Rinv_le_contravar; lra. }
  replace (erfcxR y - erfcxR z) with ((2 * B - 2 * c * erfcxR c) * (z - y)) by lra.
  apply Rle_trans with (566 / 100 / (4 + y) * erfcxR y * (h * (4 + y))); [apply Rmult_le_compat; lra|]. right. field. lra.
Qed.
Lemma erfcx_near x x' h : 0 <= x -> 0 <= x' -> Rabs (x' - x) <= h * (4 + x) -> 0 <= h <= 1 / 1000000 ->
  Rabs (erfcxR x' - erfcxR x) <= 567 / 100 * h * erfcxR x.
Proof.
  intros Hx Hx' A Hh. pose proof (erfcxR_pos x) as F. pose proof (erfcxR_pos x') as F'. apply Rabs_le_between in A.
  destruct (Rle_lt_dec x x') as [C|C].
  - destruct (erfcx_step x x' h ltac:(lra) ltac:(lra) ltac:(lra)) as [S1 S2]. apply Rabs_le. nra.
  - assert (Q : 4 + x <= (1 + 2 * h) * (4 + x')).
    { apply Rle_trans with ((1 + 2 * h) * ((1 - h) * (4 + x))); [|apply Rmult_le_compat_l; lra].
      replace ((1 + 2 * h) * ((1 - h) * (4 + x))) with ((1 + (h - 2 * (h * h))) * (4 + x)) by ring. assert (0 <= h - 2 * (h * h)) by nra.
      assert (0 <= (h - 2 * (h * h)) * (4 + x)) by (apply Rmult_le_pos; lra). lra. }
    destruct (erfcx_step x' x (h * (1 + 2 * h)) ltac:(lra)) as [S1 S2]; [|nra|].
    { apply Rle_trans with (h * (4 + x)); [lra|]. rewrite Rmult_assoc. apply Rmult_le_compat_l; lra. }
    assert (F2 : erfcxR x' <= (1 + 6 * h) * erfcxR x).
    { set (f := erfcxR x) in *. set (f' := erfcxR x') in *. clearbody f f'.
      assert (E1 : 566 / 100 * (h * (1 + 2 * h)) <= 567 / 100 * h) by nra.
      assert (E2 : (1 - 567 / 100 * h) * f' <= f) by (assert (566 / 100 * (h * (1 + 2 * h)) * f' <= 567 / 100 * h * f') by (apply Rmult_le_compat_r; lra); lra).
      assert (E3 : 1 <= (1 + 6 * h) * (1 - 567 / 100 * h)) by nra.
      apply Rle_trans with ((1 + 6 * h) * ((1 - 567 / 100 * h) * f')); [|apply Rmult_le_compat_l; lra].
      rewrite <- Rmult_assoc. rewrite <- (Rmult_1_l f') at 1. apply Rmult_le_compat_r; lra. }
    apply Rabs_le. split; [nra|].
    apply Rle_trans with (566 / 100 * (h * (1 + 2 * h)) * ((1 + 6 * h) * erfcxR x)); [|].
    + eapply Rle_trans; [exact S2|]. apply Rmult_le_compat_l; [nra|exact F2].
    + replace (566 / 100 * (h * (1 + 2 * h)) * ((1 + 6 * h) * erfcxR x)) with (566 / 100 * ((1 + 2 * h) * (1 + 6 * h)) * (h * erfcxR x)) by ring.
      replace (567 / 100 * h * erfcxR x) with (567 / 100 * (h * erfcxR x)) by ring. apply Rmult_le_compat_r; nra.
Qed.

(** ** sums of absolute values, and the rounding errors of the nested form in units of 2^-53 *)
Definition litR (p : Z * Z) : R := IZR (fst p) * powerRZ 10 (snd p).
Definition sumR (c : list (Z * Z)) : R := fold_right (fun p a => Rabs (litR p) + a) 0 c.
Fixpoint errR (c : list (Z * Z)) : R := match c with [] => 0 | p :: c' => 2 * Rabs (litR p) + 2 * sumR c' + errR c' end.
Fixpoint err50 (c : list Z) : Z := match c with [] => 0%Z | p :: c' => (2 * Z.abs p + 2 * pabs c' + err50 c')%Z end.
Lemma sum50 c : forallb (fun m => (-50 <=? snd m)%Z) c = true -> IZR (pabs (map scale50 c)) = IZR (10 ^ 50) * sumR c.
Proof.
  induction c as [|p c IH]; cbn [map pabs sumR fold_right forallb]; intros H; [ring|].
  apply andb_prop in H. destruct H as [H1 H2]. apply Z.leb_le in H1. rewrite plus_IZR, abs_IZR, (IH H2), (scale50_spec p H1). unfold sumR, litR.
  rewrite Rabs_mult, (Rabs_right (IZR (10 ^ 50))) by (apply Rle_ge, IZR_le; discriminate). ring.
Qed.
Lemma errR_50 c : forallb (fun m => (-50 <=? snd m)%Z) c = true -> IZR (err50 (map scale50 c)) = IZR (10 ^ 50) * errR c.
Proof.
  induction c as [|p c IH]; cbn [map err50 errR forallb]; intros H; [ring|].
  apply andb_prop in H. destruct H as [H1 H2]. apply Z.leb_le in H1. rewrite !plus_IZR, !mult_IZR, abs_IZR, (IH H2), (sum50 c H2), (scale50_spec p H1). unfold litR.
  rewrite Rabs_mult, (Rabs_right (IZR (10 ^ 50))) by (apply Rle_ge, IZR_le; discriminate). ring.
Qed.
Definition echeck (c : list (Z * Z)) (q : list Z) : bool :=
  (forallb (fun m => (-50 <=? snd m)%Z) c && (err50 (map scale50 c) * 10 <=? 25 * (10 ^ 20 * atm1 q))%Z && (pabs (map scale50 c) <=? 10 ^ 50)%Z && (length c <=? 20)%nat)%bool.
Fixpoint echecks (cs : list (list (Z * Z))) (qs : list (list Z)) : bool :=
  match cs, qs with c :: cs', q :: qs' => echeck c q && echecks cs' qs' | _, _ => true end.
Lemma double_echecked : echecks (skipn 7 erfcx_cells_d) (skipn 4 wit) = true.
Proof. vm_compute. reflexivity. Qed.

(** ** ln 2 from below: ln((1 + x)/(1 - x)) is at least any partial sum of its series *)
Fixpoint ath (n : nat) (x : R) : R := match n with O => 0 | S n' => ath n' x + 2 * (x ^ (2 * n' + 1) / INR (2 * n' + 1)) end.
Fixpoint geo (n : nat) (x : R) : R := match n with O => 0 | S n' => geo n' x + 2 * x ^ (2 * n') end.
Lemma ath_derive n x : is_derive (ath n) x (geo n x).
Proof.
  induction n as [|n IH]; [apply (is_derive_const (V := R_NormedModule) 0)|].
  cbn [ath geo]. apply (is_derive_plus (V := R_NormedModule) (ath n) (fun x => 2 * (x ^ (2 * n + 1) / INR (2 * n + 1))) x _ _ IH).
  assert (N : INR (2 * n + 1) <> 0) by (apply not_0_INR; lia).
  apply (is_derive_ext (fun x => 2 / INR (2 * n + 1) * x ^ (2 * n + 1))); [intros t; match goal with |- @eq _ ?a ?b => change (@eq R a b) end; field; exact N|].
  pose proof (is_derive_scal (fun x => x ^ (2 * n + 1)) x (2 / INR (2 * n + 1)) (INR (2 * n + 1) * 1 * x ^ pred (2 * n + 1))) as D.
  replace (2 * x ^ (2 * n)) with (2 / INR (2 * n + 1) * (INR (2 * n + 1) * 1 * x ^ pred (2 * n + 1))).
  - apply D. apply is_derive_pow. apply (is_derive_id (K := R_AbsRing)).
  - replace (pred (2 * n + 1)) with (2 * n)%nat by lia. field. exact N.
Qed.
Lemma geo_sum n x : (1 - x * x) * geo n x = 2 - 2 * x ^ (2 * n).
Proof.
  induction n as [|n IH]; [cbn; ring|]. cbn [geo]. replace (2 * S n)%nat with (2 + 2 * n)%nat by lia. rewrite pow_add. cbn [pow] in *.
  rewrite Rmult_plus_distr_l, IH. ring.
Qed.
Lemma ath_le n x : 0 <= x < 1 -> ath n x <= ln ((1 + x) / (1 - x)).
Proof.
  intros [H0 H1]. destruct H0 as [H0|<-].
  2:{ replace ((1 + 0) / (1 - 0)) with 1 by field. rewrite ln_1. clear. induction n as [|n IH]; cbn [ath]; [lra|].
      replace (2 * n + 1)%nat with (S (2 * n)) by lia. cbn [pow]. unfold Rdiv. rewrite !Rmult_0_l. lra. }
  assert (E : ln ((1 + x) / (1 - x)) - ath n x = (ln (1 + x) - ln (1 - x)) - ath n x) by (rewrite ln_div by lra; reflexivity).
  destruct (MVT_gen (fun t => ln (1 + t) - ln (1 - t) - ath n t) 0 x (fun t => 2 / (1 - t * t) - geo n t)) as (c & Hc & Ec).
  - intros t. rewrite Rmin_left, Rmax_right by lra. intros Ht.
    apply (is_derive_minus (V := R_NormedModule) (fun t => ln (1 + t) - ln (1 - t)) (ath n)); [|apply ath_derive].
    auto_derive; [split; lra|]. field. split; nra.
  - intros t. rewrite Rmin_left, Rmax_right by lra. intros Ht. apply continuity_pt_filterlim.
    apply (ex_derive_continuous (V := R_NormedModule) (fun t => ln (1 + t) - ln (1 - t) - ath n t)). exists (2 / (1 - t * t) - geo n t).
    apply (is_derive_minus (V := R_NormedModule) (fun t => ln (1 + t) - ln (1 - t)) (ath n)); [|apply ath_derive].
    auto_derive; [split; lra|]. field. split; nra.
  - rewrite Rmin_left, Rmax_right in Hc by lra.
    assert (Z0 : ath n 0 = 0). { clear. induction n as [|n IH]; cbn [ath]; [reflexivity|]. rewrite IH. replace (2 * n + 1)%nat with (S (2 * n)) by lia. cbn [pow]. unfold Rdiv. rewrite !Rmult_0_l. lra. }
    replace (1 - 0) with 1 in Ec by ring. rewrite Z0, Rplus_0_r, ln_1 in Ec.
    assert (P : 0 <= 2 / (1 - c * c) - geo n c).
    { assert (Q : 0 < 1 - c * c) by nra. apply (Rmult_le_reg_l (1 - c * c)); [exact Q|]. rewrite Rmult_0_r, Rmult_minus_distr_l, geo_sum.
      replace ((1 - c * c) * (2 / (1 - c * c))) with 2 by (field; lra). assert (0 <= c ^ (2 * n)) by (apply pow_le; lra). lra. }
    assert (0 <= (2 / (1 - c * c) - geo n c) * (x - 0)) by (apply Rmult_le_pos; lra). lra.
Qed.
Lemma ln2_lower : 693147180559945309 / 10 ^ 18 <= ln 2.
Proof.
  replace 2 with ((1 + 1 / 3) / (1 - 1 / 3)) at 1 by field. eapply Rle_trans; [|apply (ath_le 19); lra].
  cbn [ath Nat.mul Nat.add pow INR]. lra.
Qed.

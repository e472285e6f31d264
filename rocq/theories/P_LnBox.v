(** * P_LnBox: enclosures of logarithms of rational numbers in fixed point *)
From Coq Require Import ZArith Reals List Bool Lia Lra Psatz.
From Coquelicot Require Import Coquelicot.
From Verif Require Import P_LogFact.
Open Scope R_scope.

Definition SC : Z := (2 ^ 76)%Z.
Definition box : Type := (Z * Z)%type.
(** [bin b r]: r * SC lies in b *)
Definition bin (b : box) (r : R) : Prop := IZR (fst b) <= r * IZR SC <= IZR (snd b).
Definition badd (a b : box) : box := (fst a + fst b, snd a + snd b)%Z.
Definition bsub (a b : box) : box := (fst a - snd b, snd a - fst b)%Z.
(** non-negative factors only *)
Definition bmul (a b : box) : box := (Z.shiftr (fst a * fst b) 76, Z.shiftr (snd a * snd b) 76 + 1)%Z.
Lemma bmul_val a b : bmul a b = (fst a * fst b / SC, snd a * snd b / SC + 1)%Z.
Proof. unfold bmul. now rewrite !Z.shiftr_div_pow2 by lia. Qed.
(** product by a non-negative integer; quotient of two integers *)
Definition bscal (k : Z) (a : box) : box := (k * fst a, k * snd a)%Z.
Definition bquot (p q : Z) : box := (p * SC / q, p * SC / q + 1)%Z.
Definition bquo (a : box) (q : Z) : box := (fst a / q, snd a / q + 1)%Z.
Lemma SC_pos : (0 < SC)%Z. Proof. reflexivity. Qed.
Lemma SCR_pos : 0 < IZR SC. Proof. apply IZR_lt, SC_pos. Qed.
Lemma div_lo a b : (0 < b)%Z -> IZR (a / b) <= IZR a / IZR b <= IZR (a / b) + 1.
Proof.
  intros H. assert (0 < IZR b) by now apply IZR_lt. pose proof (Z.mul_div_le a b H) as L. pose proof (Z.mul_succ_div_gt a b H) as G.
  apply IZR_le in L. apply IZR_lt in G. rewrite mult_IZR in L, G. rewrite succ_IZR in G.
  split; apply (Rmult_le_reg_r (IZR b)); try assumption; unfold Rdiv; rewrite (Rmult_assoc (IZR a)), Rinv_l, Rmult_1_r by lra; lra.
Qed.
Local Opaque SC Z.div Z.mul.
Lemma bin_add a b r s : bin a r -> bin b s -> bin (badd a b) (r + s).
Proof. unfold bin, badd. cbn [fst snd]. rewrite !plus_IZR. lra. Qed.
Lemma bin_sub a b r s : bin a r -> bin b s -> bin (bsub a b) (r - s).
Proof. unfold bin, bsub. cbn [fst snd]. rewrite !minus_IZR. lra. Qed.
Lemma bin_scal k a r : (0 <= k)%Z -> bin a r -> bin (bscal k a) (IZR k * r).
Proof. unfold bin, bscal. cbn [fst snd]. intros H. apply IZR_le in H. rewrite !mult_IZR. nra. Qed.
Lemma bin_quot p q : (0 < q)%Z -> bin (bquot p q) (IZR p / IZR q).
Proof.
  intros H. unfold bin, bquot. cbn [fst snd]. rewrite plus_IZR. pose proof (div_lo (p * SC) q H) as D. rewrite mult_IZR in D.
  apply IZR_lt in H. replace (IZR p / IZR q * IZR SC) with (IZR p * IZR SC / IZR q) by (field; lra). exact D.
Qed.
Lemma bin_quo a q r : (0 < q)%Z -> bin a r -> bin (bquo a q) (r / IZR q).
Proof.
  intros H [A B]. unfold bin, bquo. cbn [fst snd]. rewrite plus_IZR. pose proof (div_lo (fst a) q H) as D1. pose proof (div_lo (snd a) q H) as D2.
  apply IZR_lt in H. replace (r / IZR q * IZR SC) with (r * IZR SC / IZR q) by (field; lra).
  assert (0 < / IZR q) by now apply Rinv_0_lt_compat.
  assert (IZR (fst a) / IZR q <= r * IZR SC / IZR q) by (apply Rmult_le_compat_r; lra).
  assert (r * IZR SC / IZR q <= IZR (snd a) / IZR q) by (apply Rmult_le_compat_r; lra). lra.
Qed.
Lemma bin_mul a b r s : (0 <= fst a)%Z -> (0 <= fst b)%Z -> bin a r -> bin b s -> bin (bmul a b) (r * s).
Proof.
  intros Ha Hb [A1 A2] [B1 B2]. unfold bin. rewrite bmul_val. cbn [fst snd]. rewrite plus_IZR.
  pose proof (div_lo (fst a * fst b) SC SC_pos) as D1. pose proof (div_lo (snd a * snd b) SC SC_pos) as D2. rewrite mult_IZR in D1, D2.
  apply IZR_le in Ha, Hb. pose proof SCR_pos as P. set (S := IZR SC) in *. assert (0 < / S) by now apply Rinv_0_lt_compat.
  replace (r * s * S) with ((r * S) * (s * S) / S) by (field; lra).
  assert (IZR (fst a) * IZR (fst b) <= (r * S) * (s * S)) by (apply Rmult_le_compat; lra).
  assert ((r * S) * (s * S) <= IZR (snd a) * IZR (snd b)) by (apply Rmult_le_compat; lra).
  assert (IZR (fst a) * IZR (fst b) / S <= (r * S) * (s * S) / S) by (apply Rmult_le_compat_r; lra).
  assert ((r * S) * (s * S) / S <= IZR (snd a) * IZR (snd b) / S) by (apply Rmult_le_compat_r; lra). lra.
Qed.
Lemma div_nn a b : (0 <= a)%Z -> (0 < b)%Z -> (0 <= a / b)%Z. Proof. intros. now apply Z.div_pos. Qed.

(** ** the series 1/d + w/(d+2) + w^2/(d+4) + ... *)
Fixpoint ser (m : nat) (d : Z) (w : box) : box :=
  match m with O => (0, 0)%Z | S m' => badd (bquot 1 d) (bmul w (ser m' (d + 2) w)) end.
Fixpoint serR (m : nat) (d : R) (w : R) : R := match m with O => 0 | S m' => 1 / d + w * serR m' (d + 2) w end.
Lemma ser_nonneg m : forall d w, (0 < d)%Z -> (0 <= fst w)%Z -> (0 <= fst (ser m d w))%Z.
Proof.
  induction m as [|m IH]; intros d w Hd Hw; cbn [ser fst]; [lia|]. rewrite bmul_val. unfold badd, bquot. cbn [fst].
  assert (0 <= 1 * SC / d)%Z by (apply div_nn; [pose proof SC_pos; lia|exact Hd]).
  assert (0 <= fst w * fst (ser m (d + 2) w) / SC)%Z by (apply div_nn; [apply Z.mul_nonneg_nonneg; [exact Hw|apply IH; lia]|exact SC_pos]). lia.
Qed.
Lemma bin_ser m : forall d w r, (0 < d)%Z -> (0 <= fst w)%Z -> bin w r -> bin (ser m d w) (serR m (IZR d) r).
Proof.
  induction m as [|m IH]; intros d w r Hd Hw B; cbn [ser serR].
  - unfold bin. cbn [fst snd]. lra.
  - apply bin_add; [apply (bin_quot 1 d Hd)|]. rewrite <- plus_IZR. apply bin_mul; [exact Hw|apply ser_nonneg; [lia|exact Hw]|exact B|apply IH; [lia|exact Hw|exact B]].
Qed.
Lemma serR_end m : forall d w, serR (S m) d w = serR m d w + w ^ m / (d + 2 * INR m).
Proof.
  induction m as [|m IH]; intros d w.
  - cbn [serR INR pow]. replace (d + 2 * 0) with d by ring. unfold Rdiv. ring.
  - change (serR (S (S m)) d w) with (1 / d + w * serR (S m) (d + 2) w). rewrite IH. rewrite S_INR. cbn [serR pow].
    replace (d + 2 + 2 * INR m) with (d + 2 * (INR m + 1)) by ring. unfold Rdiv. ring.
Qed.
Lemma Sn_serR n z : Sn n z = z * serR n 1 (z * z).
Proof.
  induction n as [|n IH]; [cbn; ring|]. cbn [Sn]. rewrite IH, serR_end.
  replace (z ^ (2 * n + 1)) with (z * (z * z) ^ n).
  2:{ rewrite pow_add, pow_mult. cbn [pow]. rewrite Rmult_1_r. ring. }
  replace (INR (2 * n + 1)) with (1 + 2 * INR n) by (rewrite plus_INR, mult_INR; cbn [INR]; ring). unfold Rdiv. ring.
Qed.

(** ** ln(p/q) for q <= p <= 2q, and ln(p/q) = k ln 2 + ln(p/(q 2^k)) *)
Definition nser : nat := 24%nat.
Definition lnbox1 (p q : Z) : box :=
  let z := bquot (p - q) (p + q) in
  let b := bscal 2 (bmul z (ser nser 1 (bmul z z))) in (fst b, snd b + 1)%Z.
Lemma third_pow z : 0 < z <= 1 / 3 -> 2 * (z ^ (2 * nser + 1) / (INR (2 * nser + 1) * (1 - z * z))) * IZR SC <= 1.
Proof.
  intros H. assert (P : z ^ (2 * nser + 1) <= (1 / 3) ^ (2 * nser + 1)) by (apply pow_incr; lra).
  assert (P0 : 0 <= z ^ (2 * nser + 1)) by (apply pow_le; lra).
  replace (INR (2 * nser + 1)) with 49 by (unfold nser; cbn; lra).
  set (t := z ^ (2 * nser + 1)) in *. assert (Q : 0 < 1 - z * z) by nra. assert (Q2 : 8 / 9 <= 1 - z * z) by nra.
  assert (I : / (49 * (1 - z * z)) <= / 43) by (apply Rinv_le_contravar; lra).
  assert (I0 : 0 < / (49 * (1 - z * z))) by (apply Rinv_0_lt_compat; lra).
  pose proof SCR_pos.
  apply Rle_trans with (2 * ((1 / 3) ^ (2 * nser + 1) * / 43) * IZR SC).
  - apply Rmult_le_compat_r; [lra|]. apply Rmult_le_compat_l; [lra|]. unfold Rdiv at 1. apply Rmult_le_compat; lra.
  - unfold Rdiv. rewrite Rmult_1_l, pow_inv. apply (Rmult_le_reg_r (3 ^ (2 * nser + 1) * 43)).
    { apply Rmult_lt_0_compat; [apply pow_lt; lra|lra]. }
    replace (2 * (/ 3 ^ (2 * nser + 1) * / 43) * IZR SC * (3 ^ (2 * nser + 1) * 43)) with (2 * IZR SC) by (field; apply pow_nonzero; lra).
    rewrite Rmult_1_l, pow_IZR, <- !mult_IZR. apply IZR_le. vm_compute. discriminate.
Qed.
Lemma bin_lnbox1 p q : (0 < q <= p)%Z -> (p <= 2 * q)%Z -> bin (lnbox1 p q) (ln (IZR p / IZR q)).
Proof.
  intros H1 H2. pose proof SC_pos as SP. unfold lnbox1.
  assert (Bz : bin (bquot (p - q) (p + q)) (IZR (p - q) / IZR (p + q))) by (apply bin_quot; lia).
  assert (Nz : (0 <= fst (bquot (p - q) (p + q)))%Z) by (unfold bquot; cbn [fst]; apply div_nn; [apply Z.mul_nonneg_nonneg; lia|lia]).
  set (zb := bquot (p - q) (p + q)) in *. set (z := IZR (p - q) / IZR (p + q)) in *.
  assert (Nw : (0 <= fst (bmul zb zb))%Z) by (rewrite bmul_val; cbn [fst]; apply div_nn; [now apply Z.mul_nonneg_nonneg|exact SP]).
  pose proof (bin_mul _ _ _ _ Nz Nz Bz Bz) as Bw.
  pose proof (bin_ser nser 1 _ _ ltac:(lia) Nw Bw) as Bs.
  pose proof (bin_mul _ _ _ _ Nz (ser_nonneg nser 1 _ ltac:(lia) Nw) Bz Bs) as Bp. rewrite <- Sn_serR in Bp.
  pose proof (bin_scal 2 _ _ ltac:(lia) Bp) as B2. set (b := bscal 2 _) in *. destruct B2 as [L U]. clearbody b.
  assert (E : ln (IZR p / IZR q) = 2 * atanh_ z /\ 0 <= z <= 1 / 3).
  { assert (Hq : 0 < IZR q) by (apply IZR_lt; lia). assert (Hp : IZR q <= IZR p) by (apply IZR_le; lia). assert (Hp2 : IZR p <= 2 * IZR q) by (rewrite <- mult_IZR; apply IZR_le; lia).
    unfold z, atanh_. rewrite minus_IZR, plus_IZR. split.
    - replace (1 + (IZR p - IZR q) / (IZR p + IZR q)) with (IZR p * (2 / (IZR p + IZR q))) by (field; lra).
      replace (1 - (IZR p - IZR q) / (IZR p + IZR q)) with (IZR q * (2 / (IZR p + IZR q))) by (field; lra).
      assert (0 < 2 / (IZR p + IZR q)) by (apply Rdiv_lt_0_compat; lra).
      rewrite ln_div, !ln_mult by lra. lra.
    - assert (0 < / (IZR p + IZR q)) by (apply Rinv_0_lt_compat; lra). split; [apply Rmult_le_pos; lra|].
      apply (Rmult_le_reg_r (IZR p + IZR q)); [lra|]. unfold Rdiv. rewrite Rmult_assoc, Rinv_l by lra. lra. }
  destruct E as [E Hz]. clearbody z. clear Bz Bw Bs Bp. rewrite E. unfold bin. cbn [fst snd]. rewrite plus_IZR. pose proof SCR_pos as SR.
  destruct (Req_dec z 0) as [Z0|Z0].
  - subst z. rewrite Sn_0 in L, U. unfold atanh_. rewrite Rplus_0_r, Rminus_0_r, ln_1. lra.
  - pose proof (atanh_lower nser z ltac:(lra)) as A1. pose proof (atanh_upper nser z ltac:(lra)) as A2. pose proof (third_pow z ltac:(lra)) as T.
    set (rm := z ^ (2 * nser + 1) / (INR (2 * nser + 1) * (1 - z * z))) in *. clearbody rm.
    apply (Rmult_le_compat_r (IZR SC)) in A1; [|lra]. apply (Rmult_le_compat_r (IZR SC)) in A2; [|lra]. lra.
Qed.
Definition lnbox (l2 : box) (k : Z) (p q : Z) : box := badd (bscal k l2) (lnbox1 p (q * 2 ^ k)).
Definition ln2box : box := lnbox1 2 1.
Lemma bin_ln2 : bin ln2box (ln 2).
Proof. replace 2 with (IZR 2 / IZR 1) at 1 by lra. apply bin_lnbox1; lia. Qed.
Definition lnbox_ok (k p q : Z) : bool := ((0 <=? k) && (0 <? q) && (q * 2 ^ k <=? p) && (p <=? 2 * (q * 2 ^ k)))%Z.
Lemma ln_pow2 k : (0 <= k)%Z -> ln (IZR (2 ^ k)) = IZR k * ln 2.
Proof.
  intros H. rewrite <- (Z2Nat.id k) by exact H. generalize (Z.to_nat k). intros n. induction n as [|n IH].
  - change (2 ^ Z.of_nat 0)%Z with 1%Z. rewrite ln_1. cbn. ring.
  - rewrite Nat2Z.inj_succ, Z.pow_succ_r, mult_IZR, ln_mult, IH, succ_IZR; [ring|lra|apply IZR_lt, Z.pow_pos_nonneg; lia|lia].
Qed.
Lemma bin_lnbox l2 k p q : bin l2 (ln 2) -> lnbox_ok k p q = true -> bin (lnbox l2 k p q) (ln (IZR p / IZR q)).
Proof.
  intros B2 H. unfold lnbox_ok in H. apply andb_prop in H. destruct H as [H H4]. apply andb_prop in H. destruct H as [H H3]. apply andb_prop in H. destruct H as [H1 H2].
  apply Z.leb_le in H1, H3, H4. apply Z.ltb_lt in H2. assert (P2 : (0 < 2 ^ k)%Z) by (apply Z.pow_pos_nonneg; lia).
  assert (E : ln (IZR p / IZR q) = IZR k * ln 2 + ln (IZR p / IZR (q * 2 ^ k))).
  { apply IZR_lt in P2, H2. assert (0 < IZR p) by (apply IZR_lt; apply lt_IZR in P2, H2; nia).
    rewrite mult_IZR. replace (IZR k * ln 2) with (ln (IZR (2 ^ k))).
    - rewrite <- ln_mult; [f_equal; field; lra|exact P2|]. apply Rdiv_lt_0_compat; [lra|apply Rmult_lt_0_compat; lra].
    - now apply ln_pow2. }
  rewrite E. unfold lnbox. apply bin_add; [now apply bin_scal|]. apply bin_lnbox1; [|lia]. nia.
Qed.

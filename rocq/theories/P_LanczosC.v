(** * P_LanczosC: the second difference of Lanczos' formula is small (a certificate on polynomials) *)
From Coq Require Import ZArith Reals List Bool Lia Lra Psatz.
From Coquelicot Require Import Coquelicot.
From Verif Require Import M_Special P_ErfcxT P_ZStrict.
Import ListNotations.
Open Scope R_scope.

Fixpoint pshift (l : list Z) : list Z := match l with [] => [] | a :: l' => qadd [a] (qmul [1; 1]%Z (pshift l')) end.
Lemma pev_shift l x : pev (pshift l) x = pev l (x + 1).
Proof. induction l as [|a l IH]; cbn [pshift pev]; [reflexivity|]. rewrite pev_qadd, pev_qmul, IH. cbn [pev]. ring. Qed.
Definition nonneg (l : list Z) : bool := forallb (Z.leb 0) l.
Lemma pev_nonneg l x : nonneg l = true -> 0 <= x -> 0 <= pev l x.
Proof.
  intros H Hx. induction l as [|a l IH]; cbn; [lra|]. cbn in H. apply andb_prop in H. destruct H as [H1 H2].
  specialize (IH H2). apply Z.leb_le in H1. apply IZR_le in H1. assert (0 <= x * pev l x) by now apply Rmult_le_pos. lra.
Qed.
Lemma pev_posit l x : nonneg l = true -> existsb (Z.ltb 0) l = true -> 0 < x -> 0 < pev l x.
Proof.
  intros H E Hx. induction l as [|a l IH]; cbn in E; [discriminate|]. cbn in H. apply andb_prop in H. destruct H as [H1 H2].
  cbn. apply Z.leb_le in H1. apply IZR_le in H1. apply orb_prop in E. destruct E as [E|E].
  - apply Z.ltb_lt in E. apply IZR_lt in E. pose proof (pev_nonneg l x H2 ltac:(lra)). assert (0 <= x * pev l x) by (apply Rmult_le_pos; lra). lra.
  - specialize (IH H2 E). assert (0 < x * pev l x) by (apply Rmult_lt_0_compat; lra). lra.
Qed.

(** ** the polynomials: 10^20 * numerator rounded down, denominator, 2^27 * g *)
Definition Nz : list Z := map (fun p => fst p / 10 ^ (- (20 + snd p)))%Z lanczos_num_coeffs.
Definition Dz : list Z := map (fun p => fst p * 10 ^ snd p)%Z lanczos_den_coeffs.
Definition Uz : list Z := qadd (qmul Nz (pder (pder Nz))) (qscal (-1) (qmul (pder Nz) (pder Nz))).
Definition kg : Z := (2 ^ 27)%Z.
Definition gz : Z := 808618867%Z.
Definition az : list Z := [(gz - 2 ^ 26)%Z; kg].
Definition az1 : list Z := pshift az.
Definition sq (l : list Z) : list Z := qmul l l.
Lemma pev_sq l x : pev (sq l) x = pev l x * pev l x. Proof. apply pev_qmul. Qed.

Definition b6z : list Z := qmul (sq (sq [1; 1]%Z)) (sq [1; 1]%Z).
Definition b4z : list Z := sq (sq [70; 1]%Z).
Definition smz : list Z := qmul (sq [12; 1]%Z) (qmul (sq az) (sq az1)).
Definition Sz : list Z := qadd (qmul (sq az) (sq az1)) (qmul (sq [12; 1]%Z) (qadd (qscal (- kg * kg) (qmul az az1)) (qscal (gz * kg) (qadd (sq az) (qscal (-1) (sq az1)))))).
Definition both_signs (E Z : list Z) : bool := nonneg (qadd E Z) && nonneg (qadd E (qneg Z)).
Definition cert_with (b6 b4 sm s u u1 nn nn1 big : list Z) : bool :=
  both_signs (qmul (qadd (qscal 7 b4) (qscal 1200 b6)) (qmul sm big))
    (qscal (10 ^ 16) (qmul (qmul b6 b4) (qadd (qmul sm (qadd (kmul 3 nn u1) (qneg (kmul 3 nn1 u)))) (qmul s big)))).
Definition cert (b6 b4 sm s u u1 nn nn1 : list Z) : bool := cert_with b6 b4 sm s u u1 nn nn1 (kmul 3 nn nn1).
Lemma lanczos_checked : cert b6z b4z smz Sz Uz (pshift Uz) (sq Nz) (sq (pshift Nz)) = true.
Proof. vm_cast_no_check (eq_refl true). Qed.

Lemma both_signs_spec E Zp x : both_signs E Zp = true -> 0 <= x -> Rabs (pev Zp x) <= pev E x.
Proof.
  intros H Hx. unfold both_signs in H. apply andb_prop in H. destruct H as [H1 H2].
  apply (pev_nonneg _ x) in H1; [|exact Hx]. apply (pev_nonneg _ x) in H2; [|exact Hx]. rewrite pev_qadd in H1, H2. rewrite pev_qneg in H2.
  apply Rabs_le. lra.
Qed.
Lemma Nz_pos x : 0 <= x -> 0 < pev Nz x.
Proof.
  intros Hx. assert (H : exists a l, Nz = a :: l /\ (0 < a)%Z /\ nonneg l = true).
  { eexists. eexists. split; [reflexivity|]. split; [vm_compute; reflexivity|vm_compute; reflexivity]. }
  destruct H as (a & l & -> & Ha & Hl). cbn [pev]. apply IZR_lt in Ha. pose proof (pev_nonneg l x Hl Hx). assert (0 <= x * pev l x) by now apply Rmult_le_pos. lra.
Qed.
Lemma az_val x : pev az x = IZR kg * (x + (IZR gz / IZR kg - 1 / 2)).
Proof. unfold az. cbn [pev]. change (IZR (gz - 2 ^ 26)) with 741510003. change (IZR kg) with 134217728. change (IZR gz) with 808618867. field. Qed.

(** the logarithmic derivative's derivative *)
Definition uN (x : R) : R := (pev Nz x * pev (pder (pder Nz)) x - pev (pder Nz) x * pev (pder Nz) x) / (pev Nz x * pev Nz x).
Definition gl : R := IZR gz / IZR kg.
Definition al (x : R) : R := x + (gl - 1 / 2).
Definition d2 (x : R) : R :=
  uN (x + 1) - uN x + 1 / ((x + 12) * (x + 12)) + 1 / al (x + 1) - 1 / al x + gl / (al (x + 1) * al (x + 1)) - gl / (al x * al x).
Lemma gl_val : gl = 808618867 / 134217728. Proof. reflexivity. Qed.
Lemma al_pos x : 0 <= x -> 0 < al x. Proof. intros. unfold al. rewrite gl_val. lra. Qed.

Section Abstract.
  Variables n0 n1 u0 u1 a0 a1 c k g : R.
  Hypothesis Hn0 : n0 <> 0. Hypothesis Hn1 : n1 <> 0. Hypothesis Ha0 : a0 <> 0. Hypothesis Ha1 : a1 <> 0. Hypothesis Hc : c <> 0. Hypothesis Hk : k <> 0.
  Lemma d2_alg :
    (u1 / (n1 * n1) - u0 / (n0 * n0) + 1 / (c * c) + 1 / a1 - 1 / a0 + (g / k) / (a1 * a1) - (g / k) / (a0 * a0)) *
      ((c * c) * (((k * a0) * (k * a0)) * ((k * a1) * (k * a1))) * ((n0 * n0) * (n1 * n1))) =
    (c * c) * (((k * a0) * (k * a0)) * ((k * a1) * (k * a1))) * (u1 * (n0 * n0) - u0 * (n1 * n1)) +
    (((k * a0) * (k * a0)) * ((k * a1) * (k * a1)) + (c * c) * (- k * k * ((k * a0) * (k * a1)) * (a1 - a0) + g * k * ((k * a0) * (k * a0) - (k * a1) * (k * a1)))) * ((n0 * n0) * (n1 * n1)).
  Proof. field. repeat split; assumption. Qed.
End Abstract.
Lemma cert_spec b6 b4 sm s u u1 nn nn1 x : cert b6 b4 sm s u u1 nn nn1 = true -> 0 <= x ->
  Rabs (IZR (10 ^ 16) * (pev b6 x * pev b4 x * (pev sm x * (pev u1 x * pev nn x + -1 * (pev u x * pev nn1 x)) + pev s x * (pev nn x * pev nn1 x)))) <=
  (7 * pev b4 x + 1200 * pev b6 x) * (pev sm x * (pev nn x * pev nn1 x)).
Proof.
  intros C Hx. unfold cert, cert_with in C. apply (both_signs_spec _ _ x) in C; [|exact Hx]. revert C. generalize (10 ^ 16)%Z. intros Z C.
  repeat (rewrite ?pev_qadd, ?pev_qscal, ?pev_qneg, ?pev_kmul, ?pev_qmul in C).
  match type of C with Rabs ?s <= ?t => match goal with |- Rabs ?s' <= ?t' => replace s' with s by ring; replace t' with t by ring end end. exact C.
Qed.
Lemma lin_val a x : pev [a; 1]%Z x = x + IZR a. Proof. cbn [pev]. ring. Qed.
Lemma b6z_val x : pev b6z x = (x + 1) * (x + 1) * ((x + 1) * (x + 1)) * ((x + 1) * (x + 1)).
Proof. unfold b6z. rewrite pev_qmul, !pev_sq, lin_val. reflexivity. Qed.
Lemma b4z_val x : pev b4z x = (x + 70) * (x + 70) * ((x + 70) * (x + 70)).
Proof. unfold b4z. rewrite !pev_sq, lin_val. reflexivity. Qed.
Lemma smz_val x : pev smz x = (x + 12) * (x + 12) * (pev az x * pev az x * (pev az (x + 1) * pev az (x + 1))).
Proof. unfold smz, az1. rewrite !pev_qmul, !pev_sq, lin_val, pev_shift. reflexivity. Qed.
Lemma Sz_val x : pev Sz x = pev az x * pev az x * (pev az (x + 1) * pev az (x + 1)) +
  (x + 12) * (x + 12) * (- IZR kg * IZR kg * (pev az x * pev az (x + 1)) + IZR gz * IZR kg * (pev az x * pev az x - pev az (x + 1) * pev az (x + 1))).
Proof.
  unfold Sz, az1. rewrite pev_qadd, !pev_qmul, pev_qadd, !pev_qscal, pev_qadd, pev_qscal, !pev_qmul, !pev_sq, lin_val, pev_shift.
  rewrite !mult_IZR, opp_IZR. ring.
Qed.
Lemma Uz_val y : pev Uz y = pev Nz y * pev (pder (pder Nz)) y - pev (pder Nz) y * pev (pder Nz) y.
Proof. unfold Uz. rewrite pev_qadd, pev_qscal, !pev_qmul. ring. Qed.
Lemma d2_bound x : 0 <= x -> Rabs (d2 x) <= / 10 ^ 16 * (7 / (x + 1) ^ 6 + 1200 / (x + 70) ^ 4).
Proof.
  intros Hx. pose proof (cert_spec _ _ _ _ _ _ _ _ x lanczos_checked Hx) as C.
  rewrite b6z_val, b4z_val, smz_val, Sz_val, !pev_sq, !pev_shift, !Uz_val in C. change (IZR (10 ^ 16)) with 10000000000000000 in C.
  rewrite !az_val in C. fold gl in C. fold (al x) in C. fold (al (x + 1)) in C.
  pose proof (al_pos x Hx) as A0. pose proof (al_pos (x + 1) ltac:(lra)) as A1. pose proof (Nz_pos x Hx) as N0. pose proof (Nz_pos (x + 1) ltac:(lra)) as N1.
  assert (Ea : al (x + 1) - al x = 1) by (unfold al; ring).
  assert (K : 0 < IZR kg) by (change (IZR kg) with 134217728; lra).
  unfold d2, uN.
  set (u1 := pev Nz (x + 1) * pev (pder (pder Nz)) (x + 1) - pev (pder Nz) (x + 1) * pev (pder Nz) (x + 1)) in *.
  set (u0 := pev Nz x * pev (pder (pder Nz)) x - pev (pder Nz) x * pev (pder Nz) x) in *.
  set (n0 := pev Nz x) in *. set (n1 := pev Nz (x + 1)) in *.
  pose proof (d2_alg n0 n1 u0 u1 (al x) (al (x + 1)) (x + 12) (IZR kg) (IZR gz) ltac:(lra) ltac:(lra) ltac:(lra) ltac:(lra) ltac:(lra) ltac:(lra)) as E.
  fold gl in E. rewrite Ea in E.
  set (d := u1 / (n1 * n1) - u0 / (n0 * n0) + 1 / ((x + 12) * (x + 12)) + 1 / al (x + 1) - 1 / al x + gl / (al (x + 1) * al (x + 1)) - gl / (al x * al x)) in *.
  set (q := (x + 12) * (x + 12) * (IZR kg * al x * (IZR kg * al x) * (IZR kg * al (x + 1) * (IZR kg * al (x + 1)))) * (n0 * n0 * (n1 * n1))) in *.
  assert (Q : 0 < q).
  { unfold q. assert (0 < IZR kg * al x) by (apply Rmult_lt_0_compat; lra). assert (0 < IZR kg * al (x + 1)) by (apply Rmult_lt_0_compat; lra).
    repeat apply Rmult_lt_0_compat; lra. }
  (* the certificate reads |10^16 (x+1)^6 (x+70)^4 d q| <= (7 (x+70)^4 + 1200 (x+1)^6) q *)
  assert (C' : Rabs (10 ^ 16 * ((x + 1) ^ 6 * (x + 70) ^ 4) * (d * q)) <= (7 * (x + 70) ^ 4 + 1200 * (x + 1) ^ 6) * q).
  { rewrite E. clear E. clearbody d. revert C.
    unfold q. clear Q. clearbody u1 u0 n0 n1. clear q. generalize (IZR kg) (IZR gz) (al x) (al (x + 1)). intros k g a0 a1.
    intros C. set (c := x + 12) in *. set (p := x + 1) in *. set (r := x + 70) in *. clearbody c p r.
    match type of C with Rabs ?s <= ?t => match goal with |- Rabs ?s' <= ?t' => replace s' with s by ring; replace t' with t by ring end end. exact C. }
  clearbody q d. rewrite (Rabs_mult _ (d * q)), (Rabs_mult d q), (Rabs_right q) in C' by lra.
  assert (P1 : 0 < (x + 1) ^ 6) by (apply pow_lt; lra). assert (P2 : 0 < (x + 70) ^ 4) by (apply pow_lt; lra).
  rewrite (Rabs_right (10 ^ 16 * _)) in C' by (apply Rle_ge, Rmult_le_pos; [lra|apply Rmult_le_pos; lra]).
  set (p := (x + 1) ^ 6) in *. set (r := (x + 70) ^ 4) in *. set (D := Rabs d) in *. clearbody p r D.
  rewrite <- Rmult_assoc in C'. apply Rmult_le_reg_r in C'; [|exact Q].
  apply (Rmult_le_reg_r (10 ^ 16 * (p * r))); [apply Rmult_lt_0_compat; [lra|now apply Rmult_lt_0_compat]|].
  replace (/ 10 ^ 16 * (7 / p + 1200 / r) * (10 ^ 16 * (p * r))) with (7 * r + 1200 * p); [lra|]. field. lra.
Qed.

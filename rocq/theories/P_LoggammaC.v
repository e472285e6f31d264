(** * P_LoggammaC: the approximant of loggamma1p near 0 against Lanczos' formula (certificates) *)
From Coq Require Import ZArith Reals List Bool Lia Lra Psatz.
From Coquelicot Require Import Coquelicot.
From Verif Require Import M_Special P_Gamma P_ErfcxT P_ZStrict P_LanczosC P_Lanczos P_LnBox.
Import ListNotations.
Open Scope R_scope.

(** ** non-negativity on [n/b, (n+m)/b] by the substitution x = (n + m/(1+u))/b *)
Fixpoint psub (b n m : Z) (l : list Z) : list Z :=
  match l with [] => [] | a :: l' => qadd [(a * b ^ Z.of_nat (length l'))%Z] (qmul [n; m] (psub b n m l')) end.
Lemma pev_psub b n m l s : (0 < b)%Z -> pev (psub b n m l) s * IZR b = IZR b ^ length l * pev l ((IZR n + IZR m * s) / IZR b).
Proof.
  intros Hb. apply IZR_lt in Hb. induction l as [|a l IH]; cbn [psub pev length]; [ring|].
  rewrite pev_qadd, pev_qmul. cbn [pev pow]. rewrite mult_IZR, <- pow_IZR.
  replace ((IZR a * IZR b ^ length l + s * 0 + (IZR n + s * (IZR m + s * 0)) * pev (psub b n m l) s) * IZR b)
    with (IZR a * IZR b ^ length l * IZR b + (IZR n + IZR m * s) * (pev (psub b n m l) s * IZR b)) by ring.
  rewrite IH. field. lra.
Qed.
Lemma pev_app l l' x : pev (l ++ l') x = pev l x + x ^ length l * pev l' x.
Proof. induction l as [|a l IH]; cbn; [ring|]. rewrite IH. ring. Qed.
Lemma pev_rev l x : x <> 0 -> pev (rev l) x * x = x ^ length l * pev l (/ x).
Proof.
  intros Hx. induction l as [|a l IH]; cbn [rev]; [cbn; ring|].
  rewrite pev_app, rev_length. cbn [pev length pow]. rewrite Rmult_plus_distr_r, IH. field. exact Hx.
Qed.
Definition nonneg_on (b n m : Z) (l : list Z) : bool :=
  let s := psub b n m l in (0 <=? hd 0 s)%Z && nonneg (pshift (rev s)).
Lemma nonneg_on_spec b n m l x : nonneg_on b n m l = true -> (0 < b)%Z -> (0 < m)%Z -> IZR n / IZR b <= x <= (IZR n + IZR m) / IZR b -> 0 <= pev l x.
Proof.
  intros H Hb Hm Hx. unfold nonneg_on in H. apply andb_prop in H. destruct H as [H1 H2]. apply Z.leb_le in H1.
  assert (B : 0 < IZR b) by now apply IZR_lt. assert (M : 0 < IZR m) by now apply IZR_lt.
  set (s := (x * IZR b - IZR n) / IZR m).
  assert (Es : x = (IZR n + IZR m * s) / IZR b) by (unfold s; field; lra).
  assert (S0 : 0 <= s <= 1).
  { destruct Hx as [X1 X2]. apply (Rmult_le_compat_r (IZR b)) in X1; [|lra]. apply (Rmult_le_compat_r (IZR b)) in X2; [|lra].
    unfold Rdiv in X1, X2. rewrite Rmult_assoc, Rinv_l in X1, X2 by lra. unfold s. split.
    - apply Rmult_le_pos; [lra|left; now apply Rinv_0_lt_compat].
    - apply (Rmult_le_reg_r (IZR m)); [lra|]. unfold Rdiv. rewrite Rmult_assoc, Rinv_l by lra. lra. }
  pose proof (pev_psub b n m l s Hb) as E. rewrite <- Es in E.
  assert (Pb : 0 < IZR b ^ length l) by now apply pow_lt.
  enough (0 <= pev (psub b n m l) s).
  { apply (Rmult_le_reg_l (IZR b ^ length l)); [exact Pb|]. rewrite Rmult_0_r, <- E. apply Rmult_le_pos; lra. }
  set (q := psub b n m l) in *. clearbody q. clear E. destruct (Req_dec s 0) as [Z0|Z0].
  - rewrite Z0. destruct q as [|a q]; cbn; [lra|]. cbn in H1. apply IZR_le in H1. lra.
  - assert (S1 : 1 <= / s) by (rewrite <- Rinv_1; apply Rinv_le_contravar; lra).
    apply (pev_nonneg _ (/ s - 1)) in H2; [|lra]. rewrite pev_shift in H2. replace (/ s - 1 + 1) with (/ s) in H2 by ring.
    pose proof (pev_rev q (/ s) ltac:(lra)) as R. rewrite Rinv_inv in R.
    assert (0 < (/ s) ^ length q) by (apply pow_lt; lra).
    apply (Rmult_le_reg_l ((/ s) ^ length q)); [assumption|]. rewrite Rmult_0_r, <- R. apply Rmult_le_pos; lra.
Qed.

(** ** the polynomials: 10^22 times those of the source *)
Definition pz : list Z := map (fun p => fst p * 10 ^ (22 + snd p))%Z loggamma1p_small_x_p_coeff.
Definition qz : list Z := map (fun p => fst p * 10 ^ (22 + snd p))%Z loggamma1p_small_x_q_coeff.
Definition N1z : list Z := pshift Nz.
Definition D1z : list Z := pshift Dz.
Definition u_of (l : list Z) : list Z := qadd (qmul l (pder (pder l))) (qscal (-1) (qmul (pder l) (pder l))).
Definition Az : list Z :=
  qadd (qadd (qmul (pder (pder pz)) (sq qz)) (qscal (-2) (qmul (qmul (pder pz) (pder qz)) qz)))
       (qadd (qscal (-1) (qmul (qmul pz (pder (pder qz))) qz)) (qscal 2 (qmul pz (sq (pder qz))))).
(** |w''| <= 1.6e-14: [q3a] is q^3 az^2, [nd] is N^2 D^2, [x1] the part of the numerator over nd, [y] that over q3a *)
Definition wsigns (V W : list Z) : bool := nonneg_on 20 (-5) 23 (qadd V W) && nonneg_on 20 (-5) 23 (qadd V (qscal (-1) W)).
Definition wcert_with (t : Z) (q3a nd x1 y : list Z) : bool :=
  wsigns (qscal 16 (kmul 5 nd q3a)) (qscal t (qadd (kmul 5 nd x1) (kmul 5 q3a y))).
Definition wcert (t : Z) (A q3 aa ca nn dd un ud : list Z) : bool :=
  wcert_with t (qmul aa q3) (kmul 2 nn dd) (qadd (qmul aa A) (qscal (-1) (qmul ca q3))) (qadd (qscal (-1) (qmul dd un)) (qmul nn ud)).
Definition caz : list Z := qadd (qscal kg az1) [(gz * kg)%Z].
Lemma wcert_checked : wcert (10 ^ 15) Az (qmul qz (sq qz)) (sq az1) caz (sq N1z) (sq D1z) (u_of N1z) (u_of D1z) = true.
Proof. vm_cast_no_check (eq_refl true). Qed.
Lemma wsigns_spec V W x : wsigns V W = true -> - (1 / 4) <= x <= 9 / 10 -> Rabs (pev W x) <= pev V x.
Proof.
  intros H Hx. unfold wsigns in H. apply andb_prop in H. destruct H as [H1 H2].
  apply (nonneg_on_spec _ _ _ _ x) in H1; [|lia|lia|lra]. apply (nonneg_on_spec _ _ _ _ x) in H2; [|lia|lia|lra].
  rewrite pev_qadd in H1, H2. rewrite pev_qscal in H2. apply Rabs_le. lra.
Qed.
Local Opaque wsigns kmul.
Lemma wcert_spec t A q3 aa ca nn dd un ud x : wcert t A q3 aa ca nn dd un ud = true -> - (1 / 4) <= x <= 9 / 10 ->
  Rabs (IZR t * (pev nn x * pev dd x * (pev aa x * pev A x - pev ca x * pev q3 x) +
                   pev aa x * pev q3 x * (- (pev dd x * pev un x) + pev nn x * pev ud x))) <=
  16 * (pev nn x * pev dd x * (pev aa x * pev q3 x)).
Proof.
  intros H Hx. unfold wcert, wcert_with in H. apply (wsigns_spec _ _ x) in H; [|exact Hx].
  repeat (rewrite ?pev_qadd, ?pev_qscal, ?pev_kmul, ?pev_qmul in H).
  match type of H with Rabs ?s <= ?t => match goal with |- Rabs ?s' <= ?t' => replace s' with s by ring; replace t' with t by ring end end. exact H.
Qed.
Lemma caz_val x : pev caz x = IZR kg * pev az (x + 1) + IZR gz * IZR kg.
Proof. unfold caz. rewrite pev_qadd, pev_qscal. unfold az1. rewrite pev_shift. cbn [pev]. rewrite mult_IZR. ring. Qed.

(** ** the difference of the approximant and Lanczos' formula at 1 + x, and its derivatives *)
Definition wq (x : R) : R := pev pz x / pev qz x.
Definition w0 (x : R) : R := wq x - lnF (x + 1).
Definition lnF1 (x : R) : R := nN1 x / nN x - dD1 x / dD x + (ln (al x) - gl / al x).
Definition w1 (x : R) : R := (pev (pder pz) x * pev qz x - pev pz x * pev (pder qz) x) / (pev qz x * pev qz x) - lnF1 (x + 1).
Definition dD2 (x : R) : R := pev (pder (pder Dz)) x.
Definition uD (x : R) : R := (dD x * dD2 x - dD1 x * dD1 x) / (dD x * dD x).
Definition lnF2 (x : R) : R := uN x - uD x + (1 / al x + gl / (al x * al x)).
Definition w2 (x : R) : R := pev Az x / (pev qz x * (pev qz x * pev qz x)) - lnF2 (x + 1).
Lemma qz_pos x : - (1 / 4) <= x <= 9 / 10 -> 0 < pev qz x.
Proof.
  intros H. assert (Q : 0 <= pev (qadd qz [(- 10 ^ 20)%Z]) x).
  { apply (nonneg_on_spec 20 (-5) 23); [vm_compute; reflexivity|lia|lia|lra]. }
  rewrite pev_qadd in Q. assert (E : pev [(- 10 ^ 20)%Z] x = - 100000000000000000000) by (cbn [pev]; change (IZR (- 10 ^ 20)) with (-100000000000000000000); ring). rewrite E in Q. lra.
Qed.
Lemma pshift_der l x : pev (pder (pshift l)) x = pev (pder l) (x + 1).
Proof.
  assert (D1 : is_derive (pev (pshift l)) x (pev (pder (pshift l)) x)) by apply pev_der.
  assert (D2 : is_derive (fun x => pev l (x + 1)) x (pev (pder l) (x + 1))) by (apply is_derive_shift, pev_der).
  assert (D3 : is_derive (pev (pshift l)) x (pev (pder l) (x + 1))) by (apply (is_derive_ext (fun x => pev l (x + 1))); [intros t; symmetry; apply pev_shift|exact D2]).
  rewrite <- (is_derive_unique _ _ _ D1). now apply is_derive_unique.
Qed.
Lemma pshift_der2 l x : pev (pder (pder (pshift l))) x = pev (pder (pder l)) (x + 1).
Proof.
  assert (D1 : is_derive (pev (pder (pshift l))) x (pev (pder (pder (pshift l))) x)) by apply pev_der.
  assert (D2 : is_derive (fun x => pev (pder l) (x + 1)) x (pev (pder (pder l)) (x + 1))) by (apply is_derive_shift, pev_der).
  assert (D3 : is_derive (pev (pder (pshift l))) x (pev (pder (pder l)) (x + 1))) by (apply (is_derive_ext (fun x => pev (pder l) (x + 1))); [intros t; symmetry; apply pshift_der|exact D2]).
  rewrite <- (is_derive_unique _ _ _ D1). now apply is_derive_unique.
Qed.
Lemma u_of_shift l x : pev (u_of (pshift l)) x = pev l (x + 1) * pev (pder (pder l)) (x + 1) - pev (pder l) (x + 1) * pev (pder l) (x + 1).
Proof. unfold u_of. rewrite pev_qadd, pev_qscal, !pev_qmul, pev_shift, pshift_der, pshift_der2. ring. Qed.
Section Abstract.
  Variables A q n d un ud a k g : R.
  Hypothesis Hq : q <> 0. Hypothesis Hn : n <> 0. Hypothesis Hd : d <> 0. Hypothesis Ha : a <> 0. Hypothesis Hk : k <> 0.
  Lemma w2_alg :
    (A / (q * (q * q)) - (un / (n * n) - ud / (d * d) + (1 / a + g / k / (a * a)))) *
      (n * n * (d * d) * ((k * a) * (k * a) * (q * (q * q)))) =
    n * n * (d * d) * ((k * a) * (k * a) * A - (k * (k * a) + g * k) * (q * (q * q))) +
    (k * a) * (k * a) * (q * (q * q)) * (- (d * d * un) + n * n * ud).
  Proof. field. repeat split; assumption. Qed.
End Abstract.
Lemma w2_bound x : - (1 / 4) <= x <= 9 / 10 -> Rabs (w2 x) <= 16 / 10 ^ 15.
Proof.
  intros Hx. pose proof (wcert_spec _ _ _ _ _ _ _ _ _ x wcert_checked Hx) as C. rewrite caz_val in C.
  unfold N1z, D1z, az1 in C. rewrite !u_of_shift in C. rewrite pev_qmul, !pev_sq, !pev_shift, !az_val in C. fold gl in C. fold (al (x + 1)) in C.
  fold (nN (x + 1)) (nN1 (x + 1)) (nN2 (x + 1)) (dD (x + 1)) (dD1 (x + 1)) (dD2 (x + 1)) in C.
  change (IZR (10 ^ 15)) with 1000000000000000 in C.
  pose proof (qz_pos x Hx) as Pq. pose proof (al_pos (x + 1) ltac:(lra)) as Pa. pose proof (nN_pos (x + 1) ltac:(lra)) as Pn. pose proof (dD_pos (x + 1) ltac:(lra)) as Pd.
  assert (K : 0 < IZR kg) by (change (IZR kg) with 134217728; lra).
  unfold w2, lnF2, uD. rewrite uN_val.
  set (un := nN (x + 1) * nN2 (x + 1) - nN1 (x + 1) * nN1 (x + 1)) in *. set (ud := dD (x + 1) * dD2 (x + 1) - dD1 (x + 1) * dD1 (x + 1)) in *.
  pose proof (w2_alg (pev Az x) (pev qz x) (nN (x + 1)) (dD (x + 1)) un ud (al (x + 1)) (IZR kg) (IZR gz) ltac:(lra) ltac:(lra) ltac:(lra) ltac:(lra) ltac:(lra)) as E.
  fold gl in E.
  set (w := pev Az x / (pev qz x * (pev qz x * pev qz x)) - (un / (nN (x + 1) * nN (x + 1)) - ud / (dD (x + 1) * dD (x + 1)) + (1 / al (x + 1) + gl / (al (x + 1) * al (x + 1))))) in *.
  rewrite <- E in C.
  set (v := nN (x + 1) * nN (x + 1) * (dD (x + 1) * dD (x + 1)) * (IZR kg * al (x + 1) * (IZR kg * al (x + 1)) * (pev qz x * (pev qz x * pev qz x)))) in *.
  assert (V : 0 < v).
  { unfold v. revert Pq Pa Pn Pd K. generalize (pev qz x) (al (x + 1)) (nN (x + 1)) (dD (x + 1)) (IZR kg). intros. repeat apply Rmult_lt_0_compat; assumption. }
  clearbody v w. rewrite (Rabs_mult _ (w * v)), (Rabs_mult w v), (Rabs_right v), (Rabs_right 1000000000000000) in C by lra.
  rewrite <- Rmult_assoc in C. apply Rmult_le_reg_r in C; [|exact V]. lra.
Qed.
Lemma dD1_derive x : is_derive dD1 x (dD2 x). Proof. apply pev_der. Qed.
Local Opaque nN nN1 nN2 dD dD1 dD2 gl Nz Dz uN pz qz Az.
Lemma wq_derive x : - (1 / 4) <= x <= 9 / 10 -> is_derive wq x ((pev (pder pz) x * pev qz x - pev pz x * pev (pder qz) x) / (pev qz x * pev qz x)).
Proof.
  intros H. pose proof (qz_pos x H). evar_last; [apply (is_derive_div (pev pz) (pev qz) x _ _ (pev_der pz x) (pev_der qz x)); lra|]. field. lra.
Qed.
Lemma w0_derive x : - (1 / 4) <= x <= 9 / 10 -> is_derive w0 x (w1 x).
Proof.
  intros H. apply (is_derive_minus wq (fun x => lnF (x + 1)) x); [now apply wq_derive|]. apply is_derive_shift. apply lnF_derive. lra.
Qed.
Lemma uD_derive x : 0 < x -> is_derive (fun x => dD1 x / dD x) x (uD x).
Proof.
  intros H. pose proof (dD_pos x H) as P. evar_last; [apply (is_derive_div dD1 dD x (dD2 x) (dD1 x)); [apply dD1_derive|apply dD_derive|lra]|].
  unfold uD. field. lra.
Qed.
Lemma lnF1_derive x : 0 < x -> is_derive lnF1 x (lnF2 x).
Proof.
  intros H. apply (is_derive_plus (fun x => nN1 x / nN x - dD1 x / dD x) (fun x => ln (al x) - gl / al x) x); [|apply lnal_derive; lra].
  apply (is_derive_minus (fun x => nN1 x / nN x) (fun x => dD1 x / dD x) x); [apply ratio_derive; lra|now apply uD_derive].
Qed.
Lemma Az_val x : pev Az x = pev (pder (pder pz)) x * (pev qz x * pev qz x) - 2 * (pev (pder pz) x * pev (pder qz) x * pev qz x)
  - pev pz x * pev (pder (pder qz)) x * pev qz x + 2 * (pev pz x * (pev (pder qz) x * pev (pder qz) x)).
Proof. Transparent Az. unfold Az. Opaque Az. rewrite !pev_qadd, !pev_qscal, !pev_qmul, !pev_sq. ring. Qed.
Lemma w1_derive x : - (1 / 4) <= x <= 9 / 10 -> is_derive w1 x (w2 x).
Proof.
  intros H. pose proof (qz_pos x H) as P. unfold w1.
  apply (is_derive_minus (fun x => (pev (pder pz) x * pev qz x - pev pz x * pev (pder qz) x) / (pev qz x * pev qz x)) (fun x => lnF1 (x + 1)) x).
  - assert (D1 : is_derive (fun x => pev (pder pz) x * pev qz x) x (pev (pder (pder pz)) x * pev qz x + pev (pder pz) x * pev (pder qz) x))
      by (apply (is_derive_mult (pev (pder pz)) (pev qz) x); [apply pev_der|apply pev_der|intros; apply Rmult_comm]).
    assert (D2 : is_derive (fun x => pev pz x * pev (pder qz) x) x (pev (pder pz) x * pev (pder qz) x + pev pz x * pev (pder (pder qz)) x))
      by (apply (is_derive_mult (pev pz) (pev (pder qz)) x); [apply pev_der|apply pev_der|intros; apply Rmult_comm]).
    assert (D3 : is_derive (fun x => pev qz x * pev qz x) x (pev (pder qz) x * pev qz x + pev qz x * pev (pder qz) x))
      by (apply (is_derive_mult (pev qz) (pev qz) x); [apply pev_der|apply pev_der|intros; apply Rmult_comm]).
    evar_last; [apply (is_derive_div _ _ x _ _ (is_derive_minus _ _ x _ _ D1 D2) D3); apply Rmult_integral_contrapositive; lra|].
    rewrite Az_val. unfold minus, plus, opp; cbn [AbelianGroup.plus AbelianGroup.opp]. cbn -[pev pder]. field. lra.
  - apply is_derive_shift. apply lnF1_derive. lra.
Qed.

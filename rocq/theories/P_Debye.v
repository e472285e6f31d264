(** * P_Debye: accuracy of debye1 in exact arithmetic (C51) *)
From Coq Require Import ZArith Reals List Bool Lia Lra.
From Coquelicot Require Import Coquelicot.
From Flocq Require Raux.
From Verif Require Import CSem Num NumP M_Special S_Special P_LogFact P_Expint.
Import ListNotations.
Open Scope R_scope.
Local Opaque fac.

(** ** integer polynomials, lowest coefficient first *)
Fixpoint pe (l : list Z) (u : R) : R := match l with [] => 0 | a :: l' => IZR a + u * pe l' u end.
Fixpoint peZ (l : list Z) (u : Z) : Z := match l with [] => 0%Z | a :: l' => (a + u * peZ l' u)%Z end.
Fixpoint padd (a b : list Z) : list Z :=
  match a, b with [], _ => b | _, [] => a | x :: a', y :: b' => (x + y)%Z :: padd a' b' end.
Definition pscale (k : Z) (a : list Z) : list Z := map (Z.mul k) a.
Fixpoint pmul (a b : list Z) : list Z := match a with [] => [] | x :: a' => padd (pscale x b) (0%Z :: pmul a' b) end.
Fixpoint psum (l : list Z) : Z := match l with [] => 0%Z | a :: l' => (Z.abs a + psum l')%Z end.
Fixpoint psubst (b n m : Z) (l : list Z) : list Z :=
  match l with [] => [] | a :: l' => padd [(a * b ^ Z.of_nat (length l'))%Z] (pmul [n; m] (psubst b n m l')) end.
Fixpoint pder_ (k : Z) (l : list Z) : list Z := match l with [] => [] | a :: l' => (k * a)%Z :: pder_ (k + 1) l' end.
Definition pder (l : list Z) : list Z := match l with [] => [] | _ :: l' => pder_ 1 l' end.

Lemma peZ_pe l u : pe l (IZR u) = IZR (peZ l u).
Proof. induction l as [|a l IH]; [reflexivity|]. cbn [pe peZ]. now rewrite IH, plus_IZR, mult_IZR. Qed.
Lemma pe_add a : forall b u, pe (padd a b) u = pe a u + pe b u.
Proof. induction a as [|x a IH]; intros [|y b] u; cbn [padd pe]; try ring. rewrite IH, plus_IZR. ring. Qed.
Lemma pe_scale k a u : pe (pscale k a) u = IZR k * pe a u.
Proof. unfold pscale. induction a as [|x a IH]; cbn [map pe]; [ring|]. rewrite IH, mult_IZR. ring. Qed.
Lemma pe_mul a b u : pe (pmul a b) u = pe a u * pe b u.
Proof. induction a as [|x a IH]; cbn [pmul pe]; [ring|]. rewrite pe_add, pe_scale. cbn [pe]. rewrite IH. ring. Qed.
Lemma psum_pos l : (0 <= psum l)%Z.
Proof. induction l; cbn [psum]; lia. Qed.
Lemma pe_bound l u : Rabs u <= 1 -> Rabs (pe l u) <= IZR (psum l).
Proof.
  intros U. induction l as [|a l IH]; cbn [pe psum]; [rewrite Rabs_R0; lra|]. rewrite plus_IZR, abs_IZR.
  eapply Rle_trans; [apply Rabs_triang|]. apply Rplus_le_compat_l. rewrite Rabs_mult.
  pose proof (Rabs_pos (pe l u)). pose proof (Rabs_pos u). nra.
Qed.
Lemma pe_subst b n m l v : (0 < b)%Z -> l <> [] ->
  pe l ((IZR n + IZR m * v) / IZR b) = pe (psubst b n m l) v / IZR (b ^ Z.of_nat (pred (length l))).
Proof.
  intros B. assert (B' : 0 < IZR b) by now apply IZR_lt.
  assert (BP : forall k, 0 < IZR (b ^ Z.of_nat k)) by (intros; apply IZR_lt, Z.pow_pos_nonneg; lia).
  induction l as [|a l IH]; intros NE; [congruence|]. cbn [psubst pe length pred]. rewrite pe_add, pe_mul. cbn [pe]. rewrite mult_IZR.
  destruct l as [|a' l']; [cbn; field; lra|]. rewrite IH by congruence.
  change (length (a' :: l')) with (S (length l')). cbn [pred]. set (q := psubst b n m (a' :: l')).
  replace (Z.of_nat (S (length l'))) with (Z.of_nat (length l') + 1)%Z by lia. rewrite Z.pow_add_r, Z.pow_1_r, mult_IZR by lia.
  specialize (BP (length l')). set (w := IZR (b ^ Z.of_nat (length l'))) in *. clearbody w. field. lra.
Qed.
Lemma pe_der_ l : forall k u, pe (pder_ (k + 1) l) u = pe (pder_ k l) u + pe l u.
Proof.
  induction l as [|a l IH]; intros k u; cbn [pder_ pe]; [ring|]. rewrite IH, !mult_IZR, plus_IZR. ring.
Qed.
Lemma pe_der l u : is_derive (pe l) u (pe (pder l) u).
Proof.
  induction l as [|a l IH]; [apply @is_derive_const|].
  assert (E : pe (pder (a :: l)) u = 1 * pe l u + u * pe (pder l) u).
  { cbn [pder]. destruct l as [|b l]; [cbn; ring|]. cbn [pder pder_ pe]. rewrite mult_IZR. rewrite (pe_der_ l 1). ring. }
  rewrite E. change (pe (a :: l)) with (fun u => IZR a + u * pe l u).
  replace (1 * pe l u + u * pe (pder l) u) with (0 + (1 * pe l u + u * pe (pder l) u)) by ring.
  apply (is_derive_plus (fun _ => IZR a) (fun u => u * pe l u) u 0 _); [apply @is_derive_const|].
  apply (is_derive_mult (fun u => u) (pe l) u 1 (pe (pder l) u)); [apply @is_derive_id|exact IH|intros; apply Rmult_comm].
Qed.

(** ** exp near 0 *)
Lemma exp_En_abs s n : (s = 1 \/ s = -1) -> forall z, 0 <= z <= 1 / 2 ->
  Rabs (exp (- (s * z)) - En n (s * z)) <= 2 * z ^ S n / fac (S n).
Proof.
  intros Hs. assert (SS : s * s = 1) by (destruct Hs; subst; ring).
  assert (EB : forall z, 0 <= z <= 1 / 2 -> exp (- (s * z)) <= 2).
  { intros z Hz. assert (exp (- (s * z)) <= exp (1 / 2)).
    { assert (H : - (s * z) <= 1 / 2) by (destruct Hs; subst; lra). destruct H as [H|H]; [left; now apply exp_increasing|rewrite H; lra]. }
    assert (exp (1 / 2) <= 2).
    { pose proof (exp_En 1 (1 / 2) ltac:(lra)) as A. cbn [En pow] in A. rewrite fac_1 in A.
      assert (E : exp (1 / 2) * exp (- (1 / 2)) = 1) by (rewrite <- exp_plus, Rplus_opp_r; apply exp_0). pose proof (exp_pos (1 / 2)). nra. }
    lra. }
  induction n as [|n IH]; intros z Hz.
  - cbn [En pow]. rewrite fac_1. destruct Hz as [[Hz|<-] Hz'].
    2:{ rewrite !Rmult_0_r, Ropp_0, exp_0. replace (1 - 1) with 0 by ring. rewrite Rabs_R0. lra. }
    assert (G : forall r, (r = 1 \/ r = -1) -> 0 <= 2 * z - r * (exp (- (s * z)) - 1)).
    { intros r Hr. apply (mono_from_0 (fun z => 2 * z - r * (exp (- (s * z)) - 1)) (fun z => 2 + r * (s * exp (- (s * z)))) z Hz).
      - intros c Hc. auto_derive; [exact I|]. ring.
      - intros c Hc. specialize (EB c ltac:(lra)). pose proof (exp_pos (- (s * c))). destruct Hr, Hs; subst; lra.
      - rewrite !Rmult_0_r, Ropp_0, exp_0. ring. }
    pose proof (G 1 (or_introl eq_refl)). pose proof (G (-1) (or_intror eq_refl)). apply Rabs_le. lra.
  - destruct Hz as [[Hz|<-] Hz'].
    2:{ rewrite !Rmult_0_r, Ropp_0, exp_0, En_0. replace (1 - 1) with 0 by ring. rewrite Rabs_R0, pow_i by lia. unfold Rdiv. lra. }
    assert (G : forall r, (r = 1 \/ r = -1) -> 0 <= 2 * z ^ S (S n) / fac (S (S n)) - r * (exp (- (s * z)) - En (S n) (s * z))).
    { intros r Hr. apply (mono_from_0 (fun z => 2 * z ^ S (S n) / fac (S (S n)) - r * (exp (- (s * z)) - En (S n) (s * z)))
         (fun z => 2 * z ^ S n / fac (S n) - r * (- s * (exp (- (s * z)) - En n (s * z)))) z Hz).
      - intros c Hc.
        apply (is_derive_minus (fun z => 2 * z ^ S (S n) / fac (S (S n))) (fun z => r * (exp (- (s * z)) - En (S n) (s * z))) c).
        + rewrite (fac_S (S n)). pose proof (fac_pos (S n)) as P. assert (N : INR (S n) + 1 <> 0) by (pose proof (pos_INR (S n)); lra).
          set (f := fac (S n)) in *. clearbody f. assert (Hp : pred (S (S n)) = S n) by reflexivity. set (m := S (S n)) in *.
          assert (EM : INR m = INR (S n) + 1) by (unfold m; apply S_INR). clearbody m. set (q := INR (S n)) in *. clearbody q.
          auto_derive; [exact I|]. rewrite Hp, EM. field. split; [lra|exact N].
        + apply (is_derive_scal (fun z => exp (- (s * z)) - En (S n) (s * z)) c r).
          replace (- s * (exp (- (s * c)) - En n (s * c))) with (- s * exp (- (s * c)) - s * (- En n (s * c))) by ring.
          apply (is_derive_minus (fun z => exp (- (s * z))) (fun z => En (S n) (s * z)) c); [auto_derive; [exact I|]; ring|].
          apply (is_derive_comp (En (S n)) (fun z => s * z) c (- En n (s * c)) s); [apply En_derive|].
          auto_derive; [exact I|]. ring.
      - intros c Hc. specialize (IH c ltac:(lra)). apply Rabs_le_between in IH. destruct Hr, Hs; subst; lra.
      - rewrite !Rmult_0_r, Ropp_0, exp_0, En_0, pow_i by lia. unfold Rdiv. ring. }
    pose proof (G 1 (or_introl eq_refl)). pose proof (G (-1) (or_intror eq_refl)). apply Rabs_le. lra.
Qed.
Lemma exp_En_half n h : Rabs h <= 1 / 2 -> Rabs (exp (- h) - En n h) <= 2 * (1 / 2) ^ S n / fac (S n).
Proof.
  intros H. pose proof (fac_pos (S n)) as FP.
  assert (M : forall z, 0 <= z <= 1 / 2 -> 2 * z ^ S n / fac (S n) <= 2 * (1 / 2) ^ S n / fac (S n)).
  { intros z Hz. apply Rmult_le_compat_r; [left; now apply Rinv_0_lt_compat|]. apply Rmult_le_compat_l; [lra|]. apply pow_incr. lra. }
  destruct (Rle_dec 0 h).
  - rewrite Rabs_pos_eq in H by assumption. pose proof (exp_En_abs 1 n (or_introl eq_refl) h ltac:(lra)) as A. rewrite Rmult_1_l in A.
    eapply Rle_trans; [exact A|]. apply M. lra.
  - rewrite Rabs_left in H by lra. pose proof (exp_En_abs (-1) n (or_intror eq_refl) (- h) ltac:(lra)) as A.
    replace (-1 * - h) with h in A by ring. eapply Rle_trans; [exact A|]. apply M. lra.
Qed.

(** ** scaled Taylor polynomials of exp(-h) and (1 - exp(-h))/h, h = w u / 10 *)
Fixpoint ez (n : nat) (w : Z) : list Z * Z :=
  match n with
  | O => ([1%Z], 1%Z)
  | S n' => let (l, d) := ez n' w in ((map (Z.mul (10 * Z.of_nat n)) l ++ [(- w) ^ Z.of_nat n])%list%Z, (10 * Z.of_nat n * d)%Z)
  end.
Fixpoint fz (n : nat) (w : Z) : list Z * Z :=
  match n with
  | O => ([1%Z], 1%Z)
  | S n' => let (l, d) := fz n' w in ((map (Z.mul (10 * (Z.of_nat n + 1))) l ++ [(- w) ^ Z.of_nat n])%list%Z, (10 * (Z.of_nat n + 1) * d)%Z)
  end.
Lemma pe_snoc l a u : pe (l ++ [a]) u = pe l u + u ^ length l * IZR a.
Proof. induction l as [|b l IH]; cbn [app pe length pow]; [ring|]. rewrite IH. ring. Qed.
Lemma ez_spec n w : length (fst (ez n w)) = S n /\ IZR (snd (ez n w)) = 10 ^ n * fac n /\
  forall u, pe (fst (ez n w)) u = IZR (snd (ez n w)) * En n (IZR w * u / 10).
Proof.
  induction n as [|n (IHl & IHd & IH)]; [cbn; rewrite fac_0; repeat split; intros; ring|].
  cbn [ez]. destruct (ez n w) as [l d]. cbn [fst snd] in *. repeat split.
  - rewrite app_length, map_length, IHl. cbn. lia.
  - rewrite !mult_IZR, IHd, fac_S, <- INR_IZR_INZ, S_INR. cbn [pow]. ring.
  - intros u. rewrite pe_snoc, map_length, IHl. change (map (Z.mul (10 * Z.of_nat (S n))) l) with (pscale (10 * Z.of_nat (S n)) l).
    rewrite pe_scale, IH. rewrite !mult_IZR. change (En (S n) (IZR w * u / 10)) with (En n (IZR w * u / 10) + (- (IZR w * u / 10)) ^ S n / fac (S n)).
    rewrite Rmult_plus_distr_l. f_equal; [ring|]. rewrite IHd, fac_S, <- INR_IZR_INZ, S_INR, <- pow_IZR, opp_IZR.
    replace (- (IZR w * u / 10)) with ((- IZR w * u) * / 10) by (unfold Rdiv; ring). rewrite !Rpow_mult_distr, pow_inv.
    pose proof (fac_pos n). pose proof (pos_INR n). assert (T : 10 ^ n <> 0) by (apply pow_nonzero; lra).
    set (f := fac n) in *. set (q := INR n) in *. clearbody f q. cbn [pow]. set (t := 10 ^ n) in *. clearbody t. field. repeat split; lra.
Qed.
Lemma fz_spec n w : length (fst (fz n w)) = S n /\ IZR (snd (fz n w)) = 10 ^ n * fac (S n) /\
  forall u, pe (fst (fz n w)) u = IZR (snd (fz n w)) * SE n (IZR w * u / 10).
Proof.
  induction n as [|n (IHl & IHd & IH)]; [cbn; rewrite fac_1; repeat split; intros; ring|].
  cbn [fz]. destruct (fz n w) as [l d]. cbn [fst snd] in *. repeat split.
  - rewrite app_length, map_length, IHl. cbn. lia.
  - rewrite !mult_IZR, plus_IZR, IHd, (fac_S (S n)), <- INR_IZR_INZ. cbn [pow]. ring.
  - intros u. rewrite pe_snoc, map_length, IHl. change (map (Z.mul (10 * (Z.of_nat (S n) + 1))) l) with (pscale (10 * (Z.of_nat (S n) + 1)) l).
    rewrite pe_scale, IH. rewrite !mult_IZR, !plus_IZR. change (SE (S n) (IZR w * u / 10)) with (SE n (IZR w * u / 10) + (- (IZR w * u / 10)) ^ S n / fac (S (S n))).
    rewrite (Rmult_plus_distr_l _ (SE n (IZR w * u / 10))). apply (f_equal2 Rplus); [ring|]. rewrite IHd, (fac_S (S n)), <- INR_IZR_INZ, <- pow_IZR, opp_IZR.
    replace (- (IZR w * u / 10)) with ((- IZR w * u) * / 10) by (unfold Rdiv; ring). rewrite !Rpow_mult_distr, pow_inv.
    pose proof (fac_pos (S n)). pose proof (pos_INR (S n)). assert (T : 10 ^ n <> 0) by (apply pow_nonzero; lra).
    set (f := fac (S n)) in *. set (q := INR (S n)) in *. clearbody f q. cbn [pow]. set (t := 10 ^ n) in *. clearbody t. field. repeat split; lra.
Qed.

(** ** exp(-k/10) in fixed point *)
Definition SS : Z := (10 ^ 30)%Z.
Lemma SS_R : IZR SS = 10 ^ 30.
Proof. unfold SS. change (10 ^ 30)%Z with (10 ^ Z.of_nat 30)%Z. symmetry. apply pow_IZR. Qed.
Lemma SS_pos : 0 < IZR SS. Proof. apply IZR_lt. reflexivity. Qed.
Definition e0 : Z := (peZ (fst (ez 24 1)) 1 * SS / snd (ez 24 1))%Z.
Local Opaque SS.
Lemma ez_pos n w : (0 < snd (ez n w))%Z.
Proof. apply lt_IZR. rewrite (proj1 (proj2 (ez_spec n w))). apply Rmult_lt_0_compat; [apply pow_lt; lra|apply fac_pos]. Qed.
Lemma fz_pos n w : (0 < snd (fz n w))%Z.
Proof. apply lt_IZR. rewrite (proj1 (proj2 (fz_spec n w))). apply Rmult_lt_0_compat; [apply pow_lt; lra|apply fac_pos]. Qed.
Lemma fac_25 : 10 ^ 25 <= fac 25.
Proof. rewrite !fac_S, fac_0, !INR_IZR_INZ. cbn [Z.of_nat Pos.of_succ_nat Pos.succ]. cbn [pow]. lra. Qed.
Lemma e0_spec : Rabs (IZR SS * exp (- (1 / 10)) - IZR e0) <= 3.
Proof.
  destruct (ez_spec 24 1) as (_ & _ & E). specialize (E 1). pose proof (ez_pos 24 1) as P. unfold e0.
  pose proof (div_bounds (peZ (fst (ez 24 1)) 1 * SS) (snd (ez 24 1)) P) as B. rewrite mult_IZR, <- peZ_pe, E in B.
  assert (P' : 0 < IZR (snd (ez 24 1))) by now apply IZR_lt.
  set (d := IZR (snd (ez 24 1))) in *. set (q := IZR (_ / _)) in *. clearbody d q. pose proof SS_pos.
  replace (d * En 24 (1 * 1 / 10) * IZR SS / d) with (IZR SS * En 24 (1 / 10)) in B by (replace (1 * 1 / 10) with (1 / 10) by field; field; lra).
  pose proof (exp_En_abs 1 24 (or_introl eq_refl) (1 / 10) ltac:(lra)) as A. rewrite !Rmult_1_l in A.
  assert (T : IZR SS * (2 * (1 / 10) ^ 25 / fac 25) <= 2).
  { apply Rle_trans with (IZR SS * (2 * (1 / 10) ^ 25 / 10 ^ 25)).
    - apply Rmult_le_compat_l; [lra|]. unfold Rdiv. apply Rmult_le_compat_l; [cbn [pow]; lra|]. apply Rinv_le_contravar; [apply pow_lt; lra|apply fac_25].
    - rewrite SS_R. cbn [pow]. lra. }
  apply Rabs_le_between in A. set (x := exp _) in *. set (y := En _ _) in *. set (r := 2 * (1 / 10) ^ 25 / fac 25) in *. clearbody x y r.
  apply Rabs_le. nra.
Qed.
Fixpoint epsz (k : nat) : Z := match k with O => SS | S k' => (epsz k' * e0 / SS)%Z end.
Lemma e0_range : (0 <= e0 <= SS)%Z.
Proof. Transparent SS. split; apply Z.leb_le; vm_compute; reflexivity. Opaque SS. Qed.
Lemma epsz_spec k : (0 <= epsz k <= SS)%Z /\ Rabs (IZR SS * exp (- (INR k / 10)) - IZR (epsz k)) <= 4 * INR k.
Proof.
  assert (HS : (0 < SS)%Z) by (apply lt_IZR, SS_pos). pose proof e0_range as E0. pose proof SS_pos as SP.
  induction k as [|k [IH1 IH2]]; [cbn [epsz INR]; split; [lia|]; replace (- (0 / 10)) with 0 by field; rewrite exp_0, Rmult_1_r, Rminus_diag_eq, Rabs_R0 by reflexivity; lra|].
  cbn [epsz]. split.
  - split; [apply Z.div_pos; nia|]. apply Z.div_le_upper_bound; [lia|]. nia.
  - pose proof (div_bounds (epsz k * e0) SS HS) as B. rewrite mult_IZR in B. pose proof e0_spec as E.
    rewrite S_INR. replace (- ((INR k + 1) / 10)) with (- (INR k / 10) + - (1 / 10)) by field. rewrite exp_plus.
    pose proof (exp_pos (- (INR k / 10))). pose proof (exp_pos (- (1 / 10))).
    assert (X1 : exp (- (1 / 10)) <= 1) by (rewrite <- exp_0 at 2; left; apply exp_increasing; lra).
    assert (L : 0 <= IZR (epsz k) / IZR SS <= 1).
    { destruct IH1 as [I1 I2]. apply IZR_le in I1, I2. split; [apply Rmult_le_pos; [lra|left; now apply Rinv_0_lt_compat]|].
      apply (Rmult_le_reg_r (IZR SS)); [lra|]. unfold Rdiv. rewrite Rmult_assoc, Rinv_l; lra. }
    set (x := exp (- (INR k / 10))) in *. set (y := exp (- (1 / 10))) in *. set (q := IZR (epsz k * e0 / SS)) in *.
    set (a := IZR (epsz k)) in *. set (b := IZR e0) in *. set (s := IZR SS) in *. clearbody x y q a b s.
    assert (ID : s * (x * y) - q = (s * x - a) * y + a / s * (s * y - b) + (a * b / s - q)) by (field; lra).
    rewrite ID. eapply Rle_trans; [apply Rabs_triang|]. replace (4 * (INR k + 1)) with (4 * INR k + 3 + 1) by ring.
    apply Rplus_le_compat; [|apply Rabs_le; lra]. eapply Rle_trans; [apply Rabs_triang|]. rewrite !Rabs_mult, (Rabs_pos_eq y), (Rabs_pos_eq (a / s)) by lra.
    pose proof (Rabs_pos (s * x - a)). pose proof (Rabs_pos (s * y - b)). apply Rplus_le_compat; nra.
Qed.

(** ** the integrand *)
Notation gD := debye_integrand.
Lemma gD_neq t : t <> 0 -> gD t = t * exp (- t) / (1 - exp (- t)) /\ 1 - exp (- t) <> 0.
Proof.
  intros H. assert (E : exp (- t) <> 1). { intros C. apply H. rewrite <- exp_0 in C. apply exp_inv in C. lra. }
  split; [|lra]. unfold debye_integrand. destruct (Req_EM_T t 0); [contradiction|].
  assert (P := exp_pos (- t)). assert (X : exp t * exp (- t) = 1) by (rewrite <- exp_plus, Rplus_opp_r; apply exp_0).
  assert (EX : exp t = / exp (- t)) by (apply (Rmult_eq_reg_r (exp (- t))); [rewrite X, Rinv_l; lra|lra]). rewrite EX. field. repeat split; lra.
Qed.
Lemma fac_2 : fac 2 = 2.
Proof. rewrite (fac_S 1), fac_1. cbn [INR]. ring. Qed.
Lemma gD_near_0 t : Rabs t <= 1 / 2 -> Rabs (gD t - 1) <= 6 * Rabs t.
Proof.
  intros H. destruct (Req_EM_T t 0) as [->|N].
  { unfold debye_integrand. destruct (Req_EM_T 0 0); [|contradiction]. rewrite Rminus_diag_eq, Rabs_R0 by reflexivity. lra. }
  destruct (gD_neq t N) as [E D]. rewrite E.
  assert (B1 : Rabs (exp (- t) - En 1 t) <= Rabs t * Rabs t /\ Rabs (exp (- t) - En 0 t) <= 2 * Rabs t).
  { destruct (Rle_dec 0 t).
    - rewrite (Rabs_pos_eq t) in * by assumption. 
      pose proof (exp_En_abs 1 1 (or_introl eq_refl) t ltac:(lra)) as A. pose proof (exp_En_abs 1 0 (or_introl eq_refl) t ltac:(lra)) as B.
      rewrite fac_2, !Rmult_1_l in A. rewrite fac_1, !Rmult_1_l in B. cbn [INR pow] in A, B. split; lra.
    - rewrite (Rabs_left t) in * by lra.
      pose proof (exp_En_abs (-1) 1 (or_intror eq_refl) (- t) ltac:(lra)) as A. pose proof (exp_En_abs (-1) 0 (or_intror eq_refl) (- t) ltac:(lra)) as B.
      replace (-1 * - t) with t in A, B by ring. rewrite fac_2 in A. rewrite fac_1 in B. cbn [INR pow] in A, B. split; lra. }
  destruct B1 as [B1 B0]. cbn [En pow] in B1, B0. rewrite fac_1 in B1. set (e := exp (- t)) in *. clearbody e.
  assert (TP : 0 < Rabs t) by now apply Rabs_pos_lt.
  assert (DB : Rabs t / 2 <= Rabs (1 - e)).
  { assert (Rabs t <= Rabs (1 - e) + Rabs (e - (1 + - t * 1 / 1))).
    { replace t with ((1 - e) + (e - (1 + - t * 1 / 1))) at 1 by field. apply Rabs_triang. } nra. }
  replace (t * e / (1 - e) - 1) with (((e - (1 + - t * 1 / 1)) + t * (e - 1)) / (1 - e)) by (field; exact D).
  unfold Rdiv at 1. rewrite Rabs_mult, Rabs_inv. assert (0 < Rabs (1 - e)) by now apply Rabs_pos_lt.
  apply (Rmult_le_reg_r (Rabs (1 - e))); [assumption|]. rewrite Rmult_assoc, Rinv_l, Rmult_1_r by lra.
  eapply Rle_trans; [apply Rabs_triang|]. rewrite Rabs_mult. nra.
Qed.
Lemma gD_cont t : continuous gD t.
Proof.
  destruct (Req_EM_T t 0) as [->|N].
  - intros P [eps HP]. assert (G0 : gD 0 = 1) by (unfold debye_integrand; destruct (Req_EM_T 0 0); [reflexivity|contradiction]).
    assert (HD : 0 < Rmin (1 / 2) (eps / 7)) by (apply Rmin_pos; [lra|]; destruct eps as [e He]; cbn; lra).
    exists (mkposreal _ HD). intros y Hy. apply HP. unfold ball in *; cbn in *. unfold AbsRing_ball, abs, minus, plus, opp in *; cbn in *.
    rewrite G0. replace (y + - 0) with y in Hy by ring. 
    assert (Y1 : Rabs y < 1 / 2) by (eapply Rlt_le_trans; [exact Hy|apply Rmin_l]).
    assert (Y2 : Rabs y < eps / 7) by (eapply Rlt_le_trans; [exact Hy|apply Rmin_r]).
    pose proof (gD_near_0 y ltac:(lra)). change (gD y + - (1)) with (gD y - 1). destruct eps as [e He]; cbn in *. lra.
  - apply (continuous_ext_loc gD (fun t => t * exp (- t) / (1 - exp (- t))) t).
    + exists (mkposreal (Rabs t) (Rabs_pos_lt t N)). intros y Hy. unfold ball in Hy; cbn in Hy. unfold AbsRing_ball, abs, minus, plus, opp in Hy; cbn in Hy.
      symmetry. apply gD_neq. intros ->. rewrite Rplus_0_l, Rabs_Ropp in Hy. lra.
    + apply (ex_derive_continuous (K := R_AbsRing) (V := R_NormedModule)). destruct (gD_neq t N) as [_ D]. auto_derive. exact D.
Qed.
Definition Ix (x : R) : R := RInt gD 0 x.
Lemma gD_RInt a b : is_RInt gD a b (RInt gD a b).
Proof. apply (RInt_correct (V := R_CompleteNormedModule)), (ex_RInt_continuous (V := R_CompleteNormedModule)). intros z _. apply gD_cont. Qed.
Lemma Ix_derive x : is_derive Ix x (gD x).
Proof.
  apply (is_derive_RInt gD Ix 0 x); [|apply gD_cont]. exists (mkposreal 1 Rlt_0_1). intros y _. apply gD_RInt.
Qed.
Lemma Ix_0 : Ix 0 = 0.
Proof. unfold Ix. apply (RInt_point (V := R_CompleteNormedModule)). Qed.
Lemma gD_pos t : 0 < gD t.
Proof.
  unfold debye_integrand. destruct (Req_EM_T t 0); [lra|]. destruct (Rlt_dec 0 t).
  - apply Rdiv_lt_0_compat; [lra|]. pose proof (exp_ineq1 t n). lra.
  - assert (t < 0) by lra. assert (exp t < 1) by (rewrite <- exp_0; now apply exp_increasing).
    replace (t / (exp t - 1)) with (- t / (1 - exp t)) by (field; lra). apply Rdiv_lt_0_compat; lra.
Qed.
Lemma Ix_mono a b : a <= b -> Ix a <= Ix b.
Proof.
  intros [H|<-]; [|lra]. destruct (MVT_cor2 Ix gD a b H) as (c & E & Hc).
  { intros c _. apply is_derive_Reals, Ix_derive. }
  pose proof (gD_pos c). nra.
Qed.
Lemma D1_Ix x v : is_D1 x v <-> (x = 0 /\ v = 1) \/ (x <> 0 /\ v = Ix x / x).
Proof.
  unfold is_D1. split; intros [H|[H E]]; try (now left); right; split; auto.
  - apply (is_RInt_unique (V := R_CompleteNormedModule)) in E. unfold Ix. rewrite E. field. exact H.
  - subst v. replace (x * (Ix x / x)) with (Ix x) by (field; exact H). apply gD_RInt.
Qed.

(** ** a polynomial close to the integrand on one interval: t = (cn + wn u)/10, |u| <= 1 *)
Definition KK (wn : Z) : nat := if (wn =? 1)%Z then 14 else 20.
Definition resZ (cn wn eps : Z) (G : list Z) : list Z :=
  let (E, DE) := ez (KK wn) wn in
  padd (pscale 10 (pmul G (padd [SS * DE]%Z (pscale (- eps) E)))) (pscale (- (SS * eps)) (pmul [cn; wn] E)).
Definition g_check (cn wn eps : Z) (G : list Z) : bool :=
  ((psum G <=? 2 * SS) && (psum (resZ cn wn eps G) * 10 ^ 24 <=? 10 * SS * SS * snd (ez (KK wn) wn)))%Z.

Lemma fac_15 : 10 ^ 12 <= fac 15.
Proof. rewrite !fac_S, fac_0, !INR_IZR_INZ. cbn [Z.of_nat Pos.of_succ_nat Pos.succ]. cbn [pow]. lra. Qed.
Lemma fac_21 : 10 ^ 19 <= fac 21.
Proof. rewrite !fac_S, fac_0, !INR_IZR_INZ. cbn [Z.of_nat Pos.of_succ_nat Pos.succ]. cbn [pow]. lra. Qed.
Lemma exp_En_sym n h : Rabs h <= 1 / 2 -> Rabs (exp (- h) - En n h) <= 2 * Rabs h ^ S n / fac (S n).
Proof.
  intros H. destruct (Rle_dec 0 h).
  - rewrite (Rabs_pos_eq h) in * by assumption. pose proof (exp_En_abs 1 n (or_introl eq_refl) h ltac:(lra)) as A. now rewrite Rmult_1_l in A.
  - rewrite (Rabs_left h) in * by lra. pose proof (exp_En_abs (-1) n (or_intror eq_refl) (- h) ltac:(lra)) as A.
    now replace (-1 * - h) with h in A by ring.
Qed.
Lemma exp_En_bound n h r d : 0 < d -> d <= fac (S n) -> Rabs h <= r -> r <= 1 / 2 -> Rabs (exp (- h) - En n h) <= 2 * r ^ S n / d.
Proof.
  intros D F H R. eapply Rle_trans; [apply exp_En_sym; lra|]. pose proof (Rabs_pos h). pose proof (fac_pos (S n)).
  assert (P : Rabs h ^ S n <= r ^ S n) by (apply pow_incr; lra). assert (0 <= Rabs h ^ S n) by (apply pow_le; lra).
  unfold Rdiv. apply Rmult_le_compat; [lra|left; apply Rinv_0_lt_compat; lra|lra|apply Rinv_le_contravar; lra].
Qed.
Lemma exp_En_KK wn h : (0 < wn <= 5)%Z -> Rabs h <= IZR wn / 10 -> Rabs (exp (- h) - En (KK wn) h) <= 1 / 10 ^ 25.
Proof.
  intros W H. unfold KK. destruct (Z.eqb_spec wn 1) as [->|N].
  - eapply Rle_trans; [apply (exp_En_bound 14 h (1 / 10) (10 ^ 12)); [apply pow_lt; lra|apply fac_15|lra|lra]|]. cbn [pow]. lra.
  - assert (IZR wn <= 5) by (apply IZR_le; lia).
    eapply Rle_trans; [apply (exp_En_bound 20 h (1 / 2) (10 ^ 19)); [apply pow_lt; lra|apply fac_21|lra|lra]|]. cbn [pow]. lra.
Qed.
Lemma g_cell cn wn G : (0 < wn <= 5)%Z -> (wn + 2 <= cn)%Z -> (cn + wn <= 410)%Z -> g_check cn wn (epsz (Z.to_nat cn)) G = true ->
  forall u, Rabs u <= 1 -> Rabs (gD ((IZR cn + IZR wn * u) / 10) - pe G u / IZR SS) <= 1 / 10 ^ 22.
Proof.
  intros W C C' GC u U. unfold g_check in GC. apply andb_prop in GC. destruct GC as [G1 G2]. apply Z.leb_le in G1, G2.
  pose proof (epsz_spec (Z.to_nat cn)) as [EP1 EP2]. rewrite INR_IZR_INZ, Z2Nat.id in EP2 by lia.
  set (eps := epsz (Z.to_nat cn)) in *.
  assert (CR : 3 <= IZR cn <= 410) by (split; apply IZR_le; lia). assert (WR : 1 <= IZR wn <= 5) by (split; apply IZR_le; lia).
  assert (CW : IZR wn + 2 <= IZR cn) by (rewrite <- plus_IZR; apply IZR_le; lia). assert (CW' : IZR cn + IZR wn <= 410) by (rewrite <- plus_IZR; apply IZR_le; lia).
  apply Rabs_le_between in U.
  set (h := IZR wn * u / 10). assert (Hh : Rabs h <= 1 / 2) by (unfold h; apply Rabs_le; nra).
  assert (Hh2 : Rabs h <= IZR wn / 10) by (unfold h; apply Rabs_le; nra). pose proof (exp_En_KK wn h W Hh2) as EH. set (t := (IZR cn + IZR wn * u) / 10). assert (Ht : 2 / 10 <= t <= 41) by (unfold t; nra).
  destruct (gD_neq t ltac:(lra)) as [Eg _].
  assert (ET : exp (- t) = exp (- (IZR cn / 10)) * exp (- h)) by (rewrite <- exp_plus; f_equal; unfold t, h; field).
  destruct (ez_spec (KK wn) wn) as (_ & _ & PE). pose proof (ez_pos (KK wn) wn) as DEP. unfold resZ in G2. 
  assert (PR : pe (resZ cn wn eps G) u = 10 * pe G u * (IZR SS * IZR (snd (ez (KK wn) wn)) - IZR eps * (IZR (snd (ez (KK wn) wn)) * En (KK wn) h))
                 - IZR SS * IZR eps * (IZR cn + IZR wn * u) * (IZR (snd (ez (KK wn) wn)) * En (KK wn) h)).
  { unfold resZ. specialize (PE u). destruct (ez (KK wn) wn) as [E DE]. cbn [fst snd] in *.
    rewrite pe_add, pe_scale, pe_mul, pe_add, !pe_scale, pe_mul. cbn [pe]. rewrite PE. fold h. rewrite !opp_IZR, !mult_IZR. ring. }
  assert (BR : Rabs (pe (resZ cn wn eps G) u) <= IZR (psum (resZ cn wn eps G))) by (apply pe_bound, Rabs_le; lra).
  assert (BG : Rabs (pe G u) <= IZR (psum G)) by (apply pe_bound, Rabs_le; lra).
  unfold resZ in PR, BR. destruct (ez (KK wn) wn) as [E DE]. cbn [fst snd] in *.
  set (RZ := padd _ _) in *. clearbody RZ. apply IZR_le in G1, G2. rewrite mult_IZR in G1. rewrite (mult_IZR (psum RZ)), (mult_IZR (10 * SS * SS)), (mult_IZR (10 * SS)), (mult_IZR 10) in G2. apply IZR_lt in DEP.
  assert (P24 : IZR (10 ^ 24) = 10 ^ 24) by (change (10 ^ 24)%Z with (10 ^ Z.of_nat 24)%Z; symmetry; apply pow_IZR). rewrite P24 in G2.
  pose proof SS_pos as SP. pose proof SS_R as SR. destruct EP1 as [EPa EPb]. apply IZR_le in EPa, EPb.
  set (e1 := exp (- (IZR cn / 10))) in *. set (e2 := exp (- h)) in *. set (E2 := En (KK wn) h) in *.
  assert (E1B : 0 < e1 <= 1) by (unfold e1; split; [apply exp_pos|rewrite <- exp_0; left; apply exp_increasing; lra]).
  set (s := IZR SS) in *. set (d := IZR DE) in *. clearbody s d. set (ep := IZR eps / s). set (g := pe G u / s).
  assert (EPB : Rabs (ep - e1) <= 1 / 10 ^ 26).
  { unfold ep. replace (IZR eps / s - e1) with (- (s * e1 - IZR eps) / s) by (field; lra). unfold Rdiv at 1. rewrite Rabs_mult, Rabs_Ropp, Rabs_inv, (Rabs_pos_eq s) by lra.
    apply (Rmult_le_reg_r s); [lra|]. rewrite Rmult_assoc, Rinv_l, Rmult_1_r by lra. eapply Rle_trans; [exact EP2|].
    apply Rle_trans with 1640; [lra|]. rewrite SR. cbn [pow]. lra. }
  assert (GB : Rabs g <= 2).
  { unfold g, Rdiv. rewrite Rabs_mult, Rabs_inv, (Rabs_pos_eq s) by lra. apply (Rmult_le_reg_r s); [lra|]. rewrite Rmult_assoc, Rinv_l by lra. lra. }
  (* the residual *)
  assert (RB : Rabs (g * (1 - ep * E2) - t * (ep * E2)) <= 1 / 10 ^ 24).
  { replace (g * (1 - ep * E2) - t * (ep * E2)) with (pe RZ u / (10 * s * s * d)) by (rewrite PR; unfold g, ep, t; field; lra).
    assert (T : 0 < 10 * s * s * d) by (apply Rmult_lt_0_compat; [apply Rmult_lt_0_compat; lra|lra]).
    unfold Rdiv at 1. rewrite Rabs_mult, Rabs_inv, (Rabs_pos_eq (10 * s * s * d)) by lra.
    apply (Rmult_le_reg_r (10 * s * s * d)); [lra|]. rewrite Rmult_assoc, Rinv_l, Rmult_1_r by lra.
    assert (T24 : 0 < 10 ^ 24) by (apply pow_lt; lra). set (q := 10 ^ 24) in *. clearbody q.
    apply (Rmult_le_reg_r q); [lra|]. replace (1 / q * (10 * s * s * d) * q) with (10 * s * s * d) by (field; lra). apply Rle_trans with (IZR (psum RZ) * q); [apply Rmult_le_compat_r; lra|lra]. }
  assert (E2B : Rabs E2 <= 3).
  { assert (e2 <= 2).
    { unfold e2. pose proof (exp_En_half 0 h Hh) as A. cbn [En pow] in A. rewrite fac_1 in A. apply Rabs_le_between in A. lra. }
    pose proof (exp_pos (- h)) as X. fold e2 in X. assert (1 / 10 ^ 25 <= 1) by (cbn [pow]; lra). apply Rabs_le_between in EH. apply Rabs_le. lra. }
  assert (DB : Rabs (ep * E2 - e1 * e2) <= 2 / 10 ^ 25).
  { replace (ep * E2 - e1 * e2) with ((ep - e1) * E2 + e1 * - (e2 - E2)) by ring. eapply Rle_trans; [apply Rabs_triang|]. rewrite !Rabs_mult, Rabs_Ropp, (Rabs_pos_eq e1) by lra.
    pose proof (Rabs_pos (ep - e1)). pose proof (Rabs_pos E2). pose proof (Rabs_pos (e2 - E2)).
    apply Rle_trans with (1 / 10 ^ 26 * 3 + 1 * (1 / 10 ^ 25)); [|cbn [pow]; lra].
    apply Rplus_le_compat; apply Rmult_le_compat; lra. }
  rewrite <- ET in DB. set (et := exp (- t)) in *.
  assert (ETB : 0 < et <= 5 / 6).
  { unfold et. split; [apply exp_pos|]. rewrite exp_Ropp. apply Rle_trans with (/ (1 + t)); [apply Rinv_le_contravar; [lra|apply exp_ineq1_le]|].
    replace (5 / 6) with (/ (6 / 5)) by field. apply Rinv_le_contravar; lra. }
  assert (FB : Rabs (g * (1 - et) - t * et) <= 1 / 10 ^ 23).
  { replace (g * (1 - et) - t * et) with ((g * (1 - ep * E2) - t * (ep * E2)) + (ep * E2 - et) * (g + t)) by ring.
    eapply Rle_trans; [apply Rabs_triang|]. rewrite Rabs_mult.
    assert (Rabs (g + t) <= 43) by (eapply Rle_trans; [apply Rabs_triang|]; rewrite (Rabs_pos_eq t); lra).
    pose proof (Rabs_pos (g + t)). pose proof (Rabs_pos (ep * E2 - et)).
    apply Rle_trans with (1 / 10 ^ 24 + 2 / 10 ^ 25 * 43); [|cbn [pow]; lra]. apply Rplus_le_compat; [exact RB|]. apply Rmult_le_compat; lra. }
  rewrite Eg. fold et. replace (t * et / (1 - et) - g) with (- (g * (1 - et) - t * et) / (1 - et)) by (field; lra).
  unfold Rdiv at 1. rewrite Rabs_mult, Rabs_Ropp, Rabs_inv, (Rabs_pos_eq (1 - et)) by lra.
  apply (Rmult_le_reg_r (1 - et)); [lra|]. rewrite Rmult_assoc, Rinv_l, Rmult_1_r by lra. eapply Rle_trans; [exact FB|].
  apply Rle_trans with (1 / 10 ^ 22 * (1 / 6)); [cbn [pow]; lra|]. apply Rmult_le_compat_l; [cbn [pow]; lra|lra].
Qed.

(** ** one cell of the table *)
Definition LL : Z := 232792560.
Fixpoint jz (k : Z) (l : list Z) : list Z := match l with [] => [] | a :: l' => (a * (LL / k))%Z :: jz (k + 1) l' end.
Definition JZ (G : list Z) : list Z := 0%Z :: jz 1 G.
Fixpoint leqb (a b : list Z) : bool := match a, b with [], [] => true | x :: a', y :: b' => ((x =? y)%Z && leqb a' b')%bool | _, _ => false end.
Lemma leqb_eq a : forall b, leqb a b = true -> a = b.
Proof.
  induction a as [|x a IH]; intros [|y b] H; try discriminate; [reflexivity|]. cbn [leqb] in H. apply andb_prop in H. destruct H as [H1 H2].
  apply Z.eqb_eq in H1. now rewrite H1, (IH b H2).
Qed.
Definition SI : Z := (10 * LL * SS)%Z.
Lemma SI_pos : 0 < IZR SI. Proof. unfold SI. rewrite mult_IZR. apply Rmult_lt_0_compat; [apply IZR_lt; reflexivity|apply SS_pos]. Qed.
Lemma SI_R : IZR SI = 10 * IZR LL * IZR SS. Proof. unfold SI. now rewrite !mult_IZR. Qed.
Local Opaque SI LL.
Lemma LL_pos : 0 < IZR LL. Proof. apply IZR_lt. reflexivity. Qed.

Lemma I_cell cn wn G dl : (0 < wn <= 5)%Z -> leqb (pder (JZ G)) (pscale LL G) = true -> 
  (forall u, Rabs u <= 1 -> Rabs (gD ((IZR cn + IZR wn * u) / 10) - pe G u / IZR SS) <= dl) ->
  forall u, -1 <= u <= 1 ->
    Rabs (Ix ((IZR cn + IZR wn * u) / 10) - Ix ((IZR cn - IZR wn) / 10) - IZR wn * (pe (JZ G) u - pe (JZ G) (-1)) / IZR SI) <= dl.
Proof.
  intros W LE HG u U. apply leqb_eq in LE. assert (WR : 1 <= IZR wn <= 5) by (split; apply IZR_le; lia).
  pose proof SI_pos as SIP. pose proof SI_R as SIR. pose proof SS_pos as SP. pose proof LL_pos as LP.
  assert (DL : 0 <= dl) by (eapply Rle_trans; [apply Rabs_pos|apply (HG 0); rewrite Rabs_R0; lra]).
  set (K := fun u => Ix ((IZR cn + IZR wn * u) / 10) - IZR wn * pe (JZ G) u / IZR SI).
  assert (D : forall u, is_derive K u (IZR wn / 10 * (gD ((IZR cn + IZR wn * u) / 10) - pe G u / IZR SS))).
  { intros y. unfold K. replace (IZR wn / 10 * (gD ((IZR cn + IZR wn * y) / 10) - pe G y / IZR SS))
      with (IZR wn / 10 * gD ((IZR cn + IZR wn * y) / 10) - IZR wn * (IZR LL * pe G y) / IZR SI) by (rewrite SIR; field; lra).
    apply (is_derive_minus (fun u => Ix ((IZR cn + IZR wn * u) / 10)) (fun u => IZR wn * pe (JZ G) u / IZR SI) y).
    - apply (is_derive_comp Ix (fun u => (IZR cn + IZR wn * u) / 10) y (gD ((IZR cn + IZR wn * y) / 10)) (IZR wn / 10)); [apply Ix_derive|].
      auto_derive; [exact I|]. field.
    - rewrite <- pe_scale, <- LE. pose proof (pe_der (JZ G) y) as PD. set (f := pe (JZ G)) in *. clearbody f. set (f' := pe _ y) in *. clearbody f'.
      assert (ED : ex_derive f y) by now exists f'. assert (E1 : Derive f y = f') by now apply is_derive_unique.
      auto_derive; [exact ED|]. change (Derive (fun x => f x) y) with (Derive f y). rewrite E1. field. lra. }
  assert (E : Ix ((IZR cn + IZR wn * u) / 10) - Ix ((IZR cn - IZR wn) / 10) - IZR wn * (pe (JZ G) u - pe (JZ G) (-1)) / IZR SI = K u - K (-1)).
  { unfold K. replace ((IZR cn + IZR wn * -1) / 10) with ((IZR cn - IZR wn) / 10) by field. field. lra. }
  rewrite E. destruct U as [[U1|<-] U2]; [|rewrite Rminus_diag_eq, Rabs_R0 by reflexivity; exact DL].
  destruct (MVT_cor2 K _ (-1) u U1 (fun c _ => proj1 (is_derive_Reals K c _) (D c))) as (c & EQ & Hc). rewrite EQ.
  assert (HC := HG c ltac:(apply Rabs_le; lra)). rewrite !Rabs_mult, (Rabs_pos_eq (IZR wn / 10)), (Rabs_pos_eq (u - -1)) by lra.
  set (X := Rabs _) in *. assert (0 <= X) by apply Rabs_pos. clearbody X. assert (IZR wn / 10 * (u - -1) <= 1) by nra.
  assert (0 <= IZR wn / 10 * (u - -1)) by nra. nra.
Qed.

Definition litR (p : Z * Z) : R := IZR (fst p) * powerRZ 10 (snd p).
Fixpoint polyR (x : R) (c : list (Z * Z)) : R := match c with [] => 0 | p :: c' => litR p + x * polyR x c' end.
Definition exp_ok (p : Z * Z) : bool := ((-36 <=? snd p) && (snd p <=? 0))%Z.
Definition D36 : Z := (10 ^ 36)%Z.
Local Opaque D36.
Lemma D36_pos : 0 < IZR D36. Proof. apply IZR_lt. reflexivity. Qed.
Lemma pe_lits c x : forallb exp_ok c = true -> pe (map lit_scaled c) x = IZR D36 * polyR x c.
Proof.
  induction c as [|p c IH]; intros H; cbn [map pe polyR]; [ring|]. cbn [forallb] in H. apply andb_prop in H. destruct H as [H1 H2].
  rewrite (IH H2). unfold exp_ok in H1. apply andb_prop in H1. destruct H1 as [A B]. apply Z.leb_le in A, B.
  unfold lit_scaled. rewrite <- powerRZ_scaled by lia. change D with D36. unfold litR. ring.
Qed.
Definition cell_val (sc : bool) (t : R) (c : list (Z * Z)) : R := if sc then polyR t c else t * polyR t c.
Definition cell_poly (cn wn : Z) (sc : bool) (c : list (Z * Z)) : list Z * Z :=
  let P0 := psubst 10 cn wn (map lit_scaled c) in
  let s0 := (D36 * 10 ^ Z.of_nat (pred (length c)))%Z in
  if sc then (P0, s0) else (pmul [cn; wn] P0, (10 * s0)%Z).
Lemma cell_poly_spec cn wn sc c u : c <> [] -> forallb exp_ok c = true ->
  let (P, sP) := cell_poly cn wn sc c in 0 < IZR sP /\ cell_val sc ((IZR cn + IZR wn * u) / 10) c = pe P u / IZR sP.
Proof.
  intros N H. unfold cell_poly, cell_val.
  pose proof (pe_subst 10 cn wn (map lit_scaled c) u ltac:(lia) ltac:(destruct c; [congruence|discriminate])) as E.
  rewrite (pe_lits c _ H), map_length in E. pose proof D36_pos as DP.
  assert (TP : 0 < IZR (10 ^ Z.of_nat (pred (length c)))) by (apply IZR_lt, Z.pow_pos_nonneg; lia).
  set (P0 := psubst _ _ _ _) in *. set (q := (10 ^ Z.of_nat (pred (length c)))%Z) in *. clearbody P0 q.
  destruct sc; rewrite ?mult_IZR; set (dd := IZR D36) in *; clearbody dd; set (qq := IZR q) in *; clearbody qq; (split; [nra|]).
  - apply (Rmult_eq_reg_l dd); [|lra]. rewrite E. field. lra.
  - rewrite pe_mul. cbn [pe]. apply (Rmult_eq_reg_l dd); [|lra].
    transitivity ((IZR cn + IZR wn * u) / 10 * (dd * polyR ((IZR cn + IZR wn * u) / 10) c)); [ring|]. rewrite E. field. lra.
Qed.
Definition sub_ok (Q : list Z) (bound : Z) (k : Z) : bool :=
  (psum (psubst 4 k 1 Q) * 10 ^ 17 <=? bound * 4 ^ Z.of_nat (pred (length Q)))%Z.
Definition subs_ok (Q : list Z) (bound : Z) : bool := forallb (sub_ok Q bound) [-3; -1; 1; 3]%Z.
Lemma subs_ok_spec Q bound u : Q <> [] -> subs_ok Q bound = true -> -1 <= u <= 1 -> Rabs (pe Q u) * 10 ^ 17 <= IZR bound.
Proof.
  intros N H U. assert (EX : exists k v, In k [-3; -1; 1; 3]%Z /\ Rabs v <= 1 /\ u = (IZR k + 1 * v) / 4).
  { destruct (Rle_dec u (-1 / 2)); [exists (-3)%Z, (4 * u - -3)|destruct (Rle_dec u 0); [exists (-1)%Z, (4 * u - -1)|destruct (Rle_dec u (1 / 2)); [exists 1%Z, (4 * u - 1)|exists 3%Z, (4 * u - 3)]]];
      (split; [cbn; tauto|split; [|field]]); apply Rabs_le; lra. }
  destruct EX as (k & v & K & V & ->). pose proof (proj1 (forallb_forall _ _) H k K) as S. unfold sub_ok in S. apply Z.leb_le in S.
  change 4 with (IZR 4). rewrite pe_subst by (try exact N; lia). pose proof (pe_bound (psubst 4 k 1 Q) v V) as B.
  assert (T : 0 < IZR (4 ^ Z.of_nat (pred (length Q)))) by (apply IZR_lt, Z.pow_pos_nonneg; lia).
  apply IZR_le in S. rewrite !mult_IZR in S. assert (P17 : IZR (10 ^ 17) = 10 ^ 17) by (change (10 ^ 17)%Z with (10 ^ Z.of_nat 17)%Z; symmetry; apply pow_IZR).
  rewrite P17 in S. assert (0 < 10 ^ 17) by (apply pow_lt; lra). set (q := 10 ^ 17) in *. clearbody q.
  set (w := IZR (4 ^ _)) in *. clearbody w. unfold Rdiv. rewrite Rabs_mult, Rabs_inv, (Rabs_pos_eq w) by lra.
  apply (Rmult_le_reg_r w); [exact T|]. replace (Rabs (pe (psubst 4 k 1 Q) v) * / w * q * w) with (Rabs (pe (psubst 4 k 1 Q) v) * q) by (field; lra).
  nra.
Qed.

Fixpoint ecs (n : nat) (i e wn : Z) : list Z := match n with O => [] | S n' => e :: ecs n' (i + 1) (e * - wn / (10 * (i + 1))) wn end.
Fixpoint dotz (a b : list Z) : Z := match a, b with x :: a', y :: b' => (x * y + dotz a' b')%Z | _, _ => 0%Z end.
Fixpoint sdiv (den0 : Z) (dtl num grev : list Z) : list Z :=
  match num with [] => rev grev | n :: num' => sdiv den0 dtl num' (((n * SS - dotz dtl grev) / den0)%Z :: grev) end.
Fixpoint nums (cn wn eps prev : Z) (es : list Z) : list Z :=
  match es with [] => [] | e :: es' => ((cn * eps * e + wn * eps * prev) / (10 * SS))%Z :: nums cn wn eps e es' end.
Definition oracle (cn wn eps : Z) : list Z :=
  let es := ecs (KK wn) 0 SS wn in
  sdiv (SS - eps) (map (fun e => (- (eps * e / SS))%Z) (tl es)) (nums cn wn eps 0 es) [].

Definition cell_Q (cn wn : Z) (sc : bool) (c : list (Z * Z)) (J : list Z) (Ia : Z) : list Z * Z :=
  let (P, sP) := cell_poly cn wn sc c in
  (padd (pscale SI P) (pscale (- sP) (padd [(Ia - wn * peZ J (-1))%Z] (pscale wn J))), (319 * Ia * sP)%Z).
Definition nonnil {A} (l : list A) : bool := match l with [] => false | _ => true end.
Definition cell_check (cn wn : Z) (sc : bool) (c : list (Z * Z)) (eps Ia : Z) : option Z :=
  let G := oracle cn wn eps in let J := JZ G in
  let (Q, b) := cell_Q cn wn sc c J Ia in
  if ((0 <? wn) && (wn <=? 5) && (wn + 2 <=? cn) && (cn + wn <=? 410) && (SI <=? 10 * Ia) && nonnil c && nonnil Q && forallb exp_ok c
      && g_check cn wn eps G && leqb (pder J) (pscale LL G) && subs_ok Q b)%Z%bool
  then Some (Ia + wn * (peZ J 1 - peZ J (-1)))%Z else None.

Lemma pe_cons0 a u : pe [a] u = IZR a. Proof. cbn [pe]. ring. Qed.
Lemma SI_small : 1 / 10 ^ 22 <= 1. Proof. apply (Rmult_le_reg_r (10 ^ 22)); [apply pow_lt; lra|]. cbn [pow]; lra. Qed.
Lemma some_inv {A} (a b : A) : Some a = Some b -> a = b. Proof. congruence. Qed.
Lemma pair_inv {A B} (a c : A) (b d : B) : (a, b) = (c, d) -> a = c /\ b = d. Proof. split; congruence. Qed.
Lemma cell_spec cn wn sc c Ia Ia' e : cell_check cn wn sc c (epsz (Z.to_nat cn)) Ia = Some Ia' -> 0 <= e <= 2 / 10 ^ 20 ->
  Rabs (Ix ((IZR cn - IZR wn) / 10) - IZR Ia / IZR SI) <= e ->
  (forall u, -1 <= u <= 1 -> Rabs (cell_val sc ((IZR cn + IZR wn * u) / 10) c - Ix ((IZR cn + IZR wn * u) / 10)) <= 32 / 10 ^ 16 * Ix ((IZR cn + IZR wn * u) / 10)) /\
  Rabs (Ix ((IZR cn + IZR wn) / 10) - IZR Ia' / IZR SI) <= e + 1 / 10 ^ 22.
Proof.
  unfold cell_check. intros H E HI. set (G := oracle cn wn _) in *. clearbody G. set (J := JZ G) in *.
  destruct (cell_Q cn wn sc c J Ia) as [Q b] eqn:EQ.
  match type of H with (if ?B then _ else _) = _ => destruct B eqn:CB; [|discriminate] end. apply some_inv in H. subst Ia'.
  repeat (apply andb_prop in CB; destruct CB as [CB ?H]).
  apply Z.ltb_lt in CB. repeat match goal with X : (_ <=? _)%Z = true |- _ => apply Z.leb_le in X end.
  assert (HG := g_cell cn wn G ltac:(lia) ltac:(lia) ltac:(lia) H1).
  assert (HC := I_cell cn wn G _ ltac:(lia) H0 HG).
  assert (WR : 1 <= IZR wn <= 5) by (split; apply IZR_le; lia).
  assert (CR : IZR wn + 2 <= IZR cn) by (rewrite <- (plus_IZR wn 2); apply IZR_le; lia).
  pose proof SI_pos as SIP. 
  assert (IAR : IZR SI <= 10 * IZR Ia) by (rewrite <- (mult_IZR 10); apply IZR_le; lia).
  fold J in HC. clearbody J. set (L := Ix ((IZR cn - IZR wn) / 10)) in *.
  assert (IP : 1 / 10 <= IZR Ia / IZR SI) by (apply (Rmult_le_reg_r (IZR SI)); [exact SIP|]; unfold Rdiv at 2; rewrite Rmult_assoc, Rinv_l by lra; lra).
  assert (CN : c <> []) by (destruct c; [discriminate|congruence]).
  assert (QN : Q <> []) by (destruct Q; [discriminate|congruence]).
  split.
  - intros u U. assert (B := HC u U). assert (S := subs_ok_spec Q b u QN H U).
    pose proof (cell_poly_spec cn wn sc c u CN H2) as PS. unfold cell_Q in EQ. destruct (cell_poly cn wn sc c) as [P sP]. destruct PS as [SPP PE].
    apply pair_inv in EQ. destruct EQ as [<- <-]. rewrite pe_add, !pe_scale, pe_add, pe_scale, pe_cons0, minus_IZR, mult_IZR, <- peZ_pe, opp_IZR, !mult_IZR in S.
    rewrite PE. assert (MON : L <= Ix ((IZR cn + IZR wn * u) / 10)) by (apply Ix_mono; nra).
    set (It := Ix ((IZR cn + IZR wn * u) / 10)) in *. clearbody It L.
    set (p := pe P u) in *. set (j := pe J u) in *. set (j1 := pe J (-1)) in *. clearbody p j j1. set (s := IZR SI) in *. clearbody s.
    set (sp := IZR sP) in *. clearbody sp. set (ia := IZR Ia) in *. clearbody ia. set (w := IZR wn) in *. clearbody w. change (IZR 319) with 319 in S. change (IZR (-1)) with (-1) in *.
    set (X := p / sp - (ia / s + w * (j - j1) / s)).
    assert (EX : s * p + - sp * (ia - w * j1 + w * j) = X * (s * sp)) by (unfold X; field; lra).
    rewrite EX in S. rewrite Rabs_mult, (Rabs_pos_eq (s * sp)) in S by nra.
    assert (SX : Rabs X <= 319 / 10 ^ 17 * (ia / s)).
    { apply (Rmult_le_reg_r (s * sp * 10 ^ 17)); [apply Rmult_lt_0_compat; [nra|apply pow_lt; lra]|].
      assert (T0 : 10 ^ 17 <> 0) by (apply pow_nonzero; lra). set (t := 10 ^ 17) in *. clearbody t.
      replace (319 / t * (ia / s) * (s * sp * t)) with (319 * ia * sp) by (field; split; lra). lra. }
    replace (p / sp - It) with (X - (It - L - w * (j - j1) / s) - (L - ia / s)) by (unfold X; ring).
    set (y := ia / s) in *. clearbody y X. set (Y := It - L - w * (j - j1) / s) in *. clearbody Y.
    apply Rabs_le_between in B. apply Rabs_le_between in HI. apply Rabs_le_between in SX.
    assert (T1 : 1 / 10 ^ 22 <= 2 / 10 ^ 20) by (cbn [pow]; lra). assert (T2 : e <= 2 / 10 ^ 20) by (cbn [pow] in *; lra).
    assert (T3 : 319 / 10 ^ 17 * y <= 319 / 10 ^ 17 * (It + 2 / 10 ^ 20)) by (apply Rmult_le_compat_l; [cbn [pow]; lra|lra]).
    assert (T4 : 1 / 11 <= It) by (cbn [pow] in *; lra).
    apply Rabs_le. cbn [pow] in *. lra.
  - assert (B := HC 1 ltac:(lra)). replace ((IZR cn + IZR wn * 1) / 10) with ((IZR cn + IZR wn) / 10) in B by field.
    rewrite plus_IZR, mult_IZR, minus_IZR, <- !peZ_pe. change (IZR (-1)) with (-1). change (IZR 1) with 1.
    set (j := pe J 1) in *. set (j1 := pe J (-1)) in *. clearbody j j1. set (s := IZR SI) in *. clearbody s.
    set (Y := Ix ((IZR cn + IZR wn) / 10)) in *. clearbody Y.
    replace (Y - (IZR Ia + IZR wn * (j - j1)) / s) with ((Y - L - IZR wn * (j - j1) / s) + (L - IZR Ia / s)) by (field; lra).
    eapply Rle_trans; [apply Rabs_triang|]. lra.
Qed.

(** ** the first cell, [0, 0.2]: t = u/10 with u in [0, 2] *)
Definition K1 : nat := 23.
Definition res0 (G : list Z) : list Z :=
  let (E, DE) := ez K1 1 in let (F, DF) := fz K1 1 in
  padd (pscale DE (pmul G F)) (pscale (- (SS * DF)) E).
Definition g0_check (G : list Z) : bool :=
  (nonnil G && nonnil (res0 G) && (psum (psubst 1 1 1 G) <=? 2 * SS) && (psum (psubst 1 1 1 (res0 G)) * 10 ^ 23 <=? SS * snd (ez K1 1) * snd (fz K1 1)))%Z%bool.
Lemma pe_02 l u : l <> [] -> 0 <= u <= 2 -> Rabs (pe l u) <= IZR (psum (psubst 1 1 1 l)).
Proof.
  intros N U. pose proof (pe_subst 1 1 1 l (u - 1) ltac:(lia) N) as E. change (IZR 1) with 1 in E.
  replace ((1 + 1 * (u - 1)) / 1) with u in E by field. rewrite Z.pow_1_l in E by lia. change (IZR 1) with 1 in E. rewrite E. unfold Rdiv. rewrite Rinv_1, Rmult_1_r.
  apply pe_bound, Rabs_le. lra.
Qed.

Lemma fac_24 : 10 ^ 20 <= fac 24.
Proof. rewrite !fac_S, fac_0, !INR_IZR_INZ. cbn [Z.of_nat Pos.of_succ_nat Pos.succ]. cbn [pow]. lra. Qed.
Lemma exp_En_rel n t : n = K1 \/ n = S K1 -> 0 <= t <= 1 / 5 -> Rabs (exp (- t) - En n t) <= 1 / 10 ^ 33 * t.
Proof.
  intros N H. pose proof (exp_En_abs 1 n (or_introl eq_refl) t ltac:(lra)) as A. rewrite Rmult_1_l in A.
  assert (F : 10 ^ 20 <= fac (S n)). { destruct N as [->| ->]; unfold K1; [apply fac_24|]. pose proof fac_25 as X. cbn [pow] in *. lra. }
  assert (T20 : 0 < 10 ^ 20) by (apply pow_lt; lra).
  assert (P : t ^ S n <= (1 / 5) ^ 23 * t).
  { rewrite <- tech_pow_Rmult, Rmult_comm. apply Rmult_le_compat_r; [lra|]. apply Rle_trans with ((1 / 5) ^ n); [apply pow_incr; lra|].
    destruct N as [->| ->]; unfold K1; cbn [pow]; lra. }
  assert (0 <= t ^ S n) by (apply pow_le; lra). eapply Rle_trans; [exact A|].
  apply Rle_trans with (2 * t ^ S n / 10 ^ 20).
  { unfold Rdiv. apply Rmult_le_compat_l; [lra|]. apply Rinv_le_contravar; lra. }
  apply Rle_trans with (2 * ((1 / 5) ^ 23 * t) / 10 ^ 20).
  { unfold Rdiv. apply Rmult_le_compat_r; [left; now apply Rinv_0_lt_compat|lra]. }
  replace (2 * ((1 / 5) ^ 23 * t) / 10 ^ 20) with (2 * (1 / 5) ^ 23 / 10 ^ 20 * t) by (field; lra).
  apply Rmult_le_compat_r; [lra|]. cbn [pow]. lra.
Qed.
Lemma g_cell0 G : g0_check G = true -> forall u, 0 < u <= 2 -> Rabs (gD (u / 10) - pe G u / IZR SS) <= 1 / 10 ^ 22.
Proof.
  intros GC u U. unfold g0_check in GC. apply andb_prop in GC. destruct GC as [GC G2]. apply andb_prop in GC. destruct GC as [GC G1].
  apply andb_prop in GC. destruct GC as [GN RN]. apply Z.leb_le in G1, G2.
  assert (GN' : G <> []) by (destruct G; [discriminate|congruence]). assert (RN' : res0 G <> []) by (destruct (res0 G); [discriminate|congruence]).
  pose proof (pe_02 G u GN' ltac:(lra)) as BG. pose proof (pe_02 (res0 G) u RN' ltac:(lra)) as BR.
  set (t := u / 10). assert (Ht : 0 < t <= 1 / 5) by (unfold t; lra). destruct (gD_neq t ltac:(lra)) as [Eg _].
  destruct (ez_spec K1 1) as (_ & _ & PE). destruct (fz_spec K1 1) as (_ & _ & PF). specialize (PE u). specialize (PF u).
  pose proof (ez_pos K1 1) as DEP. pose proof (fz_pos K1 1) as DFP. change (IZR 1) with 1 in PE, PF. replace (1 * u / 10) with t in PE, PF by (unfold t; field).
  assert (PR : pe (res0 G) u = IZR (snd (ez K1 1)) * (pe G u * (IZR (snd (fz K1 1)) * SE K1 t)) - IZR SS * IZR (snd (fz K1 1)) * (IZR (snd (ez K1 1)) * En K1 t)).
  { unfold res0. destruct (ez K1 1) as [E DE]. destruct (fz K1 1) as [F DF]. cbn [fst snd] in *.
    rewrite pe_add, !pe_scale, pe_mul, PE, PF, opp_IZR, mult_IZR. ring. }
  set (RZ := res0 G) in *. clearbody RZ. destruct (ez K1 1) as [E DE]. destruct (fz K1 1) as [F DF]. cbn [fst snd] in *. clear PE PF.
  pose proof (SE_En K1 t) as SEE. pose proof (exp_En_rel K1 t (or_introl eq_refl) ltac:(lra)) as X1. pose proof (exp_En_rel (S K1) t (or_intror eq_refl) ltac:(lra)) as X2.
  apply IZR_le in G1, G2. apply IZR_lt in DEP, DFP. rewrite mult_IZR in G1. rewrite (mult_IZR (psum _)), (mult_IZR (SS * DE)), (mult_IZR SS) in G2.
  assert (P24 : IZR (10 ^ 23) = 10 ^ 23) by (change (10 ^ 23)%Z with (10 ^ Z.of_nat 23)%Z; symmetry; apply pow_IZR). rewrite P24 in G2.
  pose proof SS_pos as SP. set (s := IZR SS) in *. clearbody s. set (de := IZR DE) in *. clearbody de. set (df := IZR DF) in *. clearbody df.
  set (g := pe G u / s). set (et := exp (- t)) in *. set (E1 := En K1 t) in *. set (E2 := En (S K1) t) in *. set (S1 := SE K1 t) in *.
  assert (GB : Rabs g <= 2).
  { unfold g, Rdiv. rewrite Rabs_mult, Rabs_inv, (Rabs_pos_eq s) by lra. apply (Rmult_le_reg_r s); [lra|]. rewrite Rmult_assoc, Rinv_l by lra. lra. }
  assert (RB : Rabs (g * S1 - E1) <= 1 / 10 ^ 23).
  { clearbody S1 E1 E2 et. replace (g * S1 - E1) with (pe RZ u / (s * de * df)) by (rewrite PR; unfold g; field; lra).
    assert (T : 0 < s * de * df) by (apply Rmult_lt_0_compat; [apply Rmult_lt_0_compat; lra|lra]).
    unfold Rdiv at 1. rewrite Rabs_mult, Rabs_inv, (Rabs_pos_eq (s * de * df)) by lra.
    apply (Rmult_le_reg_r (s * de * df)); [lra|]. rewrite Rmult_assoc, Rinv_l, Rmult_1_r by lra.
    assert (T24 : 0 < 10 ^ 23) by (apply pow_lt; lra). set (q := 10 ^ 23) in *. clearbody q.
    apply (Rmult_le_reg_r q); [lra|]. replace (1 / q * (s * de * df) * q) with (s * de * df) by (field; lra).
    eapply Rle_trans; [apply Rmult_le_compat_r; [lra|exact BR]|lra]. }
  assert (ETB : 0 < et /\ 5 / 6 * t <= 1 - et).
  { unfold et. split; [apply exp_pos|]. rewrite exp_Ropp. assert (/ exp t <= / (1 + t)) by (apply Rinv_le_contravar; [lra|apply exp_ineq1_le]).
    assert (/ (1 + t) <= 1 - 5 / 6 * t); [|lra]. apply (Rmult_le_reg_r (1 + t)); [lra|]. rewrite Rinv_l by lra. nra. }
  assert (FB : Rabs (g * (1 - et) - t * et) <= 2 / 10 ^ 23 * t).
  { replace (g * (1 - et) - t * et) with (t * (g * S1 - E1) + g * - (et - E2) + t * - (et - E1)) by (replace (g * (1 - et)) with (g * (t * S1) - g * (et - E2)) by (rewrite SEE; ring); ring).
    eapply Rle_trans; [apply Rabs_triang|]. eapply Rle_trans; [apply Rplus_le_compat_r, Rabs_triang|]. rewrite !Rabs_mult, !Rabs_Ropp, (Rabs_pos_eq t) by lra.
    pose proof (Rabs_pos (et - E2)). pose proof (Rabs_pos (et - E1)). pose proof (Rabs_pos g). pose proof (Rabs_pos (g * S1 - E1)).
    apply Rle_trans with (t * (1 / 10 ^ 23) + 2 * (1 / 10 ^ 33 * t) + 1 * (1 / 10 ^ 33 * t)); [|cbn [pow]; lra].
    repeat apply Rplus_le_compat; apply Rmult_le_compat; lra. }
  fold t. rewrite Eg. fold et. replace (t * et / (1 - et) - g) with (- (g * (1 - et) - t * et) / (1 - et)) by (field; lra).
  unfold Rdiv at 1. rewrite Rabs_mult, Rabs_Ropp, Rabs_inv, (Rabs_pos_eq (1 - et)) by lra.
  apply (Rmult_le_reg_r (1 - et)); [lra|]. rewrite Rmult_assoc, Rinv_l, Rmult_1_r by lra. eapply Rle_trans; [exact FB|].
  apply Rle_trans with (1 / 10 ^ 22 * (5 / 6 * t)); [cbn [pow]; lra|]. apply Rmult_le_compat_l; [cbn [pow]; lra|lra].
Qed.
Definition oracle0 : list Z :=
  let es := ecs 22 0 SS 1 in
  sdiv SS (map (fun e => (-10 * e)%Z) (tl (tl es))) (firstn 18 es) [].
Definition cell0_check (c : list (Z * Z)) : option Z :=
  let G := oracle0 in
  let P := psubst 10 0 1 (map lit_scaled c) in let sP := (D36 * 10 ^ Z.of_nat (pred (length c)))%Z in
  let Q := padd (pscale (LL * SS) P) (pscale (- sP) (jz 1 G)) in
  let Q1 := psubst 1 1 1 Q in
  if (nonnil c && forallb exp_ok c && nonnil Q && nonnil Q1 && g0_check G && leqb (pder (JZ G)) (pscale LL G) && subs_ok Q1 (255 * sP * LL * SS))%Z%bool
  then Some (peZ (JZ G) 2) else None.

Lemma Ix_lower t : 0 <= t <= 1 / 5 -> 8 / 10 * t <= Ix t.
Proof.
  intros [[T0|<-] T1]; [|rewrite Ix_0; lra]. destruct (MVT_cor2 Ix gD 0 t T0) as (c & E & Hc).
  { intros c _. apply is_derive_Reals, Ix_derive. }
  rewrite Ix_0 in E. destruct (gD_neq c ltac:(lra)) as [Eg N]. pose proof (exp_ineq1_le (- c)) as X. pose proof (exp_pos (- c)).
  assert (N1 : 0 < 1 - exp (- c)). { assert (exp (- c) < 1); [|lra]. rewrite <- exp_0. apply exp_increasing. lra. }
  assert (G : 8 / 10 <= gD c).
  { rewrite Eg. apply (Rmult_le_reg_r (1 - exp (- c))); [exact N1|]. unfold Rdiv at 2. rewrite Rmult_assoc, Rinv_l by lra. nra. }
  nra.
Qed.
Lemma I_cell0 G : g0_check G = true -> leqb (pder (JZ G)) (pscale LL G) = true ->
  forall u, 0 <= u <= 2 -> Rabs (Ix (u / 10) - pe (JZ G) u / IZR SI) <= 1 / 10 ^ 22 * (u / 10).
Proof.
  intros H1 H0. pose proof (g_cell0 G H1) as HG. clear H1. apply leqb_eq in H0. pose proof SS_pos as SP. pose proof LL_pos as LP. pose proof SI_R as SIR. pose proof SI_pos as SIP.
  assert (K0 : forall u, u = 0 -> Ix (u / 10) - pe (JZ G) u / IZR SI = 0) by (intros u ->; unfold JZ; cbn [pe]; replace (0 / 10) with 0 by field; rewrite Ix_0; field; lra).
  intros u [[U1|U0] U2]; [|rewrite K0 by (symmetry; exact U0); rewrite Rabs_R0, <- U0; cbn [pow]; lra].
  set (K := fun u => Ix (u / 10) - pe (JZ G) u / IZR SI).
  assert (D : forall u, is_derive K u (1 / 10 * (gD (u / 10) - pe G u / IZR SS))).
  { intros y. unfold K. replace (1 / 10 * (gD (y / 10) - pe G y / IZR SS))
      with (1 / 10 * gD (y / 10) - (IZR LL * pe G y) / IZR SI) by (rewrite SIR; field; lra).
    apply (is_derive_minus (fun u => Ix (u / 10)) (fun u => pe (JZ G) u / IZR SI) y).
    - apply (is_derive_comp Ix (fun u => u / 10) y (gD (y / 10)) (1 / 10)); [apply Ix_derive|]. auto_derive; [exact I|]. field.
    - rewrite <- pe_scale, <- H0. pose proof (pe_der (JZ G) y) as PD. set (f := pe (JZ G)) in *. clearbody f. set (f' := pe _ y) in *. clearbody f'.
      assert (ED : ex_derive f y) by now exists f'. assert (E1 : Derive f y = f') by now apply is_derive_unique.
      auto_derive; [exact ED|]. change (Derive (fun x => f x) y) with (Derive f y). rewrite E1. field. lra. }
  assert (KZ : K 0 = 0) by (apply K0; reflexivity).
  destruct (MVT_cor2 K _ 0 u U1 (fun c _ => proj1 (is_derive_Reals K c _) (D c))) as (y & EQ & Hy).
  assert (EK : Ix (u / 10) - pe (JZ G) u / IZR SI = K u - K 0) by (rewrite KZ; unfold K; ring). rewrite EK, EQ.
  pose proof (HG y ltac:(lra)) as HY. rewrite !Rabs_mult, (Rabs_pos_eq (1 / 10)), (Rabs_pos_eq (u - 0)) by lra.
  set (X := Rabs _) in *. clearbody X. replace (1 / 10 * X * (u - 0)) with (X * (u / 10)) by field. apply Rmult_le_compat_r; lra.
Qed.
Lemma cell0_real sp l s p j t It : 0 < sp -> 0 < l -> 0 < s -> 0 <= t -> 8 / 10 * t <= It ->
  Rabs (l * s * (p * sp) + - sp * j) * 10 ^ 17 <= 255 * sp * l * s ->
  Rabs (It - (0 + 10 * t * j) / (10 * l * s)) <= 1 / 10 ^ 22 * t -> Rabs (t * p - It) <= 32 / 10 ^ 16 * It.
Proof.
  intros SPP LP SP T IL SB B.
  set (X := p - j / (l * s)). assert (EX : l * s * (p * sp) + - sp * j = X * (l * s * sp)) by (unfold X; field; lra).
  assert (LS : 0 < l * s * sp) by (apply Rmult_lt_0_compat; [now apply Rmult_lt_0_compat|assumption]).
  rewrite EX, Rabs_mult, (Rabs_pos_eq (l * s * sp)) in SB by lra.
  assert (SX : Rabs X <= 255 / 10 ^ 17).
  { assert (T17 : 0 < 10 ^ 17) by (apply pow_lt; lra). set (q := 10 ^ 17) in *. clearbody q. 
    apply (Rmult_le_reg_r (l * s * sp * q)); [now apply Rmult_lt_0_compat|]. replace (255 / q * (l * s * sp * q)) with (255 * sp * l * s) by (field; lra). lra. }
  replace (t * p - It) with (t * X + - (It - (0 + 10 * t * j) / (10 * l * s))) by (unfold X; field; lra).
  clearbody X. eapply Rle_trans; [apply Rabs_triang|]. rewrite Rabs_Ropp, Rabs_mult, (Rabs_pos_eq t) by lra.
  apply Rle_trans with (t * (255 / 10 ^ 17) + 1 / 10 ^ 22 * t); [apply Rplus_le_compat; [apply Rmult_le_compat_l; lra|exact B]|].
  apply Rle_trans with (32 / 10 ^ 16 * (8 / 10 * t)); [cbn [pow]; lra|]. apply Rmult_le_compat_l; [cbn [pow]; lra|exact IL].
Qed.
Lemma nonnil_spec {A} (l : list A) : nonnil l = true -> l <> []. Proof. destruct l; [discriminate|congruence]. Qed.
Lemma pe_subst1 Q u : Q <> [] -> pe Q (1 + u) = pe (psubst 1 1 1 Q) u.
Proof.
  intros N. pose proof (pe_subst 1 1 1 Q u ltac:(lia) N) as E. change (IZR 1) with 1 in E.
  replace ((1 + 1 * u) / 1) with (1 + u) in E by field. rewrite Z.pow_1_l in E by lia. change (IZR 1) with 1 in E.
  unfold Rdiv in E. now rewrite Rinv_1, Rmult_1_r in E.
Qed.
Lemma cell0_bound c G sP : sP = (D36 * 10 ^ Z.of_nat (pred (length c)))%Z -> c <> [] -> forallb exp_ok c = true ->
  forall Q, Q = padd (pscale (LL * SS) (psubst 10 0 1 (map lit_scaled c))) (pscale (- sP) (jz 1 G)) -> Q <> [] -> psubst 1 1 1 Q <> [] ->
  g0_check G = true -> leqb (pder (JZ G)) (pscale LL G) = true -> subs_ok (psubst 1 1 1 Q) (255 * sP * LL * SS) = true ->
  forall t, 0 <= t <= 1 / 5 -> Rabs (cell_val false t c - Ix t) <= 32 / 10 ^ 16 * Ix t.
Proof.
  intros ES CN EO Q EQ QN QN1 GC JC SC t T. pose proof (I_cell0 G GC JC (10 * t) ltac:(lra)) as B. replace (10 * t / 10) with t in B by field.
  pose proof (Ix_lower t T) as IL. pose proof (subs_ok_spec _ _ (10 * t - 1) QN1 SC ltac:(lra)) as SB.
  rewrite <- (pe_subst1 Q _ QN) in SB. replace (1 + (10 * t - 1)) with (10 * t) in SB by ring. rewrite EQ, pe_add, !pe_scale, opp_IZR, !mult_IZR in SB. change (IZR 255) with 255 in SB.
  pose proof (pe_subst 10 0 1 (map lit_scaled c) (10 * t) ltac:(lia) ltac:(destruct c; [congruence|discriminate])) as E.
  rewrite (pe_lits c _ EO), map_length in E. replace ((0 + 1 * (10 * t)) / 10) with t in E by field.
  assert (TP : 0 < IZR (10 ^ Z.of_nat (pred (length c)))) by (apply IZR_lt, Z.pow_pos_nonneg; lia). pose proof D36_pos as DP.
  assert (SPE : IZR sP = IZR D36 * IZR (10 ^ Z.of_nat (pred (length c)))) by (rewrite ES; apply mult_IZR). clear ES.
  assert (PE : pe (psubst 10 0 1 (map lit_scaled c)) (10 * t) = polyR t c * IZR sP).
  { rewrite SPE. replace (polyR t c * (IZR D36 * IZR (10 ^ Z.of_nat (pred (length c))))) with ((IZR D36 * polyR t c) * IZR (10 ^ Z.of_nat (pred (length c)))) by ring. rewrite E. field. lra. }
  rewrite PE in SB. unfold JZ in B. cbn [pe] in B. rewrite SI_R in B.
  apply (cell0_real (IZR sP) (IZR LL) (IZR SS) (polyR t c) (pe (jz 1 G) (10 * t)) t (Ix t)); [rewrite SPE; now apply Rmult_lt_0_compat|apply LL_pos|apply SS_pos|lra|exact IL|exact SB|exact B].
Qed.
Lemma cell0_spec c Ia : cell0_check c = Some Ia ->
  (forall t, 0 <= t <= 1 / 5 -> Rabs (cell_val false t c - Ix t) <= 32 / 10 ^ 16 * Ix t) /\ Rabs (Ix (2 / 10) - IZR Ia / IZR SI) <= 1 / 10 ^ 22.
Proof.
  unfold cell0_check. intros H. remember oracle0 as G eqn:EG. clear EG. cbv zeta in H.
  match type of H with (if ?B then _ else _) = _ => destruct B eqn:CB; [|discriminate] end. apply some_inv in H. rewrite <- H. clear H.
  repeat (apply andb_prop in CB; destruct CB as [CB ?H]).
  split; [eapply cell0_bound; try reflexivity; eauto using (@nonnil_spec Z), (@nonnil_spec (Z * Z))|].
  pose proof (I_cell0 G H1 H0 2 ltac:(lra)) as B. rewrite <- peZ_pe. eapply Rle_trans; [exact B|]. cbn [pow]. lra.
Qed.

Fixpoint eps_next (k : nat) (e : Z) : Z := match k with O => e | S k' => eps_next k' (e * e0 / SS)%Z end.
Lemma eps_next_spec k : forall n, eps_next k (epsz n) = epsz (n + k).
Proof. induction k as [|k IH]; intros n; [now rewrite Nat.add_0_r|]. cbn [eps_next]. change (epsz n * e0 / SS)%Z with (epsz (S n)). rewrite IH. f_equal. lia. Qed.
Fixpoint cells_from (cn wn : Z) (sc : bool) (cells : list (list (Z * Z))) (eps Ia : Z) : option Z :=
  match cells with
  | [] => Some Ia
  | c :: l => match cell_check cn wn sc c eps Ia with
    | Some Ia' => cells_from (cn + 2 * wn) wn sc l (eps_next (Z.to_nat (2 * wn)) eps) Ia' | None => None end
  end.
Definition cells_check (cn wn : Z) (sc : bool) (cells : list (list (Z * Z))) (Ia : Z) : option Z :=
  cells_from cn wn sc cells (epsz (Z.to_nat cn)) Ia.
Lemma cells_spec sc cells : forall cn wn Ia Ia' e, cells_check cn wn sc cells Ia = Some Ia' -> (0 < wn)%Z -> 
  0 <= e -> e + INR (length cells) / 10 ^ 22 <= 2 / 10 ^ 20 ->
  Rabs (Ix ((IZR cn - IZR wn) / 10) - IZR Ia / IZR SI) <= e ->
  (forall k c t, nth_error cells k = Some c -> IZR (cn - wn + 2 * wn * Z.of_nat k) / 10 <= t <= IZR (cn - wn + 2 * wn * (Z.of_nat k + 1)) / 10 ->
     Rabs (cell_val sc t c - Ix t) <= 32 / 10 ^ 16 * Ix t) /\
  Rabs (Ix (IZR (cn - wn + 2 * wn * Z.of_nat (length cells)) / 10) - IZR Ia' / IZR SI) <= e + INR (length cells) / 10 ^ 22.
Proof.
  induction cells as [|c cells IH]; intros cn wn Ia Ia' e H W E0 E1 HI.
  - unfold cells_check in H. cbn [cells_from] in H. apply some_inv in H. subst Ia'. split; [intros [|k] c t C; discriminate|]. cbn [length INR].
    replace (cn - wn + 2 * wn * Z.of_nat 0)%Z with (cn - wn)%Z by lia. rewrite minus_IZR. eapply Rle_trans; [exact HI|]. unfold Rdiv. lra.
  - unfold cells_check in H. cbn [cells_from] in H. destruct (cell_check cn wn sc c _ Ia) as [Ib|] eqn:C; [|discriminate].
    assert (CP : (0 <= cn)%Z) by (unfold cell_check in C; destruct (cell_Q _ _ _ _ _ _); match type of C with (if ?B then _ else _) = _ => destruct B eqn:CB; [|discriminate] end; repeat (apply andb_prop in CB; destruct CB as [CB ?H]); apply Z.ltb_lt in CB; repeat match goal with X : (_ <=? _)%Z = true |- _ => apply Z.leb_le in X end; lia).
    rewrite eps_next_spec, <- Z2Nat.inj_add in H by lia. change (cells_check (cn + 2 * wn) wn sc cells Ib = Some Ia') in H.
    cbn [length] in *. rewrite S_INR in *. assert (LP := pos_INR (length cells)).
    assert (T22 : 0 < 10 ^ 22) by (apply pow_lt; lra).
    assert (EL : (INR (length cells) + 1) / 10 ^ 22 = INR (length cells) / 10 ^ 22 + 1 / 10 ^ 22) by (field; lra). rewrite EL in *.
    assert (P1 : 0 <= INR (length cells) / 10 ^ 22) by (apply Rle_mult_inv_pos; assumption). assert (P2 : 0 <= 1 / 10 ^ 22) by (apply Rle_mult_inv_pos; lra).
    destruct (cell_spec cn wn sc c Ia Ib e C ltac:(lra) HI) as [A B].
    assert (WR : 0 < IZR wn) by (apply IZR_lt; lia).
    destruct (IH (cn + 2 * wn)%Z wn Ib Ia' (e + 1 / 10 ^ 22) H W ltac:(lra) ltac:(lra)) as [A2 B2].
    { replace (IZR (cn + 2 * wn) - IZR wn) with (IZR cn + IZR wn) by (rewrite plus_IZR, mult_IZR; change (IZR 2) with 2; ring). exact B. }
    split.
    + intros [|k] c' t N T.
      * cbn [nth_error] in N. apply some_inv in N. subst c'. specialize (A ((10 * t - IZR cn) / IZR wn)).
        replace (cn - wn + 2 * wn * Z.of_nat 0)%Z with (cn - wn)%Z in T by lia. replace (cn - wn + 2 * wn * (Z.of_nat 0 + 1))%Z with (cn + wn)%Z in T by lia.
        rewrite minus_IZR, plus_IZR in T. replace ((IZR cn + IZR wn * ((10 * t - IZR cn) / IZR wn)) / 10) with t in A by (field; lra).
        apply A. split; apply (Rmult_le_reg_r (IZR wn)); try exact WR; unfold Rdiv; rewrite ?(Rmult_assoc _ (/ IZR wn)), ?Rinv_l by lra; lra.
      * cbn [nth_error] in N. apply (A2 k c' t N). revert T. rewrite Nat2Z.inj_succ.
        replace (cn - wn + 2 * wn * Z.succ (Z.of_nat k))%Z with (cn + 2 * wn - wn + 2 * wn * Z.of_nat k)%Z by lia.
        replace (cn - wn + 2 * wn * (Z.succ (Z.of_nat k) + 1))%Z with (cn + 2 * wn - wn + 2 * wn * (Z.of_nat k + 1))%Z by lia. tauto.
    + rewrite Nat2Z.inj_succ. replace (cn - wn + 2 * wn * Z.succ (Z.of_nat (length cells)))%Z with (cn + 2 * wn - wn + 2 * wn * Z.of_nat (length cells))%Z by lia.
      eapply Rle_trans; [exact B2|]. lra.
Qed.

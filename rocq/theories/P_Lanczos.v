(** * P_Lanczos: Lanczos' formula against the gamma function *)
From Coq Require Import ZArith Reals List Bool Lia Lra Psatz.
From Coquelicot Require Import Coquelicot.
From Verif Require Import M_Special S_Gamma P_Gamma P_ErfcxT P_LanczosC.
Import ListNotations.
Open Scope R_scope.

Definition nN (x : R) : R := pev Nz x.
Definition nN1 (x : R) : R := pev (pder Nz) x.
Definition nN2 (x : R) : R := pev (pder (pder Nz)) x.
Definition dD (x : R) : R := pev Dz x.
Definition dD1 (x : R) : R := pev (pder Dz) x.
Lemma nN_derive x : is_derive nN x (nN1 x). Proof. apply pev_der. Qed.
Lemma nN1_derive x : is_derive nN1 x (nN2 x). Proof. apply pev_der. Qed.
Lemma dD_derive x : is_derive dD x (dD1 x). Proof. apply pev_der. Qed.
Lemma nN_pos x : 0 <= x -> 0 < nN x. Proof. apply Nz_pos. Qed.
Lemma dD_pos x : 0 < x -> 0 < dD x.
Proof. intros H. apply pev_posit; [vm_compute; reflexivity|vm_compute; reflexivity|exact H]. Qed.
Lemma log_der_bound l d n x : nonneg (padd (pscal n l) (pscal (-1) (pmul [0; 1]%Z d))) = true -> nonneg d = true -> 0 < x -> 0 < pev l x ->
  0 <= pev d x / pev l x <= IZR n / x.
Proof.
  intros H Hd Hx Hl. apply (pev_nonneg _ x) in H; [|lra]. rewrite pev_add, !pev_scal, pev_mul in H. apply (pev_nonneg _ x) in Hd; [|lra].
  replace (pev [0; 1]%Z x) with x in H by (cbn; ring). split.
  - apply Rmult_le_pos; [exact Hd|left; now apply Rinv_0_lt_compat].
  - apply (Rmult_le_reg_r (x * pev l x)); [now apply Rmult_lt_0_compat|].
    replace (pev d x / pev l x * (x * pev l x)) with (x * pev d x) by (field; lra).
    replace (IZR n / x * (x * pev l x)) with (IZR n * pev l x) by (field; lra). lra.
Qed.
Lemma nN_log x : 0 < x -> 0 <= nN1 x / nN x <= 12 / x.
Proof.
  intros H. apply (log_der_bound Nz (pder Nz) 12 x); [vm_compute; reflexivity|vm_compute; reflexivity|exact H|apply nN_pos; lra].
Qed.
Lemma dD_log x : 0 < x -> 0 <= dD1 x / dD x <= 12 / x.
Proof.
  intros H. apply (log_der_bound Dz (pder Dz) 12 x); [vm_compute; reflexivity|vm_compute; reflexivity|exact H|now apply dD_pos].
Qed.
Lemma pev_zero l x : forallb (Z.eqb 0) l = true -> pev l x = 0.
Proof. induction l as [|a l IH]; cbn [pev forallb]; [reflexivity|]. intros H. apply andb_prop in H. destruct H as [H1 H2]. apply Z.eqb_eq in H1. rewrite <- H1, IH by exact H2. ring. Qed.
Lemma dD_S x : x * dD (x + 1) = (x + 12) * dD x.
Proof.
  assert (Z : pev (padd (pmul [0; 1]%Z (pshift Dz)) (pscal (-1) (pmul [12; 1]%Z Dz))) x = 0) by (apply pev_zero; vm_compute; reflexivity).
  rewrite pev_add, pev_scal, !pev_mul, pev_shift, !lin_val in Z. fold (dD (x + 1)) (dD x) in Z. lra.
Qed.

Lemma uN_val x : uN x = (nN x * nN2 x - nN1 x * nN1 x) / (nN x * nN x). Proof. reflexivity. Qed.
Local Opaque nN nN1 nN2 dD dD1 gl Nz Dz uN.

(** ** the formula and its difference from ln Gamma *)
Definition lnF (y : R) : R := ln (nN y / 10 ^ 20 / dD y) - gl + (y - 1 / 2) * (ln (al y) - 1).
Definition hL (y : R) : R := lnF y - lnG y.
Definition dl (x : R) : R := ln (nN (x + 1)) - ln (nN x) - ln (x + 12) + (x + 1 / 2) * (ln (al (x + 1)) - 1) - (x - 1 / 2) * (ln (al x) - 1).
Definition d1 (x : R) : R := nN1 (x + 1) / nN (x + 1) - nN1 x / nN x - 1 / (x + 12) + (ln (al (x + 1)) - ln (al x)) - gl / al (x + 1) + gl / al x.
Lemma lnF_split y : 0 < y -> lnF y = ln (nN y) - ln (10 ^ 20) - ln (dD y) - gl + (y - 1 / 2) * (ln (al y) - 1).
Proof.
  intros H. unfold lnF. pose proof (nN_pos y ltac:(lra)). pose proof (dD_pos y H). assert (P : 0 < 10 ^ 20) by (apply pow_lt; lra).
  set (P10 := 10 ^ 20) in *. clearbody P10.
  assert (0 < nN y / P10) by (apply Rdiv_lt_0_compat; lra). rewrite !ln_div by assumption. ring.
Qed.
Lemma hL_S x : 0 < x -> hL (x + 1) - hL x = dl x.
Proof.
  intros H. unfold hL, dl. rewrite !lnF_split, lnG_S by lra.
  pose proof (dD_pos x H). pose proof (dD_pos (x + 1) ltac:(lra)).
  assert (E : ln x + ln (dD (x + 1)) = ln (x + 12) + ln (dD x)) by (rewrite <- !ln_mult, dD_S by lra; reflexivity).
  replace (x + 1 - 1 / 2) with (x + 1 / 2) by lra. set (P10 := ln (10 ^ 20)). clearbody P10.
  set (A := (x + 1 / 2) * (ln (al (x + 1)) - 1)). set (B := (x - 1 / 2) * (ln (al x) - 1)). clearbody A B. lra.
Qed.
Lemma al_derive x : is_derive al x 1. Proof. unfold al. auto_derive; [trivial|ring]. Qed.
Lemma is_derive_shift (f : R -> R) x f' : is_derive f (x + 1) f' -> is_derive (fun x => f (x + 1)) x f'.
Proof.
  intros H. evar_last; [apply (is_derive_comp f (fun x => x + 1) x f' 1 H)|unfold scal; cbn; unfold mult; cbn; ring].
  auto_derive; [trivial|ring].
Qed.
Lemma lnN_derive x : 0 <= x -> is_derive (fun x => ln (nN x)) x (nN1 x / nN x).
Proof.
  intros H. pose proof (nN_pos x H). evar_last; [apply (is_derive_comp ln nN x (/ nN x) (nN1 x)); [apply is_derive_ln; assumption|apply nN_derive]|].
  unfold scal; cbn; unfold mult; cbn. field. lra.
Qed.
Lemma lnD_derive x : 0 < x -> is_derive (fun x => ln (dD x)) x (dD1 x / dD x).
Proof.
  intros H. pose proof (dD_pos x H). evar_last; [apply (is_derive_comp ln dD x (/ dD x) (dD1 x)); [apply is_derive_ln; assumption|apply dD_derive]|].
  unfold scal; cbn; unfold mult; cbn. field. lra.
Qed.
Lemma mainF_derive x : 0 <= x -> is_derive (fun x => (x - 1 / 2) * (ln (al x) - 1)) x (ln (al x) - gl / al x).
Proof.
  intros H. pose proof (al_pos x H) as A. unfold al in *. auto_derive; [lra|]. field. lra.
Qed.
Lemma dl_derive x : 0 <= x -> is_derive dl x (d1 x).
Proof.
  intros H. unfold dl.
  pose proof (is_derive_shift (fun x => ln (nN x)) x _ (lnN_derive (x + 1) ltac:(lra))) as D1.
  pose proof (lnN_derive x H) as D2.
  pose proof (is_derive_shift _ x _ (mainF_derive (x + 1) ltac:(lra))) as D3. cbv beta in D3.
  pose proof (mainF_derive x H) as D4.
  assert (D5 : is_derive (fun x => ln (x + 12)) x (1 / (x + 12))) by (auto_derive; [lra|reflexivity]).
  pose proof (is_derive_minus _ _ x _ _ (is_derive_plus _ _ x _ _ (is_derive_minus _ _ x _ _ (is_derive_minus _ _ x _ _ D1 D2) D5) D3) D4) as D.
  unfold minus, plus, opp in D; cbn in D. eapply is_derive_ext; [|evar_last; [exact D|]].
  - intros t. cbn. match goal with |- @eq _ ?a ?b => change (@eq R a b) end. replace (t + 1 - 1 / 2) with (t + 1 / 2) by lra. ring.
  - unfold d1. ring.
Qed.
Lemma ratio_derive x : 0 <= x -> is_derive (fun x => nN1 x / nN x) x (uN x).
Proof.
  intros H. pose proof (nN_pos x H) as P. evar_last; [apply (is_derive_div nN1 nN x _ _ (nN1_derive x) (nN_derive x)); lra|].
  rewrite uN_val. field. lra.
Qed.
Lemma lnal_derive x : 0 <= x -> is_derive (fun x => ln (al x) - gl / al x) x (1 / al x + gl / (al x * al x)).
Proof. intros H. pose proof (al_pos x H) as A. unfold al in *. auto_derive; [repeat split; lra|]. field. lra. Qed.
Lemma d1_derive x : 0 <= x -> is_derive d1 x (d2 x).
Proof.
  intros H. unfold d1.
  pose proof (is_derive_shift (fun x => nN1 x / nN x) x _ (ratio_derive (x + 1) ltac:(lra))) as D1. cbv beta in D1.
  pose proof (ratio_derive x H) as D2.
  pose proof (is_derive_shift _ x _ (lnal_derive (x + 1) ltac:(lra))) as D3. cbv beta in D3.
  pose proof (lnal_derive x H) as D4.
  assert (D5 : is_derive (fun x => 1 / (x + 12)) x (- (1 / ((x + 12) * (x + 12))))) by (auto_derive; [lra|field; lra]).
  pose proof (is_derive_minus _ _ x _ _ (is_derive_plus _ _ x _ _ (is_derive_minus _ _ x _ _ (is_derive_minus _ _ x _ _ D1 D2) D5) D3) D4) as D.
  unfold minus, plus, opp in D; cbn in D. eapply is_derive_ext; [|evar_last; [exact D|]].
  - intros t. cbn. match goal with |- @eq _ ?a ?b => change (@eq R a b) end. ring.
  - unfold d2. ring.
Qed.
Lemma d1_decay x : 0 < x -> Rabs (d1 x) <= 40 / x.
Proof.
  intros H. unfold d1. pose proof (nN_log x H) as [A1 A2]. pose proof (nN_log (x + 1) ltac:(lra)) as [B1 B2].
  pose proof (al_pos x ltac:(lra)) as P. pose proof (al_pos (x + 1) ltac:(lra)) as P1.
  assert (X : 0 < / x) by now apply Rinv_0_lt_compat.
  assert (L : forall k y, 0 <= k -> x <= y -> 0 <= k / y <= k / x).
  { intros k y Hk Hy. assert (0 < / y) by (apply Rinv_0_lt_compat; lra). unfold Rdiv. split; [apply Rmult_le_pos; lra|]. apply Rmult_le_compat_l; [lra|]. apply Rinv_le_contravar; lra. }
  assert (Ax : x <= al x) by (unfold al; rewrite gl_val; lra). assert (Ax1 : al (x + 1) = al x + 1) by (unfold al; ring).
  pose proof (L 12 (x + 1) ltac:(lra) ltac:(lra)). pose proof (L 1 (x + 12) ltac:(lra) ltac:(lra)).
  assert (G : 0 <= gl <= 7) by (rewrite gl_val; lra).
  pose proof (L gl (al (x + 1)) ltac:(lra) ltac:(lra)) as G1. pose proof (L gl (al x) ltac:(lra) ltac:(lra)) as G2.
  assert (G3 : gl / x <= 7 / x) by (unfold Rdiv; apply Rmult_le_compat_r; lra).
  pose proof (ln_le_tangent (al x) (al (x + 1)) P P1) as T. rewrite Ax1 in T at 2. replace ((al x + 1) / al x) with (1 + 1 / al x) in T by (field; lra).
  pose proof (L 1 (al x) ltac:(lra) ltac:(lra)).
  assert (T' : 0 <= ln (al (x + 1)) - ln (al x)) by (assert (ln (al x) < ln (al (x + 1))) by (apply ln_increasing; lra); lra).
  unfold Rdiv in *. clear L. set (ix := / x) in *. clearbody ix. apply Rabs_le. lra.
Qed.

(** ** the bounding function *)
Definition bt (x : R) : R := / 10 ^ 16 * (7 / (20 * (x + 1) ^ 4) + 200 / (x + 70) ^ 2).
Definition bt1 (x : R) : R := / 10 ^ 16 * (7 / (5 * (x + 1) ^ 5) + 400 / (x + 70) ^ 3).
Lemma bt_derive x : 0 <= x -> is_derive bt x (- bt1 x).
Proof.
  intros H. unfold bt, bt1. set (e := / 10 ^ 16). clearbody e. auto_derive; [|field; lra].
  repeat split; apply Rgt_not_eq; [assert (0 < (x + 1) ^ 4) by (apply pow_lt; lra)|assert (0 < (x + 70) ^ 2) by (apply pow_lt; lra)]; cbn in *; lra.
Qed.
Lemma bt1_derive x : 0 <= x -> is_derive bt1 x (- (/ 10 ^ 16 * (7 / (x + 1) ^ 6 + 1200 / (x + 70) ^ 4))).
Proof.
  intros H. unfold bt1. set (e := / 10 ^ 16). clearbody e. auto_derive; [|field; lra].
  repeat split; apply Rgt_not_eq; [assert (0 < (x + 1) ^ 5) by (apply pow_lt; lra)|assert (0 < (x + 70) ^ 3) by (apply pow_lt; lra)]; cbn in *; lra.
Qed.
Lemma e16_pos : 0 < / 10 ^ 16. Proof. apply Rinv_0_lt_compat. lra. Qed.
Lemma bt1_pos x : 0 <= x -> 0 <= bt1 x.
Proof.
  intros H. unfold bt1. pose proof e16_pos. apply Rmult_le_pos; [lra|].
  assert (0 < 7 / (5 * (x + 1) ^ 5)) by (apply Rdiv_lt_0_compat; [lra|]; apply Rmult_lt_0_compat; [lra|apply pow_lt; lra]).
  assert (0 < 400 / (x + 70) ^ 3) by (apply Rdiv_lt_0_compat; [lra|apply pow_lt; lra]). lra.
Qed.
Lemma mono_up (f f' : R -> R) a b : a <= b -> (forall c, a <= c <= b -> is_derive f c (f' c)) -> (forall c, a <= c <= b -> 0 <= f' c) -> f a <= f b.
Proof.
  intros H D P. destruct H as [H| ->]; [|lra]. destruct (MVT_cor2 f f' a b H) as (c & E & Hc).
  - intros c Hc. apply is_derive_Reals, D, Hc.
  - specialize (P c ltac:(lra)). assert (0 <= f' c * (b - a)) by (apply Rmult_le_pos; lra). lra.
Qed.
Lemma d1_bt1 x : 0 <= x -> Rabs (d1 x) <= bt1 x.
Proof.
  intros Hx.
  assert (K : forall s, s = 1 \/ s = -1 -> s * d1 x <= bt1 x).
  { intros s Hs. apply Rnot_lt_le. intros C. set (e := s * d1 x - bt1 x). assert (He : 0 < e) by (unfold e; lra).
    set (y := x + 40 / e + 1). assert (0 < 40 / e) by (apply Rdiv_lt_0_compat; lra).
    assert (M : s * d1 x - bt1 x <= s * d1 y - bt1 y).
    { apply (mono_up (fun t => s * d1 t - bt1 t) (fun t => s * d2 t + (/ 10 ^ 16 * (7 / (t + 1) ^ 6 + 1200 / (t + 70) ^ 4)))); [unfold y; lra| |].
      - intros t Ht. replace (s * d2 t + / 10 ^ 16 * (7 / (t + 1) ^ 6 + 1200 / (t + 70) ^ 4)) with (s * d2 t - - (/ 10 ^ 16 * (7 / (t + 1) ^ 6 + 1200 / (t + 70) ^ 4))) by ring.
        apply (is_derive_minus (fun t => s * d1 t) bt1 t); [apply (is_derive_scal d1 t s); apply d1_derive; lra|apply bt1_derive; lra].
      - intros t Ht. pose proof (d2_bound t ltac:(lra)) as B. set (q := / 10 ^ 16 * (7 / (t + 1) ^ 6 + 1200 / (t + 70) ^ 4)) in *. clearbody q.
        apply Rabs_le_between in B. destruct Hs as [-> | ->]; lra. }
    pose proof (bt1_pos y ltac:(unfold y; lra)). pose proof (d1_decay y ltac:(unfold y; lra)) as B. apply Rabs_le_between in B.
    assert (L : 40 / y < e).
    { apply (Rmult_lt_reg_r y); [unfold y; lra|]. replace (40 / y * y) with 40 by (field; unfold y; lra).
      unfold y. replace (e * (x + 40 / e + 1)) with (e * (x + 1) + 40) by (field; lra). assert (0 < e * (x + 1)) by (apply Rmult_lt_0_compat; lra). lra. }
    fold e in M. destruct Hs as [-> | ->]; lra. }
  apply Rabs_le. pose proof (K 1 (or_introl eq_refl)). pose proof (K (-1) (or_intror eq_refl)). lra.
Qed.
Lemma dl_diff x y : 0 <= x <= y -> Rabs (dl x - dl y) <= bt x - bt y.
Proof.
  intros H.
  assert (K : forall s, s = 1 \/ s = -1 -> s * dl x - bt x <= s * dl y - bt y).
  { intros s Hs. apply (mono_up (fun t => s * dl t - bt t) (fun t => s * d1 t + bt1 t)); [lra| |].
    - intros t Ht. replace (s * d1 t + bt1 t) with (s * d1 t - - bt1 t) by ring.
      apply (is_derive_minus (fun t => s * dl t) bt t); [apply (is_derive_scal dl t s); apply dl_derive; lra|apply bt_derive; lra].
    - intros t Ht. pose proof (d1_bt1 t ltac:(lra)) as B. apply Rabs_le_between in B. destruct Hs as [-> | ->]; lra. }
  apply Rabs_le. pose proof (K 1 (or_introl eq_refl)). pose proof (K (-1) (or_intror eq_refl)). lra.
Qed.

(** ** the difference is asymptotically constant *)
Lemma lnF_derive x : 0 < x -> is_derive lnF x (nN1 x / nN x - dD1 x / dD x + (ln (al x) - gl / al x)).
Proof.
  intros H.
  pose proof (is_derive_plus _ _ x _ _ (is_derive_minus _ _ x _ _ (lnN_derive x ltac:(lra)) (lnD_derive x H)) (mainF_derive x ltac:(lra))) as D.
  assert (D0 : is_derive (fun _ : R => - ln (10 ^ 20) - gl) x 0) by apply @is_derive_const.
  pose proof (is_derive_plus _ _ x _ _ D D0) as D'. unfold minus, plus, opp in D'; cbn [AbelianGroup.plus AbelianGroup.opp] in D'.
  eapply is_derive_ext_loc; [|evar_last; [exact D'|]].
  - exists (mkposreal x H). intros t Ht. cbn in Ht. unfold AbsRing_ball, abs, minus, plus, opp in Ht. cbn in Ht. apply Rabs_def2 in Ht.
    match goal with |- @eq _ ?a ?b => change (@eq R a b) end. rewrite (lnF_split t) by lra. cbn -[pow Rdiv nN dD al gl ln]. set (p := ln (10 ^ 20)). clearbody p. ring.
  - cbn -[pow Rdiv nN dD nN1 dD1 al gl ln]. ring.
Qed.
Lemma hL_step y s : 0 < y -> 0 <= s <= 1 -> Rabs (hL (y + s) - hL y) <= 41 / y.
Proof.
  intros Hy Hs. pose proof (lnG_upper y s Hy Hs) as U. pose proof (lnG_lower y s Hy Hs) as L.
  assert (Y : 0 < / y) by now apply Rinv_0_lt_compat.
  assert (B : Rabs (lnF (y + s) - lnF y - s * ln y) <= s * (40 / y)).
  { destruct (Req_dec s 0) as [-> |N]; [rewrite Rplus_0_r; replace (lnF y - lnF y - 0 * ln y) with 0 by ring; rewrite Rabs_R0; lra|].
    destruct (MVT_cor2 lnF (fun x => nN1 x / nN x - dD1 x / dD x + (ln (al x) - gl / al x)) y (y + s) ltac:(lra)) as (c & E & Hc).
    { intros c Hc. apply is_derive_Reals, lnF_derive. lra. }
    rewrite E. replace (y + s - y) with s by ring.
    assert (Lc : forall k z, 0 <= k -> y <= z -> 0 <= k / z <= k / y).
    { intros k z Hk Hz. assert (0 < / z) by (apply Rinv_0_lt_compat; lra). unfold Rdiv. split; [apply Rmult_le_pos; lra|]. apply Rmult_le_compat_l; [lra|]. apply Rinv_le_contravar; lra. }
    pose proof (nN_log c ltac:(lra)) as A1. pose proof (dD_log c ltac:(lra)) as A2. pose proof (Lc 12 c ltac:(lra) ltac:(lra)) as A3.
    assert (Ac : y <= al c <= y + 8) by (unfold al; rewrite gl_val; lra).
    pose proof (Lc gl (al c) ltac:(rewrite gl_val; lra) ltac:(lra)) as A4. assert (A5 : gl / y <= 7 / y) by (unfold Rdiv; apply Rmult_le_compat_r; [lra|rewrite gl_val; lra]).
    pose proof (ln_le_tangent y (al c) Hy ltac:(lra)) as A6.
    assert (A7 : al c / y <= 1 + 8 / y) by (apply (Rmult_le_reg_r y); [lra|]; replace (al c / y * y) with (al c) by (field; lra); replace ((1 + 8 / y) * y) with (y + 8) by (field; lra); lra).
    assert (A8 : ln y <= ln (al c)) by (destruct (proj1 Ac) as [A8|A8]; [left; apply ln_increasing; lra|rewrite <- A8; lra]).
    replace ((nN1 c / nN c - dD1 c / dD c + (ln (al c) - gl / al c)) * s - s * ln y) with (s * (nN1 c / nN c - dD1 c / dD c + (ln (al c) - ln y) - gl / al c)) by ring.
    rewrite Rabs_mult, (Rabs_right s) by lra. apply Rmult_le_compat_l; [lra|]. apply Rabs_le.
    clear Lc. unfold Rdiv in *. set (iy := / y) in *. clearbody iy. lra. }
  assert (B2 : s * (40 / y) <= 40 / y) by (assert (0 <= 40 / y) by (unfold Rdiv; lra); nra).
  apply Rabs_le_between in B. unfold hL. apply Rabs_le. unfold Rdiv in *. lra.
Qed.
Lemma hL_far y s n : 0 < y -> 0 <= s <= 1 -> Rabs (hL (y + INR n + s) - hL y) <= (INR n + 1) * (41 / y).
Proof.
  intros Hy Hs. revert y Hy. induction n as [|n IH]; intros y Hy.
  - cbn [INR]. rewrite Rplus_0_r. replace ((0 + 1) * (41 / y)) with (41 / y) by ring. now apply hL_step.
  - rewrite S_INR. specialize (IH (y + 1) ltac:(lra)). replace (y + 1 + INR n + s) with (y + (INR n + 1) + s) in IH by ring.
    pose proof (hL_step y 1 Hy ltac:(lra)) as S1.
    assert (Q : 41 / (y + 1) <= 41 / y) by (unfold Rdiv; apply Rmult_le_compat_l; [lra|apply Rinv_le_contravar; lra]).
    pose proof (pos_INR n). assert ((INR n + 1) * (41 / (y + 1)) <= (INR n + 1) * (41 / y)) by (apply Rmult_le_compat_l; lra).
    replace (hL (y + (INR n + 1) + s) - hL y) with ((hL (y + (INR n + 1) + s) - hL (y + 1)) + (hL (y + 1) - hL y)) by ring.
    eapply Rle_trans; [apply Rabs_triang|]. lra.
Qed.
Lemma split_nat z : 0 <= z -> exists n s, z = INR n + s /\ 0 <= s <= 1.
Proof.
  intros H. destruct (nfloor_ex z H) as [n Hn]. exists n, (z - INR n). split; [ring|lra].
Qed.
Lemma hL_tail x y : 0 < x <= y -> exists K, 0 <= K /\ forall n, Rabs (hL (y + INR n) - hL (x + INR n)) <= K / (x + INR n).
Proof.
  intros H. destruct (split_nat (y - x) ltac:(lra)) as (m & s & E & Hs). exists ((INR m + 1) * 41). pose proof (pos_INR m).
  split; [lra|]. intros n. pose proof (pos_INR n). replace (y + INR n) with (x + INR n + INR m + s) by lra.
  eapply Rle_trans; [apply hL_far; lra|]. right. field. lra.
Qed.
Fixpoint bsum (x : R) (n : nat) : R := match n with O => 0 | S n' => bsum x n' + bt (x + INR n') end.
Lemma hL_bsum x y n : 0 < x <= y -> Rabs ((hL (y + INR n) - hL (x + INR n)) - (hL y - hL x)) <= bsum x n - bsum y n.
Proof.
  intros H. induction n as [|n IH]; [cbn; rewrite !Rplus_0_r; replace (hL y - hL x - (hL y - hL x)) with 0 by ring; rewrite Rabs_R0; lra|].
  cbn [bsum]. rewrite S_INR, <- !Rplus_assoc. pose proof (pos_INR n).
  pose proof (hL_S (x + INR n) ltac:(lra)) as Sx. pose proof (hL_S (y + INR n) ltac:(lra)) as Sy.
  pose proof (dl_diff (x + INR n) (y + INR n) ltac:(lra)) as D. apply Rabs_le_between in D. apply Rabs_le_between in IH. apply Rabs_le. lra.
Qed.
Lemma hL_diff x y B : 0 < x <= y -> (forall n, bsum x n - bsum y n <= B) -> Rabs (hL y - hL x) <= B.
Proof.
  intros H HB. apply le_epsilon. intros eps He. destruct (hL_tail x y H) as (K & HK & T).
  destruct (nfloor_ex (K / eps) ltac:(apply Rmult_le_pos; [lra|left; now apply Rinv_0_lt_compat])) as [n Hn].
  specialize (T (S n)). specialize (HB (S n)). pose proof (hL_bsum x y (S n) H) as Q. rewrite S_INR in *. pose proof (pos_INR n).
  assert (L : K / (x + (INR n + 1)) <= eps).
  { apply (Rmult_le_reg_r (x + (INR n + 1))); [lra|]. replace (K / (x + (INR n + 1)) * (x + (INR n + 1))) with K by (field; lra).
    apply Rle_trans with (eps * (K / eps)); [right; field; lra|]. apply Rmult_le_compat_l; lra. }
  apply Rabs_le_between in Q. apply Rabs_le_between in T. apply Rabs_le. lra.
Qed.
(** sums by telescoping *)
Definition St (x : R) : R := / 10 ^ 16 * (7 / (60 * (x + 1 / 2) ^ 3) + 200 / (x + 139 / 2)).
Definition Tt (x : R) : R := / 10 ^ 16 * (7 / (20 * (x + 1 / 2) ^ 4) + 200 / (x + 139 / 2) ^ 2).
Lemma tele4 t : 1 / 2 < t -> / t ^ 4 <= (/ (t - 1 / 2) ^ 3 - / (t + 1 / 2) ^ 3) / 3.
Proof.
  intros H. assert (0 < t ^ 4) by (apply pow_lt; lra). assert (0 < (t - 1 / 2) ^ 3) by (apply pow_lt; lra). assert (0 < (t + 1 / 2) ^ 3) by (apply pow_lt; lra).
  apply Rminus_le. replace (/ t ^ 4 - (/ (t - 1 / 2) ^ 3 - / (t + 1 / 2) ^ 3) / 3)
    with (- ((5 / 6 * t ^ 4 - 3 / 16 * t ^ 2 + 1 / 64) / (t ^ 4 * ((t - 1 / 2) ^ 3 * (t + 1 / 2) ^ 3)))) by (field; repeat split; apply Rgt_not_eq; lra).
  assert (0 <= (5 / 6 * t ^ 4 - 3 / 16 * t ^ 2 + 1 / 64) / (t ^ 4 * ((t - 1 / 2) ^ 3 * (t + 1 / 2) ^ 3))); [|lra].
  apply Rmult_le_pos; [|left; apply Rinv_0_lt_compat; apply Rmult_lt_0_compat; [assumption|now apply Rmult_lt_0_compat]].
  assert (1 / 4 <= t ^ 2) by nra. assert (t ^ 4 = t ^ 2 * t ^ 2) by ring. nra.
Qed.
Lemma tele5 t : 1 / 2 < t -> / t ^ 5 <= (/ (t - 1 / 2) ^ 4 - / (t + 1 / 2) ^ 4) / 4.
Proof.
  intros H. assert (0 < t ^ 5) by (apply pow_lt; lra). assert (0 < (t - 1 / 2) ^ 4) by (apply pow_lt; lra). assert (0 < (t + 1 / 2) ^ 4) by (apply pow_lt; lra).
  apply Rminus_le. replace (/ t ^ 5 - (/ (t - 1 / 2) ^ 4 - / (t + 1 / 2) ^ 4) / 4)
    with (- ((5 * t ^ 6 - 3 / 2 * t ^ 4 + 1 / 4 * t ^ 2 - 1 / 64) / (4 * (t ^ 5 * ((t - 1 / 2) ^ 4 * (t + 1 / 2) ^ 4))))) by (field; repeat split; apply Rgt_not_eq; lra).
  assert (0 <= (5 * t ^ 6 - 3 / 2 * t ^ 4 + 1 / 4 * t ^ 2 - 1 / 64) / (4 * (t ^ 5 * ((t - 1 / 2) ^ 4 * (t + 1 / 2) ^ 4)))); [|lra].
  apply Rmult_le_pos; [|left; apply Rinv_0_lt_compat; apply Rmult_lt_0_compat; [lra|apply Rmult_lt_0_compat; [assumption|now apply Rmult_lt_0_compat]]].
  assert (Q : 1 / 4 <= t ^ 2) by nra. assert (t ^ 4 = t ^ 2 * t ^ 2) by ring. assert (t ^ 6 = t ^ 2 * (t ^ 2 * t ^ 2)) by ring. set (q := t ^ 2) in *. clearbody q.
  assert (0 <= q * q * (5 * q - 5 / 4)) by (apply Rmult_le_pos; [apply Rmult_le_pos; lra|lra]). nra.
Qed.
Lemma tele3 t : 1 / 2 < t -> / t ^ 3 <= (/ (t - 1 / 2) ^ 2 - / (t + 1 / 2) ^ 2) / 2.
Proof.
  intros H. assert (0 < t ^ 3) by (apply pow_lt; lra). assert (0 < (t - 1 / 2) ^ 2) by (apply pow_lt; lra). assert (0 < (t + 1 / 2) ^ 2) by (apply pow_lt; lra).
  apply Rminus_le. replace (/ t ^ 3 - (/ (t - 1 / 2) ^ 2 - / (t + 1 / 2) ^ 2) / 2)
    with (- ((1 / 2 * t ^ 2 - 1 / 16) / (t ^ 3 * ((t - 1 / 2) ^ 2 * (t + 1 / 2) ^ 2)))) by (field; repeat split; apply Rgt_not_eq; lra).
  assert (0 <= (1 / 2 * t ^ 2 - 1 / 16) / (t ^ 3 * ((t - 1 / 2) ^ 2 * (t + 1 / 2) ^ 2))); [|lra].
  apply Rmult_le_pos; [|left; apply Rinv_0_lt_compat; apply Rmult_lt_0_compat; [assumption|now apply Rmult_lt_0_compat]]. nra.
Qed.
Lemma tele2 t : 1 / 2 < t -> / t ^ 2 <= / (t - 1 / 2) - / (t + 1 / 2).
Proof.
  intros H. assert (0 < t ^ 2) by (apply pow_lt; lra).
  apply Rminus_le. replace (/ t ^ 2 - (/ (t - 1 / 2) - / (t + 1 / 2))) with (- ((1 / 4) / (t ^ 2 * ((t - 1 / 2) * (t + 1 / 2))))) by (field; repeat split; lra).
  assert (0 <= (1 / 4) / (t ^ 2 * ((t - 1 / 2) * (t + 1 / 2)))); [|lra].
  apply Rmult_le_pos; [lra|left; apply Rinv_0_lt_compat; apply Rmult_lt_0_compat; [assumption|apply Rmult_lt_0_compat; lra]].
Qed.
Lemma bt_St x : 0 <= x -> bt x <= St x - St (x + 1).
Proof.
  intros H. unfold bt, St. pose proof e16_pos as E. set (e := / 10 ^ 16) in *. clearbody e.
  pose proof (tele4 (x + 1) ltac:(lra)) as T4. pose proof (tele2 (x + 70) ltac:(lra)) as T2.
  replace (x + 1 - 1 / 2) with (x + 1 / 2) in T4 by lra. replace (x + 70 - 1 / 2) with (x + 139 / 2) in T2 by lra. replace (x + 70 + 1 / 2) with (x + 1 + 139 / 2) in T2 by lra.
  unfold Rdiv at 1 2 3 4 6 7. rewrite !Rinv_mult. apply Rle_trans with (e * ((7 * (/ 60 * (/ (x + 1 / 2) ^ 3 - / (x + 1 + 1 / 2) ^ 3))) + 200 * (/ (x + 139 / 2) - / (x + 1 + 139 / 2)))); [|right; unfold Rdiv; ring].
  apply Rmult_le_compat_l; lra.
Qed.
Lemma bt1_Tt x : 0 <= x -> bt1 x <= Tt x - Tt (x + 1).
Proof.
  intros H. unfold bt1, Tt. pose proof e16_pos as E. set (e := / 10 ^ 16) in *. clearbody e.
  pose proof (tele5 (x + 1) ltac:(lra)) as T4. pose proof (tele3 (x + 70) ltac:(lra)) as T2.
  replace (x + 1 - 1 / 2) with (x + 1 / 2) in T4 by lra. replace (x + 70 - 1 / 2) with (x + 139 / 2) in T2 by lra. replace (x + 70 + 1 / 2) with (x + 1 + 139 / 2) in T2 by lra.
  unfold Rdiv at 1 2 3 4 6 7. rewrite !Rinv_mult. apply Rle_trans with (e * ((7 * (/ 20 * (/ (x + 1 / 2) ^ 4 - / (x + 1 + 1 / 2) ^ 4))) + 200 * (/ (x + 139 / 2) ^ 2 - / (x + 1 + 139 / 2) ^ 2))); [|right; unfold Rdiv; ring].
  apply Rmult_le_compat_l; lra.
Qed.
Lemma bt_pos x : 0 <= x -> 0 <= bt x.
Proof.
  intros H. unfold bt. pose proof e16_pos. apply Rmult_le_pos; [lra|].
  assert (0 < 7 / (20 * (x + 1) ^ 4)) by (apply Rdiv_lt_0_compat; [lra|]; apply Rmult_lt_0_compat; [lra|apply pow_lt; lra]).
  assert (0 < 200 / (x + 70) ^ 2) by (apply Rdiv_lt_0_compat; [lra|apply pow_lt; lra]). lra.
Qed.
Lemma St_pos x : 0 <= x -> 0 <= St x.
Proof.
  intros H. unfold St. pose proof e16_pos. apply Rmult_le_pos; [lra|].
  assert (0 < 7 / (60 * (x + 1 / 2) ^ 3)) by (apply Rdiv_lt_0_compat; [lra|]; apply Rmult_lt_0_compat; [lra|apply pow_lt; lra]).
  assert (0 < 200 / (x + 139 / 2)) by (apply Rdiv_lt_0_compat; lra). lra.
Qed.
Lemma Tt_pos x : 0 <= x -> 0 <= Tt x.
Proof.
  intros H. unfold Tt. pose proof e16_pos. apply Rmult_le_pos; [lra|].
  assert (0 < 7 / (20 * (x + 1 / 2) ^ 4)) by (apply Rdiv_lt_0_compat; [lra|]; apply Rmult_lt_0_compat; [lra|apply pow_lt; lra]).
  assert (0 < 200 / (x + 139 / 2) ^ 2) by (apply Rdiv_lt_0_compat; [lra|apply pow_lt; lra]). lra.
Qed.
Lemma bsum_pos x n : 0 <= x -> 0 <= bsum x n.
Proof. intros H. induction n as [|n IH]; cbn [bsum]; [lra|]. pose proof (pos_INR n). pose proof (bt_pos (x + INR n) ltac:(lra)). lra. Qed.
Lemma bsum_St x n : 0 <= x -> bsum x n <= St x - St (x + INR n).
Proof.
  intros H. induction n as [|n IH]; [cbn; rewrite Rplus_0_r; lra|]. cbn [bsum]. rewrite S_INR, <- Rplus_assoc. pose proof (pos_INR n).
  pose proof (bt_St (x + INR n) ltac:(lra)). lra.
Qed.
Lemma bt1_antitone x y : 0 <= x <= y -> bt1 y <= bt1 x.
Proof.
  intros H. unfold bt1. pose proof e16_pos. apply Rmult_le_compat_l; [lra|].
  assert (P : forall k n c, 0 <= k -> 0 < c -> k / (y + c) ^ n <= k / (x + c) ^ n).
  { intros k n c Hk Hc. unfold Rdiv. apply Rmult_le_compat_l; [lra|]. apply Rinv_le_contravar; [apply pow_lt; lra|]. apply pow_incr. lra. }
  pose proof (P (7 / 5) 5%nat 1 ltac:(lra) ltac:(lra)) as P1. pose proof (P 400 3%nat 70 ltac:(lra) ltac:(lra)) as P2.
  assert (0 < (x + 1) ^ 5) by (apply pow_lt; lra). assert (0 < (y + 1) ^ 5) by (apply pow_lt; lra).
  replace (7 / (5 * (y + 1) ^ 5)) with (7 / 5 / (y + 1) ^ 5) by (field; lra). replace (7 / (5 * (x + 1) ^ 5)) with (7 / 5 / (x + 1) ^ 5) by (field; lra). lra.
Qed.
Lemma bt_lip x y : 0 <= x <= y -> bt x - bt y <= (y - x) * bt1 x.
Proof.
  intros H. destruct (Req_dec x y) as [->|N]; [lra|].
  destruct (MVT_cor2 bt (fun t => - bt1 t) x y ltac:(lra)) as (c & E & Hc).
  { intros c Hc. apply is_derive_Reals, bt_derive. lra. }
  pose proof (bt1_antitone x c ltac:(lra)). assert ((y - x) * bt1 c <= (y - x) * bt1 x) by (apply Rmult_le_compat_l; lra). lra.
Qed.
Lemma bsum_Tt x y n : 0 <= x <= y -> bsum x n - bsum y n <= (y - x) * (Tt x - Tt (x + INR n)).
Proof.
  intros H. induction n as [|n IH]; [cbn; rewrite Rplus_0_r; lra|]. cbn [bsum]. rewrite S_INR, <- Rplus_assoc. pose proof (pos_INR n).
  pose proof (bt1_Tt (x + INR n) ltac:(lra)) as B. pose proof (bt_lip (x + INR n) (y + INR n) ltac:(lra)) as L. replace (y + INR n - (x + INR n)) with (y - x) in L by ring.
  apply (Rmult_le_compat_l (y - x)) in B; [|lra]. lra.
Qed.
Lemma hL_St x y : 0 < x <= y -> Rabs (hL y - hL x) <= St x.
Proof.
  intros H. apply hL_diff; [exact H|]. intros n. pose proof (bsum_pos y n ltac:(lra)). pose proof (bsum_St x n ltac:(lra)).
  pose proof (pos_INR n). pose proof (St_pos (x + INR n) ltac:(lra)). lra.
Qed.
Lemma hL_lip x y : 0 < x <= y -> Rabs (hL y - hL x) <= (y - x) * Tt x.
Proof.
  intros H. apply hL_diff; [exact H|]. intros n. pose proof (bsum_Tt x y n ltac:(lra)). pose proof (pos_INR n). pose proof (Tt_pos (x + INR n) ltac:(lra)).
  assert (0 <= (y - x) * Tt (x + INR n)) by (apply Rmult_le_pos; lra). lra.
Qed.

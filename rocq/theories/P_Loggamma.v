(** * P_Loggamma: accuracy of loggamma1p in exact arithmetic (C51) *)
From Coq Require Import ZArith Reals List Bool Lia Lra Psatz.
From Coquelicot Require Import Coquelicot.
From Flocq Require Raux.
From Verif Require Import CSem Num NumP M_Special S_Special S_Gamma P_Gamma P_ErfcxT P_LanczosC P_Lanczos P_LnBox P_LoggammaC.
Import ListNotations.
Open Scope R_scope.

(** ** a function with a bounded second derivative stays near its chord *)
Lemma chord (f f1 f2 : R -> R) a b x M : a < b -> a <= x <= b ->
  (forall t, a <= t <= b -> is_derive f t (f1 t)) -> (forall t, a <= t <= b -> is_derive f1 t (f2 t)) -> (forall t, a <= t <= b -> Rabs (f2 t) <= M) ->
  Rabs (f x) <= ((b - x) * Rabs (f a) + (x - a) * Rabs (f b)) / (b - a) + M / 2 * ((x - a) * (b - x)).
Proof.
  intros Hab Hx D1 D2 B.
  assert (K : forall s, s = 1 \/ s = -1 -> s * f x <= ((b - x) * (s * f a) + (x - a) * (s * f b)) / (b - a) + M / 2 * ((x - a) * (b - x))).
  { intros s Hs.
    destruct (Req_dec x a) as [->|Na]. { right. field. lra. }
    destruct (Req_dec x b) as [->|Nb]. { right. field. lra. }
    set (G := fun t => s * f t + M / 2 * (t * t)). set (G1 := fun t => s * f1 t + M * t).
    assert (DG : forall t, a <= t <= b -> is_derive G t (G1 t)).
    { intros t Ht. unfold G, G1. replace (s * f1 t + M * t) with (s * f1 t + M / 2 * (2 * t)) by field.
      apply (is_derive_plus (fun t => s * f t) (fun t => M / 2 * (t * t)) t); [apply (is_derive_scal f t s); apply D1, Ht|].
      auto_derive; [trivial|ring]. }
    assert (DG1 : forall t, a <= t <= b -> is_derive G1 t (s * f2 t + M)).
    { intros t Ht. unfold G1. apply (is_derive_plus (fun t => s * f1 t) (fun t => M * t) t); [apply (is_derive_scal f1 t s); apply D2, Ht|].
      auto_derive; [trivial|ring]. }
    destruct (MVT_cor2 G G1 a x ltac:(lra)) as (c1 & E1 & H1). { intros c Hc. apply is_derive_Reals, DG. lra. }
    destruct (MVT_cor2 G G1 x b ltac:(lra)) as (c2 & E2 & H2). { intros c Hc. apply is_derive_Reals, DG. lra. }
    assert (L : G1 c1 <= G1 c2).
    { apply (mono_up G1 (fun t => s * f2 t + M)); [lra| |].
      - intros c Hc. apply DG1. lra.
      - intros c Hc. pose proof (B c ltac:(lra)) as Q. apply Rabs_le_between in Q. destruct Hs as [-> | ->]; lra. }
    assert (Q : (b - x) * (G x - G a) <= (x - a) * (G b - G x)).
    { rewrite E1, E2. replace ((b - x) * (G1 c1 * (x - a))) with ((b - x) * (x - a) * G1 c1) by ring.
      replace ((x - a) * (G1 c2 * (b - x))) with ((b - x) * (x - a) * G1 c2) by ring. apply Rmult_le_compat_l; [apply Rmult_le_pos; lra|exact L]. }
    unfold G in Q. apply (Rmult_le_reg_r (b - a)); [lra|].
    replace ((((b - x) * (s * f a) + (x - a) * (s * f b)) / (b - a) + M / 2 * ((x - a) * (b - x))) * (b - a))
      with ((b - x) * (s * f a) + (x - a) * (s * f b) + M / 2 * ((x - a) * (b - x) * (b - a))) by (field; lra).
    replace ((x - a) * (b - x) * (b - a)) with ((b - x) * (a * a) + (x - a) * (b * b) - (b - a) * (x * x)) by ring. lra. }
  assert (I : forall s u, s = 1 \/ s = -1 -> s * u <= Rabs u).
  { intros s u [-> | ->]; [rewrite Rmult_1_l; apply Rle_abs|]. rewrite <- Rabs_Ropp. replace (-1 * u) with (- u) by ring. apply Rle_abs. }
  assert (P : 0 < / (b - a)) by (apply Rinv_0_lt_compat; lra).
  assert (U : forall s, s = 1 \/ s = -1 -> ((b - x) * (s * f a) + (x - a) * (s * f b)) / (b - a) <= ((b - x) * Rabs (f a) + (x - a) * Rabs (f b)) / (b - a)).
  { intros s Hs. apply Rmult_le_compat_r; [lra|]. apply Rplus_le_compat; apply Rmult_le_compat_l; try lra; now apply I. }
  pose proof (K 1 (or_introl eq_refl)). pose proof (K (-1) (or_intror eq_refl)). pose proof (U 1 (or_introl eq_refl)). pose proof (U (-1) (or_intror eq_refl)).
  apply Rabs_le. lra.
Qed.

(** ** the values at multiples of 1/40 *)
Fixpoint hom (b n : Z) (l : list Z) : Z := match l with [] => 0%Z | a :: l' => (a * b ^ Z.of_nat (length l') + n * hom b n l')%Z end.
Lemma hom_val b n l : (0 < b)%Z -> IZR (hom b n l) * IZR b = IZR b ^ length l * pev l (IZR n / IZR b).
Proof.
  intros Hb. apply IZR_lt in Hb. induction l as [|a l IH]; cbn [hom pev length]; [ring|].
  rewrite plus_IZR, !mult_IZR, <- pow_IZR. replace ((IZR a * IZR b ^ length l + IZR n * IZR (hom b n l)) * IZR b) with (IZR a * IZR b ^ length l * IZR b + IZR n * (IZR (hom b n l) * IZR b)) by ring.
  rewrite IH. cbn [pow]. field. lra.
Qed.
Definition klog (p q : Z) : Z := Z.log2 (p / q).
Definition lnF_box (l2 : box) (c np nq : Z) : box :=
  let ap := (c * kg + 40 * gz - 20 * kg)%Z in let aq := (40 * kg)%Z in
  badd (bsub (lnbox l2 (klog np nq) np nq) (bquot gz kg)) (bquo (bscal (c - 20) (bsub (lnbox l2 (klog ap aq) ap aq) (SC, SC))) 40).
Definition lnF_ok (c np nq : Z) : bool :=
  let ap := (c * kg + 40 * gz - 20 * kg)%Z in let aq := (40 * kg)%Z in
  lnbox_ok (klog np nq) np nq && lnbox_ok (klog ap aq) ap aq && (20 <=? c)%Z.
Definition Nh (c : Z) : Z := hom 40 c Nz.
Definition Dh (c : Z) : Z := (10 ^ 20 * hom 40 c Dz)%Z.
Lemma bin_lnF l2 c : bin l2 (ln 2) -> lnF_ok c (Nh c) (Dh c) = true -> bin (lnF_box l2 c (Nh c) (Dh c)) (lnF (IZR c / 40)).
Proof.
  intros B2 H. unfold lnF_ok in H. apply andb_prop in H. destruct H as [H H3]. apply andb_prop in H. destruct H as [H1 H2]. apply Z.leb_le in H3.
  assert (C : 20 <= IZR c) by (apply IZR_le; exact H3).
  assert (E1 : nN (IZR c / 40) / 10 ^ 20 / dD (IZR c / 40) = IZR (Nh c) / IZR (Dh c)).
  { unfold Nh, Dh. rewrite mult_IZR. replace (IZR (10 ^ 20)) with (10 ^ 20) by (rewrite pow_IZR; reflexivity).
    pose proof (hom_val 40 c Nz eq_refl) as HN. pose proof (hom_val 40 c Dz eq_refl) as HD. fold (nN (IZR c / 40)) in HN. fold (dD (IZR c / 40)) in HD.
    change (length Nz) with 13%nat in HN. change (length Dz) with 13%nat in HD.
    assert (PD : 0 < dD (IZR c / 40)) by (apply dD_pos; lra).
    assert (EN : IZR (hom 40 c Nz) = 40 ^ 12 * nN (IZR c / 40)) by (change (40 ^ 13) with (40 * 40 ^ 12) in HN; lra).
    assert (ED : IZR (hom 40 c Dz) = 40 ^ 12 * dD (IZR c / 40)) by (change (40 ^ 13) with (40 * 40 ^ 12) in HD; lra).
    rewrite EN, ED. assert (P1 : 0 < 10 ^ 20) by (apply pow_lt; lra). assert (P2 : 0 < 40 ^ 12) by (apply pow_lt; lra).
    set (a := 10 ^ 20) in *. set (b := 40 ^ 12) in *. clearbody a b. field. lra. }
  assert (E2 : al (IZR c / 40) = IZR (c * kg + 40 * gz - 20 * kg) / IZR (40 * kg)).
  { unfold al, gl. rewrite minus_IZR, plus_IZR, !mult_IZR. change (IZR kg) with 134217728. field. }
  unfold lnF. rewrite E1, E2. unfold lnF_box.
  apply bin_add; [apply bin_sub; [now apply bin_lnbox|apply bin_quot; reflexivity]|].
  replace ((IZR c / 40 - 1 / 2) * (ln (IZR (c * kg + 40 * gz - 20 * kg) / IZR (40 * kg)) - 1)) with (IZR (c - 20) * (ln (IZR (c * kg + 40 * gz - 20 * kg) / IZR (40 * kg)) - 1) / IZR 40) by (rewrite minus_IZR; field).
  apply bin_quo; [lia|]. apply bin_scal; [lia|]. apply bin_sub; [now apply bin_lnbox|]. unfold bin. cbn [fst snd]. lra.
Qed.
Definition wq_box (j : Z) : box := bquot (hom 40 j pz) (1600 * hom 40 j qz).
Lemma bin_wq j : (0 <? hom 40 j qz)%Z = true -> bin (wq_box j) (wq (IZR j / 40)).
Proof.
  intros H. apply Z.ltb_lt in H. unfold wq_box, wq.
  pose proof (hom_val 40 j pz eq_refl) as HN. pose proof (hom_val 40 j qz eq_refl) as HD.
  change (length pz) with 13%nat in HN. change (length qz) with 11%nat in HD. set (P := pev pz (IZR j / 40)) in *. set (Q := pev qz (IZR j / 40)) in *.
  assert (HQ : 0 < IZR (hom 40 j qz)) by now apply IZR_lt.
  assert (EN : IZR (hom 40 j pz) = 40 ^ 12 * P) by (change (40 ^ 13) with (40 * 40 ^ 12) in HN; lra).
  assert (ED : IZR (hom 40 j qz) = 40 ^ 10 * Q) by (change (40 ^ 11) with (40 * 40 ^ 10) in HD; lra).
  assert (P10 : 0 < 40 ^ 10) by (apply pow_lt; lra). rewrite ED in HQ.
  assert (PQ : 0 < Q) by (apply (Rmult_lt_reg_l (40 ^ 10)); lra).
  replace (P / Q) with (IZR (hom 40 j pz) / IZR (1600 * hom 40 j qz)).
  - apply bin_quot. lia.
  - rewrite mult_IZR, EN, ED. change (40 ^ 12) with (40 * (40 * 40 ^ 10)). set (t := 40 ^ 10) in *. clearbody t P Q. field. lra.
Qed.
Definition w_box (l2 : box) (j : Z) : box := bsub (wq_box j) (lnF_box l2 (40 + j) (Nh (40 + j)) (Dh (40 + j))).
Definition w_ok (j : Z) : bool := lnF_ok (40 + j) (Nh (40 + j)) (Dh (40 + j)) && (0 <? hom 40 j qz)%Z.
Lemma bin_w l2 j : bin l2 (ln 2) -> w_ok j = true -> bin (w_box l2 j) (w0 (IZR j / 40)).
Proof.
  intros B2 H. unfold w_ok in H. apply andb_prop in H. destruct H as [H1 H2]. unfold w_box, w0. apply bin_sub; [now apply bin_wq|].
  replace (IZR j / 40 + 1) with (IZR (40 + j) / 40) by (rewrite plus_IZR; field). now apply bin_lnF.
Qed.
(** |w0(0)| <= 1e-20; |w0(x) - w0(0)| <= 1.6e-16 |x| and <= 4e-17 for x = j/40 *)
Definition node_ok (l2 b0 : box) (j : Z) : bool :=
  let b := bsub (w_box l2 j) b0 in
  (w_ok j && (- (4 * Z.abs j * SC) <=? 10 ^ 18 * fst b) && (10 ^ 18 * snd b <=? 4 * Z.abs j * SC) && (- (4 * SC) <=? 10 ^ 17 * fst b) && (10 ^ 17 * snd b <=? 4 * SC))%Z.
Definition grid : list Z := map (fun n => Z.of_nat n - 10)%Z (seq 0 47).
Definition grid_ok (l2 b0 : box) : bool := (w_ok 0 && (- SC <=? 10 ^ 20 * fst b0) && (10 ^ 20 * snd b0 <=? SC))%Z && forallb (node_ok l2 b0) (filter (fun j => negb (j =? 0)%Z) grid).
Definition grid_run (l2 : box) : bool := grid_ok l2 (w_box l2 0).
Lemma grid_checked : grid_run ln2box = true.
Proof. vm_cast_no_check (eq_refl true). Qed.
Lemma p17 : IZR (10 ^ 17) = 10 ^ 17. Proof. rewrite pow_IZR. reflexivity. Qed.
Lemma p18 : IZR (10 ^ 18) = 10 ^ 18. Proof. rewrite pow_IZR. reflexivity. Qed.
Lemma p20 : IZR (10 ^ 20) = 10 ^ 20. Proof. rewrite pow_IZR. reflexivity. Qed.
Local Opaque w_box w_ok SC Z.mul Z.pow.
Lemma grid_spec l2 : bin l2 (ln 2) -> grid_run l2 = true ->
  Rabs (w0 0) <= / 10 ^ 20 /\ (forall j, (-10 <= j <= 36)%Z -> Rabs (w0 (IZR j / 40) - w0 0) <= 16 / 10 ^ 17 * Rabs (IZR j / 40) /\ Rabs (w0 (IZR j / 40) - w0 0) <= 4 / 10 ^ 17).
Proof.
  intros B2 H. unfold grid_run, grid_ok in H. apply andb_prop in H. destruct H as [H Hn].
  apply andb_prop in H. destruct H as [H H2]. apply andb_prop in H. destruct H as [H0 H1]. apply Z.leb_le in H1, H2.
  pose proof (bin_w l2 0 B2 H0) as B0. replace (IZR 0 / 40) with 0 in B0 by lra. pose proof SCR_pos as SP.
  split.
  - destruct B0 as [B01 B02]. apply IZR_le in H1, H2. rewrite opp_IZR, mult_IZR, p20 in H1. rewrite mult_IZR, p20 in H2.
    assert (P : 0 < 10 ^ 20) by (apply pow_lt; lra). set (t := 10 ^ 20) in *. set (S := IZR SC) in *. clearbody t S.
    apply Rabs_le. split; apply (Rmult_le_reg_r (t * S)); try (apply Rmult_lt_0_compat; lra);
      replace (/ t * (t * S)) with S by (field; lra); [replace (- / t * (t * S)) with (- S) by (field; lra)|]; nra.
  - intros j Hj. destruct (Z.eq_dec j 0) as [-> |NZ].
    { replace (IZR 0 / 40) with 0 by lra. rewrite Rminus_diag_eq, Rabs_R0 by reflexivity. assert (0 < / 10 ^ 17) by (apply Rinv_0_lt_compat, pow_lt; lra). split; lra. }
    assert (N : node_ok l2 (w_box l2 0) j = true).
    { rewrite forallb_forall in Hn. apply Hn. apply filter_In. split.
      - unfold grid. apply in_map_iff. exists (Z.to_nat (j + 10)). split; [rewrite Z2Nat.id by lia; lia|]. apply in_seq. lia.
      - apply negb_true_iff, Z.eqb_neq, NZ. }
    unfold node_ok in N. apply andb_prop in N. destruct N as [N N4]. apply andb_prop in N. destruct N as [N N3]. apply andb_prop in N. destruct N as [N N2]. apply andb_prop in N. destruct N as [N N1].
    pose proof (bin_sub _ _ _ _ (bin_w l2 j B2 N) B0) as Bj. set (b := bsub (w_box l2 j) (w_box l2 0)) in *. destruct Bj as [L U]. set (v := w0 (IZR j / 40) - w0 0) in *.
    apply Z.leb_le in N1, N2, N3, N4. apply IZR_le in N1, N2, N3, N4.
    rewrite !opp_IZR, !mult_IZR, p18, abs_IZR in N1. rewrite !mult_IZR, p18, abs_IZR in N2.
    rewrite !opp_IZR, !mult_IZR, p17 in N3. rewrite !mult_IZR, p17 in N4.
    assert (P : 0 < 10 ^ 17) by (apply pow_lt; lra). change (10 ^ 18) with (10 * 10 ^ 17) in N1, N2.
    replace (Rabs (IZR j / 40)) with (Rabs (IZR j) / 40) by (unfold Rdiv; rewrite Rabs_mult; f_equal; rewrite Rabs_pos_eq; lra).
    set (t := 10 ^ 17) in *. set (S := IZR SC) in *. set (m := Rabs (IZR j)) in *. clearbody t S m v b.
    assert (TS : 0 < t * S) by (apply Rmult_lt_0_compat; lra).
    assert (KK : forall c, v * S * t <= c * S -> - (c * S) <= v * S * t -> Rabs v <= c / t).
    { intros c C1 C2. apply Rabs_le. split; apply (Rmult_le_reg_r (t * S)); try exact TS.
      - replace (- (c / t) * (t * S)) with (- (c * S)) by (field; lra). lra.
      - replace (c / t * (t * S)) with (c * S) by (field; lra). lra. }
    split.
    + replace (16 / t * (m / 40)) with (4 * m / 10 / t) by (field; lra). apply KK; nra.
    + apply KK; nra.
Qed.
Lemma grid_values : Rabs (w0 0) <= / 10 ^ 20 /\ (forall j, (-10 <= j <= 36)%Z -> Rabs (w0 (IZR j / 40) - w0 0) <= 16 / 10 ^ 17 * Rabs (IZR j / 40) /\ Rabs (w0 (IZR j / 40) - w0 0) <= 4 / 10 ^ 17).
Proof. exact (grid_spec ln2box bin_ln2 grid_checked). Qed.

(** ** between the nodes *)
Lemma cell x : -(1/4) <= x <= 9/10 -> exists j, (-10 <= j <= 35)%Z /\ IZR j / 40 <= x <= IZR (j + 1) / 40.
Proof.
  intros H. destruct (Rle_dec (9/10) x) as [Q|Q].
  - exists 35%Z. split; [lia|]. change (35 + 1)%Z with 36%Z. lra.
  - exists (Raux.Zfloor (40 * x)). pose proof (Raux.Zfloor_lb (40 * x)) as L. pose proof (Raux.Zfloor_ub (40 * x)) as U.
    assert (A : (-10 <= Raux.Zfloor (40 * x))%Z) by (apply Raux.Zfloor_lub; lra).
    assert (B : (Raux.Zfloor (40 * x) < 36)%Z) by (apply lt_IZR; lra).
    split; [lia|]. rewrite plus_IZR. lra.
Qed.
Lemma w0_between x : -(1/4) <= x <= 9/10 -> Rabs (w0 x - w0 0) <= 36 / 10 ^ 17 * Rabs x /\ Rabs (w0 x - w0 0) <= 42 / 10 ^ 18.
Proof.
  intros Hx. destruct grid_values as [_ G]. destruct (cell x Hx) as (j & Hj & Hc).
  pose proof (G j ltac:(lia)) as [Ga1 Ga2]. pose proof (G (j + 1)%Z ltac:(lia)) as [Gb1 Gb2].
  assert (Ra : -(1/4) <= IZR j / 40) by (assert (-10 <= IZR j) by (apply IZR_le; lia); lra).
  assert (Rb : IZR (j + 1) / 40 <= 9/10) by (assert (IZR (j + 1) <= 36) by (apply IZR_le; lia); lra).
  assert (E : IZR (j + 1) / 40 = IZR j / 40 + / 40) by (rewrite plus_IZR; lra).
  assert (S : 0 <= IZR j / 40 \/ IZR (j + 1) / 40 <= 0).
  { destruct (Z_le_gt_dec 0 j) as [L|L]; [left; apply IZR_le in L; lra|right]. assert (IZR (j + 1) <= 0) by (apply IZR_le; lia). lra. }
  set (a := IZR j / 40) in *. set (b := IZR (j + 1) / 40) in *. clearbody a b. clear Hj.
  pose proof (chord (fun t => w0 t - w0 0) w1 w2 a b x (16 / 10 ^ 15) ltac:(lra) Hc) as C.
  assert (D0 : forall t, a <= t <= b -> is_derive (fun t => w0 t - w0 0) t (w1 t)).
  { intros t Ht. replace (w1 t) with (w1 t - 0) by ring. apply (is_derive_minus w0 (fun _ => w0 0) t); [apply w0_derive; lra|apply (is_derive_const (w0 0) t)]. }
  specialize (C D0 ltac:(intros; apply w1_derive; lra) ltac:(intros; apply w2_bound; lra)). cbv beta in C.
  set (fx := Rabs (w0 x - w0 0)) in *. set (fa := Rabs (w0 a - w0 0)) in *. set (fb := Rabs (w0 b - w0 0)) in *. clearbody fx fa fb.
  assert (BA : b - a = / 40) by lra. rewrite BA in C. 
  assert (C' : fx <= 40 * ((b - x) * fa + (x - a) * fb) + 16 / 10 ^ 15 / 2 * ((x - a) * (b - x))) by (unfold Rdiv at 1 in C; rewrite Rinv_inv in C; lra).
  assert (P : 0 < / 10 ^ 18) by (apply Rinv_0_lt_compat, pow_lt; lra).
  assert (T17 : forall c, c / 10 ^ 17 = 10 * c * / 10 ^ 18) by (intros c; change (10 ^ 18) with (10 * 10 ^ 17); field; apply pow_nonzero; lra).
  assert (T15 : 16 / 10 ^ 15 / 2 = 8000 * / 10 ^ 18) by (change (10 ^ 18) with (10 * (10 * (10 * 10 ^ 15))); field; apply pow_nonzero; lra).
  rewrite T15 in C'. rewrite !T17 in *. unfold Rdiv at 1. set (u := / 10 ^ 18) in *. clearbody u.
  split.
  - assert (A1 : (b - x) * fa <= (b - x) * (10 * 16 * u * Rabs a)) by (apply Rmult_le_compat_l; lra).
    assert (A2 : (x - a) * fb <= (x - a) * (10 * 16 * u * Rabs b)) by (apply Rmult_le_compat_l; lra).
    assert (A3 : (b - x) * Rabs a + (x - a) * Rabs b = / 40 * Rabs x).
    { destruct S as [S|S]; [rewrite !Rabs_pos_eq by lra|rewrite !Rabs_left1 by lra]; rewrite <- BA; ring. }
    assert (A4 : (x - a) * (b - x) <= / 40 * Rabs x).
    { destruct S as [S|S]; [rewrite Rabs_pos_eq by lra|rewrite Rabs_left1 by lra]; rewrite <- BA.
      - replace ((b - a) * x) with ((x - a) * (b - x) + (x - a) * (x - a) + a * (b - a)) by ring. assert (0 <= a * (b - a)) by (apply Rmult_le_pos; lra). pose proof (Rle_0_sqr (x - a)) as Q. unfold Rsqr in Q. lra.
      - replace ((b - a) * - x) with ((x - a) * (b - x) + (b - x) * (b - x) + (- b) * (b - a)) by ring. assert (0 <= (- b) * (b - a)) by (apply Rmult_le_pos; lra). pose proof (Rle_0_sqr (b - x)) as Q. unfold Rsqr in Q. lra. }
    assert (A5 : 8000 * u * ((x - a) * (b - x)) <= 8000 * u * (/ 40 * Rabs x)) by (apply Rmult_le_compat_l; lra).
    assert (A6 : 40 * ((b - x) * fa + (x - a) * fb) <= 10 * 16 * u * Rabs x) by (replace (10 * 16 * u * Rabs x) with (40 * (10 * 16 * u * ((b - x) * Rabs a + (x - a) * Rabs b))) by (rewrite A3; field); lra).
    replace (10 * 36 * u * Rabs x) with (10 * 16 * u * Rabs x + 8000 * u * (/ 40 * Rabs x)) by field. lra.
  - assert (A1 : (b - x) * fa <= (b - x) * (10 * 4 * u)) by (apply Rmult_le_compat_l; lra).
    assert (A2 : (x - a) * fb <= (x - a) * (10 * 4 * u)) by (apply Rmult_le_compat_l; lra).
    assert (A3 : (b - x) * (10 * 4 * u) + (x - a) * (10 * 4 * u) = / 40 * (10 * 4 * u)) by (rewrite <- BA; ring).
    assert (A4 : (x - a) * (b - x) <= / 6400).
    { replace (/ 6400) with ((/ 40) * (/ 40) / 4) by lra. rewrite <- BA. pose proof (Rle_0_sqr ((x - a) - (b - x))) as Q. unfold Rsqr in Q. nra. }
    assert (A5 : 8000 * u * ((x - a) * (b - x)) <= 8000 * u * / 6400) by (apply Rmult_le_compat_l; lra). lra.
Qed.

(** ** the two branches against the integral *)
Lemma hL_1 : Rabs (hL 1) <= / 10 ^ 20.
Proof.
  destruct grid_values as [G _]. replace (hL 1) with (- w0 0); [rewrite Rabs_Ropp; exact G|].
  unfold hL, w0. rewrite lnG_1. replace (0 + 1) with 1 by ring. replace (wq 0) with 0; [ring|]. unfold wq.
  replace (pev pz 0) with 0; [unfold Rdiv; ring|]. change pz with (0%Z :: tl pz). cbn [pev]. ring.
Qed.
Lemma St_le x y : 0 <= x <= y -> St y <= St x.
Proof.
  intros H. unfold St. assert (0 < / 10 ^ 16) by (apply Rinv_0_lt_compat, pow_lt; lra). apply Rmult_le_compat_l; [lra|].
  apply Rplus_le_compat; unfold Rdiv; apply Rmult_le_compat_l; try lra; apply Rinv_le_contravar; try lra.
  - apply Rmult_lt_0_compat; [lra|]. apply pow_lt. lra.
  - apply Rmult_le_compat_l; [lra|]. apply pow_incr. lra.
Qed.
Lemma Tt_le x y : 0 <= x <= y -> Tt y <= Tt x.
Proof.
  intros H. unfold Tt. assert (0 < / 10 ^ 16) by (apply Rinv_0_lt_compat, pow_lt; lra). apply Rmult_le_compat_l; [lra|].
  apply Rplus_le_compat; unfold Rdiv; apply Rmult_le_compat_l; try lra; apply Rinv_le_contravar.
  - apply Rmult_lt_0_compat; [lra|]. apply pow_lt. lra.
  - apply Rmult_le_compat_l; [lra|]. apply pow_incr. lra.
  - apply pow_lt. lra.
  - apply pow_incr. lra.
Qed.
Lemma St_0 : St 0 <= 3812 / 10 ^ 19.
Proof.
  unfold St. change (10 ^ 19) with (10 * (10 * (10 * 10 ^ 16))). assert (P : 0 < 10 ^ 16) by (apply pow_lt; lra). set (t := 10 ^ 16) in *. clearbody t.
  apply (Rmult_le_reg_r t); [exact P|]. replace (3812 / (10 * (10 * (10 * t))) * t) with (3812 / 1000) by (field; lra).
  match goal with |- / t * ?u * t <= _ => replace (/ t * u * t) with u by (field; lra) end. cbn [pow]. lra.
Qed.
Lemma St_1 : St 1 <= 2872 / 10 ^ 19.
Proof.
  unfold St. change (10 ^ 19) with (10 * (10 * (10 * 10 ^ 16))). assert (P : 0 < 10 ^ 16) by (apply pow_lt; lra). set (t := 10 ^ 16) in *. clearbody t.
  apply (Rmult_le_reg_r t); [exact P|]. replace (2872 / (10 * (10 * (10 * t))) * t) with (2872 / 1000) by (field; lra).
  match goal with |- / t * ?u * t <= _ => replace (/ t * u * t) with u by (field; lra) end. cbn [pow]. lra.
Qed.
Lemma Tt_34 : Tt (3/4) <= 185 / 10 ^ 19.
Proof.
  unfold Tt. change (10 ^ 19) with (10 * (10 * (10 * 10 ^ 16))). assert (P : 0 < 10 ^ 16) by (apply pow_lt; lra). set (t := 10 ^ 16) in *. clearbody t.
  apply (Rmult_le_reg_r t); [exact P|]. replace (185 / (10 * (10 * (10 * t))) * t) with (185 / 1000) by (field; lra).
  match goal with |- / t * ?u * t <= _ => replace (/ t * u * t) with u by (field; lra) end. cbn [pow]. lra.
Qed.
Lemma Tt_1 : Tt 1 <= 11 / 10 ^ 18.
Proof.
  unfold Tt. change (10 ^ 18) with (10 * (10 * 10 ^ 16)). assert (P : 0 < 10 ^ 16) by (apply pow_lt; lra). set (t := 10 ^ 16) in *. clearbody t.
  apply (Rmult_le_reg_r t); [exact P|]. replace (11 / (10 * (10 * t)) * t) with (11 / 100) by (field; lra).
  match goal with |- / t * ?u * t <= _ => replace (/ t * u * t) with u by (field; lra) end. cbn [pow]. lra.
Qed.

Lemma u20 : exists u, 0 < u /\ / 10 ^ 20 = u /\ (forall c, c / 10 ^ 19 = 10 * c * u) /\ (forall c, c / 10 ^ 18 = 100 * c * u) /\ (forall c, c / 10 ^ 17 = 1000 * c * u).
Proof.
  exists (/ 10 ^ 20). change (10 ^ 20) with (10 * (10 * (10 * 10 ^ 17))). change (10 ^ 19) with (10 * (10 * 10 ^ 17)). change (10 ^ 18) with (10 * 10 ^ 17).
  assert (P : 0 < 10 ^ 17) by (apply pow_lt; lra). set (t := 10 ^ 17) in *. clearbody t.
  split; [apply Rinv_0_lt_compat; lra|]. repeat split; intros; field; lra.
Qed.
Lemma small_accurate x : -(1/4) <= x <= 9/10 ->
  Rabs (wq x - lnG (1 + x)) <= 38 / 10 ^ 17 * Rabs x /\ Rabs (wq x - lnG (1 + x)) <= 52 / 10 ^ 18.
Proof.
  intros Hx. destruct (w0_between x Hx) as [A B].
  assert (E : wq x - lnG (1 + x) = (w0 x - w0 0) + (hL (1 + x) - hL 1)).
  { unfold hL, w0. rewrite lnG_1. replace (0 + 1) with 1 by ring. replace (x + 1) with (1 + x) by ring.
    replace (wq 0) with 0; [ring|]. unfold wq. replace (pev pz 0) with 0; [unfold Rdiv; ring|]. change pz with (0%Z :: tl pz). cbn [pev]. ring. }
  rewrite E. pose proof (Rabs_triang (w0 x - w0 0) (hL (1 + x) - hL 1)) as T.
  assert (C : Rabs (hL (1 + x) - hL 1) <= Rabs x * (185 / 10 ^ 19) /\ Rabs (hL (1 + x) - hL 1) <= 99 / 10 ^ 19).
  { destruct u20 as (u & Pu & _ & U19 & U18 & U17). destruct (Rle_dec 0 x) as [P|P].
    - pose proof (hL_lip 1 (1 + x) ltac:(lra)) as L. pose proof Tt_1 as T1. rewrite (Rabs_pos_eq x) by lra. rewrite U18 in T1. rewrite !U19.
      assert ((1 + x - 1) * Tt 1 <= (1 + x - 1) * (100 * 11 * u)) by (apply Rmult_le_compat_l; lra).
      assert ((1 + x - 1) * (100 * 11 * u) <= 9/10 * (100 * 11 * u)) by (apply Rmult_le_compat_r; lra).
      assert (0 <= x * u) by (apply Rmult_le_pos; lra). split; nra.
    - pose proof (hL_lip (1 + x) 1 ltac:(lra)) as L. rewrite Rabs_minus_sym in L. pose proof Tt_34 as T1. rewrite (Rabs_left x) by lra.
      pose proof (Tt_le (3/4) (1 + x) ltac:(lra)) as TM. rewrite U19 in T1. rewrite !U19.
      assert ((1 - (1 + x)) * Tt (1 + x) <= (1 - (1 + x)) * (10 * 185 * u)) by (apply Rmult_le_compat_l; lra).
      assert ((1 - (1 + x)) * (10 * 185 * u) <= 1/4 * (10 * 185 * u)) by (apply Rmult_le_compat_r; lra). split; lra. }
  destruct C as [C1 C2]. destruct u20 as (u & Pu & _ & U19 & U18 & U17). rewrite ?U19, ?U18, ?U17 in *. pose proof (Rabs_pos x).
  split; [|lra]. assert (0 <= u * Rabs x) by (apply Rmult_le_pos; lra). nra.
Qed.
Lemma lnG_near_1 s : 0 <= s <= 1 -> Rabs (lnG (1 + s)) <= s.
Proof.
  intros H. pose proof (lnG_upper 1 s ltac:(lra) H) as U. rewrite ln_1, lnG_1 in U.
  pose proof (lnG_upper (1 + s) (1 - s) ltac:(lra) ltac:(lra)) as L. replace (1 + s + (1 - s)) with (1 + 1) in L by ring.
  rewrite (lnG_S 1), ln_1, lnG_1 in L by lra. pose proof (ln_le_tangent 1 (1 + s) ltac:(lra) ltac:(lra)) as T. rewrite ln_1 in T.
  assert (0 <= ln (1 + s)) by (rewrite <- ln_1; destruct (Req_dec s 0) as [-> |N]; [rewrite Rplus_0_r; lra|left; apply ln_increasing; lra]).
  apply Rabs_le. split; [|lra]. replace ((1 + s) / 1 + 0 - 1) with s in T by field. nra.
Qed.

(** ** the model evaluates these expressions *)
Definition litv (p : Z * Z) : R := IZR (fst p) * powerRZ 10 (snd p).
Fixpoint polyL (x : R) (c : list (Z * Z)) : R := match c with [] => 0 | p :: c' => litv p + x * polyL x c' end.
Lemma horner_mul_Fin x c : horner_mul earith (Fin x) (map (litp elit) c) = Fin (polyL x c).
Proof.
  unfold horner_mul. rewrite <- fold_left_rev_right, rev_involutive. induction c as [|p c IH]; [reflexivity|].
  cbn [map fold_right]. rewrite IH. cbn [a_add a_mul earith emul eadd]. unfold litp, elit. cbn [eadd]. f_equal. cbn [polyL]. unfold litv. ring.
Qed.
Lemma horner_div_Fin x c : x <> 0 -> exists r, horner_div earith (Fin x) (map (litp elit) c) = Fin r /\ r * x ^ length c = x * polyL x c.
Proof.
  intros Hx. unfold horner_div.
  assert (G : forall v, exists r, fold_left (fun v ci => a_add earith (a_div earith v (Fin x)) ci) (map (litp elit) c) (Fin v) = Fin r /\ r * x ^ length c = v + x * polyL x c).
  { induction c as [|p c IH]; intros v; cbn [map fold_left length polyL pow].
    - exists v. split; [reflexivity|ring].
    - change (a_div earith (Fin v) (Fin x)) with (ediv (Fin v) (Fin x)). rewrite ediv_Fin by exact Hx.
      change (a_add earith (Fin (v / x)) (litp elit p)) with (Fin (v / x + litv p)).
      destruct (IH (v / x + litv p)) as (r & E & V). exists r. split; [exact E|].
      replace (r * (x * x ^ length c)) with (x * (r * x ^ length c)) by ring. rewrite V. field. exact Hx. }
  destruct (G 0) as (r & E & V). exists r. split; [exact E|]. rewrite V. ring.
Qed.
Lemma pow10_Z k : (0 <= k)%Z -> IZR (10 ^ k) = powerRZ 10 k.
Proof. intros H. rewrite <- (Z2Nat.id k) by exact H. rewrite <- pow_IZR. apply pow_powerRZ. Qed.
Lemma polyL_pev k c x : (0 <= k)%Z -> forallb (fun p => 0 <=? k + snd p)%Z c = true -> polyL x c = pev (map (fun p => fst p * 10 ^ (k + snd p))%Z c) x / IZR (10 ^ k).
Proof.
  intros Hk H. assert (P : 0 < IZR (10 ^ k)) by (apply IZR_lt, Z.pow_pos_nonneg; lia). induction c as [|p c IH]; cbn [polyL map pev]; [unfold Rdiv; ring|].
  cbn [forallb] in H. apply andb_prop in H. destruct H as [H1 H2]. apply Z.leb_le in H1. rewrite IH by exact H2.
  replace (litv p) with (IZR (fst p * 10 ^ (k + snd p)) / IZR (10 ^ k)); [field; lra|].
  unfold litv. rewrite mult_IZR. destruct p as [m e]. cbn [fst snd] in *. rewrite !pow10_Z by lia. rewrite powerRZ_add by lra. field. apply powerRZ_NOR. lra.
Qed.

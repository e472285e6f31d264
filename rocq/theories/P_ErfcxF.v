(** * P_ErfcxF: erfcx in IEEE double precision *)
From Coq Require Import ZArith Reals List Bool Lia Lra.
From Flocq Require Import Core BinarySingleNaN Sterbenz Mult_error.
From Verif Require Import CSem CSemP Num NumP NumF M_Log1p S_Log1p P_Log1p P_Log1pF M_Special S_Special P_SpecialF M_Erfcx S_Erf S_ErfF P_Erf P_ErfcxT P_ErfcxR P_Erfcx P_ErfcxD.
Import ListNotations.
Open Scope R_scope.

#[local] Instance p53 : Prec_gt_0 53 := eq_refl.
#[local] Instance v53 : Valid_exp fexp64 := FLT_exp_valid _ _.

Definition u : R := / 9007199254740992.
Lemma u_pow : pow2 (-53) = u. Proof. reflexivity. Qed.
Definition eta : R := pow2 (-1075).
Lemma eta_small : 0 < eta <= / 10 ^ 36.
Proof.
  split; [apply bpow_gt_0|]. apply Rle_trans with (pow2 (-120)); [apply bpow_le; lia|].
  change (pow2 (-120)) with (/ 1329227995784915872903807060280344576). lra.
Qed.
Lemma rerr x : Rabs (rn x - x) <= u * Rabs x + eta.
Proof. rewrite <- u_pow. apply rn_err_le. lra. Qed.
Lemma rep_tight k j f r : rep k f r -> Rabs r <= pow2 j -> rep j f r.
Proof. intros (A & B & _) C. now split. Qed.

Lemma nestR_abs t c : Rabs t <= 1 -> Rabs (nestR t c) <= sumR c.
Proof.
  intros Ht. induction c as [|p c IH]; cbn [nestR sumR fold_right]; [rewrite Rabs_R0; lra|].
  fold (nestR t c). fold (sumR c). eapply Rle_trans; [apply Rabs_triang|]. apply Rplus_le_compat; [unfold litR; lra|].
  rewrite Rabs_mult. pose proof (Rabs_pos (nestR t c)). pose proof (Rabs_pos t). nra.
Qed.
Lemma sumR_pos c : 0 <= sumR c.
Proof. induction c as [|p c IH]; cbn [sumR fold_right]; [lra|]. fold (sumR c). pose proof (Rabs_pos (litR p)). lra. Qed.
Lemma errR_sum c : 0 <= errR c <= 2 * INR (length c) * sumR c.
Proof.
  induction c as [|p c IH]; [cbn; lra|]. cbn [errR length]. rewrite S_INR. change (sumR (p :: c)) with (Rabs (litR p) + sumR c).
  pose proof (Rabs_pos (litR p)). pose proof (sumR_pos c). pose proof (pos_INR (length c)). nra.
Qed.
Definition slack : R := / 10 ^ 28.
Lemma nested_step L l n n' r' m v t s e : Rabs t <= 1 -> Rabs n' <= s -> 0 <= s -> Rabs L + s <= 1 -> 0 <= e <= / 10 ^ 13 ->
  Rabs (r' - n') <= e -> n = L + n' * t ->
  Rabs (l - L) <= u * Rabs L + eta -> Rabs (m - r' * t) <= u * Rabs (r' * t) + eta -> Rabs (v - (l + m)) <= u * Rabs (l + m) + eta ->
  Rabs (v - n) <= u * (2 * Rabs L + 2 * s) + e + slack.
Proof.
  intros Ht Hn Hs HL He Hr -> Hl Hm Hv. pose proof eta_small as [E0 E1]. unfold slack.
  assert (U : 0 < u <= / 10 ^ 15) by (unfold u; lra).
  assert (R1 : Rabs (r' * t) <= s + e).
  { rewrite Rabs_mult. assert (Rabs r' <= s + e). { replace r' with ((r' - n') + n') by ring. eapply Rle_trans; [apply Rabs_triang|]. lra. } pose proof (Rabs_pos r'). pose proof (Rabs_pos t). nra. }
  assert (R2 : Rabs (r' * t - n' * t) <= e).
  { rewrite <- Rmult_minus_distr_r, Rabs_mult. pose proof (Rabs_pos (r' - n')). pose proof (Rabs_pos t). nra. }
  assert (M1 : Rabs (m - r' * t) <= u * (s + e) + eta). { eapply Rle_trans; [exact Hm|]. apply Rplus_le_compat_r, Rmult_le_compat_l; lra. }
  assert (S1 : Rabs (l + m) <= Rabs L + s + (u * (Rabs L + s + e) + e + 2 * eta)).
  { replace (l + m) with ((l - L) + L + ((m - r' * t) + r' * t)) by ring.
    eapply Rle_trans; [apply Rabs_triang|]. eapply Rle_trans; [apply Rplus_le_compat; apply Rabs_triang|]. lra. }
  assert (V1 : Rabs (v - (l + m)) <= u * (Rabs L + s + (u * (Rabs L + s + e) + e + 2 * eta)) + eta). { eapply Rle_trans; [exact Hv|]. apply Rplus_le_compat_r, Rmult_le_compat_l; lra. }
  replace (v - (L + n' * t)) with ((v - (l + m)) + ((l - L) + ((m - r' * t) + (r' * t - n' * t)))) by ring.
  eapply Rle_trans; [apply Rabs_triang|]. eapply Rle_trans; [apply Rplus_le_compat_l, Rabs_triang|]. eapply Rle_trans; [apply Rplus_le_compat_l, Rplus_le_compat_l, Rabs_triang|].
  pose proof (Rabs_pos L). set (aL := Rabs L) in *. clearbody aL.
  assert (Q : u * (u * (aL + s + e) + e + 2 * eta) + u * e + 3 * eta <= / 10 ^ 28).
  { assert (u * (aL + s + e) <= u * 2) by (apply Rmult_le_compat_l; lra).
    assert (u * (u * (aL + s + e) + e + 2 * eta) <= u * (u * 2 + / 10 ^ 13 + 2 / 10 ^ 36)) by (apply Rmult_le_compat_l; lra).
    assert (u * e <= u * / 10 ^ 13) by (apply Rmult_le_compat_l; lra). unfold u in *. lra. }
  lra.
Qed.
Lemma u_small : 0 < u <= / 10 ^ 15. Proof. unfold u. lra. Qed.

Lemma nested_ieee t ft c : rep 0 ft t -> (length c <= 20)%nat -> sumR c <= 1 -> c <> [] ->
  exists r, rep 1 (nested f64_arith f64_lit ft c) r /\ Rabs (r - nestR t c) <= u * errR c + INR (length c) * slack.
Proof.
  intros Ht. assert (T1 : Rabs t <= 1) by (destruct Ht as (_ & _ & H); exact H). pose proof u_small as [U0 U1]. pose proof eta_small as [E0 E1].
  induction c as [|p c IH]; intros Hl Hs Hc; [congruence|].
  change (sumR (p :: c)) with (Rabs (litR p) + sumR c) in Hs. pose proof (sumR_pos c) as Sp. pose proof (Rabs_pos (litR p)) as Ap.
  assert (L : rep 0 (f64_lit (fst p) (snd p)) (rn (litR p))). { apply lit_rep; [lia|]. change (pow2 0) with 1. unfold litR in *. lra. }
  assert (Le : Rabs (rn (litR p) - litR p) <= u * Rabs (litR p) + eta) by apply rerr.
  cbn [length] in Hl |- *. rewrite S_INR. pose proof (pos_INR (length c)) as Np. assert (Sl : / 10 ^ 36 <= slack) by (unfold slack; lra).
  destruct c as [|p' c].
  - exists (rn (litR p)). split; [apply (rep_weaken 0); [lia|exact L]|]. cbn [nestR fold_right errR sumR]. fold (litR p).
    replace (litR p + 0 * t) with (litR p) by ring. cbn [length INR]. nra.
  - destruct (IH ltac:(lia) ltac:(lra) ltac:(discriminate)) as (r' & R1 & R2). clear IH.
    set (c' := p' :: c) in *. change (nested f64_arith f64_lit ft (p :: c')) with (a_add f64_arith (f64_lit (fst p) (snd p)) (a_mul f64_arith (nested f64_arith f64_lit ft c') ft)).
    pose proof (rep_mul 1 0 _ _ _ _ R1 Ht ltac:(lia)) as M. pose proof (rep_add 0 (1 + 0) _ _ _ _ L M ltac:(lia)) as V.
    set (v := rn (rn (litR p) + rn (r' * t))) in *.
    assert (Nb : 0 <= errR c' <= 40). { pose proof (errR_sum c') as [A1 A2]. assert (INR (length c') <= 19) by (replace 19 with (INR 19) by (cbn; lra); apply le_INR; lia). split; [exact A1|]. eapply Rle_trans; [exact A2|]. nra. }
    assert (Ln : INR (length c') <= 19) by (replace 19 with (INR 19) by (cbn; lra); apply le_INR; lia).
    assert (Eb : 0 <= u * errR c' + INR (length c') * slack <= / 10 ^ 13). { unfold slack. split; [apply Rplus_le_le_0_compat; apply Rmult_le_pos; lra|]. unfold u. lra. }
    assert (K : Rabs (v - nestR t (p :: c')) <= u * (2 * Rabs (litR p) + 2 * sumR c') + (u * errR c' + INR (length c') * slack) + slack).
    { apply (nested_step (litR p) (rn (litR p)) _ (nestR t c') r' (rn (r' * t)) v t (sumR c')); try assumption.
      - now apply nestR_abs.
      - reflexivity.
      - apply rerr.
      - apply rerr. }
    exists v. split.
    + apply (rep_tight _ _ _ _ V). change (pow2 1) with 2. pose proof (nestR_abs t (p :: c') T1) as NA. change (sumR (p :: c')) with (Rabs (litR p) + sumR c') in NA.
      replace v with ((v - nestR t (p :: c')) + nestR t (p :: c')) by ring. eapply Rle_trans; [apply Rabs_triang|].
      unfold slack in *. unfold u in *. lra.
    + eapply Rle_trans; [exact K|]. change (errR (p :: c')) with (2 * Rabs (litR p) + 2 * sumR c' + errR c'). lra.
Qed.

Lemma echecks_nth : forall cs qs j c q, echecks cs qs = true -> nth_error cs j = Some c -> nth_error qs j = Some q -> echeck c q = true.
Proof.
  induction cs as [|c0 cs IH]; intros [|q0 qs] [|j] c q H Hc Hq; try discriminate; cbn [echecks] in H; apply andb_prop in H; destruct H as [H1 H2].
  - injection Hc as <-. injection Hq as <-. exact H1.
  - apply (IH qs j c q H2 Hc Hq).
Qed.
Lemma cells_nonempty : forallb (fun c => match c with [] => false | _ => true end) erfcx_cells_d = true.
Proof. vm_compute. reflexivity. Qed.
Lemma err_witness c q i x : echeck c q = true -> nth_error wit i = Some q -> 0 <= x -> in_cell (3 + Z.of_nat i) x ->
  sumR c <= 1 /\ (length c <= 20)%nat /\ errR c <= 25 / 10 * (1 + 2 / 10 ^ 24) * erfcxR x.
Proof.
  intros C Hi Hx I. unfold echeck in C. repeat (apply andb_prop in C; destruct C as [C ?]).
  apply Nat.leb_le in H. apply Z.leb_le in H0, H1. apply IZR_le in H0, H1. rewrite (sum50 c C) in H0. rewrite !mult_IZR, (errR_50 c C) in H1.
  assert (E : IZR (10 ^ 50) = IZR (10 ^ 20) * IZR SW) by (rewrite <- mult_IZR; reflexivity).
  assert (D2 : 0 < IZR (10 ^ 20)) by (apply IZR_lt; reflexivity). pose proof SW_pos as HS.
  split; [|split; [exact H|]].
  { apply (Rmult_le_reg_l (IZR (10 ^ 50))); [apply IZR_lt; reflexivity|lra]. }
  assert (Kp : (3 <= 3 + Z.of_nat i)%Z) by lia. set (k := (3 + Z.of_nat i)%Z) in *.
  destruct (cell_y k x ltac:(lia) I) as [_ [Y1 Y2]].
  assert (IE : in_cell k (400 / IZR k - 4)). { unfold in_cell in *. lra. }
  pose proof (witness_acc i q _ Hi IE) as WE. fold k in WE. rewrite at_cell_end in WE by lia.
  assert (M : erfcxR (400 / IZR k - 4) <= erfcxR x). { apply erfcx_decr. destruct I. lra. }
  rewrite E in H1. set (s := IZR SW) in *. set (d := IZR (10 ^ 20)) in *. set (aq := IZR (atm1 q)) in *. set (er := errR c) in *.
  set (f := erfcxR x) in *. set (fe := erfcxR (400 / IZR k - 4)) in *. clearbody s d aq er f fe. clear - H1 D2 HS WE M.
  assert (A : er <= 25 / 10 * (aq / s)). { apply (Rmult_le_reg_l (d * s)); [nra|]. replace (d * s * (25 / 10 * (aq / s))) with (25 / 10 * (d * aq)) by (field; lra). lra. }
  apply Rabs_le_inv in WE. assert (aq / s <= (1 + 2 / 10 ^ 24) * fe) by lra. nra.
Qed.

Lemma erfcx_floor x : 0 <= x <= 54 -> 1 / 110 <= erfcxR x.
Proof.
  intros H. eapply Rle_trans; [|apply erfcx_lower; lra]. pose proof B_half as [B1 B2]. pose proof (sq2_sq x). pose proof (sq2_pos x). pose proof (sq2_x x) as [Q1 Q2].
  assert (sq2 x <= x + 15 / 10) by nra.
  apply (Rmult_le_reg_r (x + sq2 x)); [lra|]. unfold Rdiv at 2. rewrite Rmult_assoc, Rinv_l by lra. lra.
Qed.

Lemma y100_ieee fy y : rep 9 fy y -> 7 <= y <= 100 ->
  exists fr r, erfcx_y100 f64_arith f64_lit f64_toint erfcx_cells_d fy = ret fr /\ rep 1 fr r /\
    Rabs (r - erfcxR (400 / y - 4)) <= 266 / 100 * u * erfcxR (400 / y - 4).
Proof.
  intros Hy [Y1 Y2]. unfold erfcx_y100.
  assert (Tr : Ztrunc y = Zfloor y) by (apply Ztrunc_floor; lra).
  rewrite (toint_rep 9 fy y Hy), Tr by (apply in_int_R; rewrite Rabs_right; lra).
  pose proof (Zfloor_lb y) as F1. pose proof (Zfloor_ub y) as F2. pose proof (Zfloor_lub 7 _ Y1) as F3.
  set (k := Zfloor y) in *.
  assert (F4 : (k <= 100)%Z) by (apply le_IZR; lra).
  unfold bind, ret. replace (k <? 0)%Z with false by (symmetry; apply Z.ltb_ge; lia).
  pose proof cells_len as (_ & L & _).
  set (x := 400 / y - 4).
  assert (X0 : 0 <= x <= 54).
  { unfold x. split.
    - assert (4 <= 400 / y); [|lra]. apply (Rmult_le_reg_r y); [lra|]. unfold Rdiv. rewrite Rmult_assoc, Rinv_l by lra. lra.
    - assert (400 / y <= 58); [|lra]. apply (Rmult_le_reg_r y); [lra|]. unfold Rdiv. rewrite Rmult_assoc, Rinv_l by lra. lra. }
  pose proof (erfcxR_pos x) as Fp. pose proof (erfcx_floor x X0) as Ff. pose proof u_small as [U0 U1].
  destruct (Z.eq_dec k 100) as [E|E].
  - rewrite E. destruct (nth_error erfcx_cells_d (Z.to_nat 100)) eqn:En.
    { exfalso. assert (H : nth_error erfcx_cells_d (Z.to_nat 100) <> None) by congruence. apply nth_error_Some in H. rewrite L in H. change (Z.to_nat 100) with 100%nat in H. lia. }
    exists (a_ofZ f64_arith 1), 1. split; [reflexivity|]. split; [apply (rep_ofZ 1 1); lia|].
    assert (Yh : y = 100) by (rewrite E in F1; lra). replace x with 0 by (unfold x; rewrite Yh; lra). rewrite erfcxR_0.
    replace (1 - 1) with 0 by ring. rewrite Rabs_R0. lra.
  - destruct (nth_error erfcx_cells_d (Z.to_nat k)) as [c|] eqn:En.
    2:{ exfalso. apply nth_error_None in En. lia. }
    assert (Ne : c <> []). { pose proof cells_nonempty as Q. rewrite forallb_forall in Q. specialize (Q c (nth_error_In _ _ En)). destruct c; [discriminate|discriminate]. }
    assert (D2 : rn (2 * y) = 2 * y).
    { apply rn_id. rewrite Rmult_comm. change 2 with (pow2 1). apply mult_bpow_pos_exact_FLT; [|lia]. exact (rep_format _ _ _ Hy). }
    pose proof (rep_mul 2 9 _ _ _ _ (rep_ofZ 2 2 ltac:(lia) ltac:(lia)) Hy ltac:(lia)) as M. rewrite D2 in M.
    assert (Fd : format (2 * y)) by (rewrite <- D2; apply rn_format).
    pose proof (rep_ofZ (2 * k + 1) 9 ltac:(lia) ltac:(lia)) as O.
    pose proof (rep_sub _ _ _ _ _ _ M O ltac:(lia)) as T.
    assert (Ko : IZR (2 * k + 1) = 2 * IZR k + 1) by (rewrite plus_IZR, mult_IZR; ring).
    assert (K7 : 7 <= IZR k) by (apply IZR_le; lia).
    assert (Te : rn (2 * y - IZR (2 * k + 1)) = 2 * y - IZR (2 * k + 1)).
    { apply rn_id. apply sterbenz; [typeclasses eauto|apply FLT_exp_monotone|exact Fd|exact (rep_format _ _ _ O)|]. rewrite Ko. lra. }
    rewrite Te in T. apply (rep_tight _ 0) in T. 2:{ change (pow2 0) with 1. rewrite Ko. apply Rabs_le. lra. }
    set (t := 2 * y - IZR (2 * k + 1)) in *.
    replace (Z.to_nat k) with (7 + (Z.to_nat k - 7))%nat in En by lia. rewrite <- nth_skipn in En.
    destruct (tchecks_nth 166 19 _ _ _ _ double_checked En) as (q & Eq & Tc).
    pose proof (echecks_nth _ _ _ _ _ double_echecked En Eq) as Ec. rewrite nth_skipn in Eq.
    assert (Ek : k = (3 + Z.of_nat (4 + (Z.to_nat k - 7)))%Z) by lia.
    set (i := (4 + (Z.to_nat k - 7))%nat) in *.
    assert (E4 : 4 + x = 400 / y) by (unfold x; ring).
    assert (I : in_cell k x).
    { unfold in_cell. assert (400 / (IZR k + 1) <= 400 / y /\ 400 / y <= 400 / IZR k); [|lra]. split; apply Rmult_le_compat_l; try lra; apply Rinv_le_contravar; lra. }
    assert (Et : t = 800 / (4 + x) - (2 * IZR k + 1)). { unfold t. rewrite Ko, E4. field. lra. }
    rewrite Ek in I, Et. pose proof (cell_table 166 19 c q i x ltac:(lia) ltac:(lia) Tc Eq ltac:(lra) I) as CT. rewrite <- Et in CT.
    destruct (err_witness c q i x Ec Eq ltac:(lra) I) as (S1 & S2 & S3).
    destruct (nested_ieee t _ c T S2 S1 Ne) as (r & R1 & R2).
    exists (nested f64_arith f64_lit (a_sub f64_arith (a_mul f64_arith (a_ofZ f64_arith 2) fy) (a_ofZ f64_arith (2 * k + 1))) c), r.
    split; [reflexivity|]. split; [exact R1|].
    assert (Ln : INR (length c) <= 20) by (replace 20 with (INR 20) by (cbn; lra); apply le_INR; lia). pose proof (pos_INR (length c)).
    replace (r - erfcxR x) with ((r - nestR t c) + (nestR t c - erfcxR x)) by ring. eapply Rle_trans; [apply Rabs_triang|].
    assert (Se : u * errR c <= u * (25 / 10 * (1 + 2 / 10 ^ 24) * erfcxR x)) by (apply Rmult_le_compat_l; lra).
    assert (Sn : INR (length c) * slack <= 20 * slack) by (apply Rmult_le_compat_r; [unfold slack; lra|lra]).
    change (IZR (10 ^ 19)) with 10000000000000000000 in CT. unfold slack in *. unfold u in *. clear - R2 CT Se Sn Ff. lra.
Qed.

Lemma div_pos a b : 0 <= a -> 0 < b -> 0 <= a / b.
Proof. intros A B. apply Rmult_le_pos; [exact A|]. left. now apply Rinv_0_lt_compat. Qed.

(** the argument of the table *)
Lemma arg_ieee fa x : rep 7 fa (rn (4 + x)) -> 0 <= x <= 50 -> exists y, rep 9 (a_div f64_arith (a_ofZ f64_arith 400) fa) y /\ 7 <= y <= 100 /\
  Rabs (400 / y - 4 - x) <= 2001 / 1000 * u * (4 + x).
Proof.
  intros A [X0 X1]. pose proof u_small as [U0 U1]. pose proof eta_small as [N0 N1].
  set (a := rn (4 + x)) in *.
  assert (A1 : 4 <= a) by (rewrite <- (rn_IZR 4) by lia; apply rn_mono; lra).
  assert (A2 : a <= 54) by (rewrite <- (rn_IZR 54) by lia; apply rn_mono; lra).
  assert (Q : 7 <= 400 / a <= 100).
  { split; apply (Rmult_le_reg_r a); try lra; unfold Rdiv; rewrite Rmult_assoc, Rinv_l by lra; lra. }
  pose proof (rep_div 9 _ _ _ _ _ (rep_ofZ 400 9 ltac:(lia) ltac:(lia)) A ltac:(lra)) as D.
  specialize (D ltac:(rewrite Rabs_right by lra; change (pow2 9) with 512; lra) ltac:(lia)). set (y := rn (400 / a)) in *.
  assert (Y1 : 7 <= y) by (rewrite <- (rn_IZR 7) by lia; apply rn_mono; lra).
  assert (Y2 : y <= 100) by (rewrite <- (rn_IZR 100) by lia; apply rn_mono; lra).
  exists y. split; [exact D|]. split; [lra|].
  pose proof (rerr (4 + x)) as E1. fold a in E1. rewrite (Rabs_right (4 + x)) in E1 by lra.
  pose proof (rerr (400 / a)) as E2. fold y in E2. rewrite (Rabs_right (400 / a)) in E2 by lra.
  apply Rabs_le_inv in E1, E2.
  (* 400/y lies within (1 +- 1.0001 u) a *)
  assert (W : Rabs (400 / y - a) <= 10001 / 10000 * u * a).
  { assert (Ey : 400 / y - a = (400 / a - y) * (a / y)) by (field; lra). rewrite Ey, Rabs_mult, (Rabs_right (a / y)) by (apply Rle_ge, div_pos; lra).
    assert (P1 : Rabs (400 / a - y) <= 10001 / 10000 * u * y). { apply Rabs_le. unfold u in *. lra. }
    apply Rle_trans with (10001 / 10000 * u * y * (a / y)); [apply Rmult_le_compat_r; [apply div_pos; lra|exact P1]|]. right. field. lra. }
  apply Rabs_le_inv in W. apply Rabs_le. unfold u in *. lra.
Qed.

Lemma compose_err r f' f h : 0 < f -> Rabs (f' - f) <= 567 / 100 * h * f -> h = 2001 / 1000 * u -> Rabs (r - f') <= 266 / 100 * u * f' -> Rabs (r - f) <= 15 * u * f.
Proof.
  intros F A -> C. assert (U : 0 < u <= / 10 ^ 15) by apply u_small. apply Rabs_le_inv in A, C.
  assert (F' : f' <= (1 + / 10 ^ 10) * f).
  { assert (567 / 100 * (2001 / 1000 * u) * f <= / 10 ^ 10 * f) by (apply Rmult_le_compat_r; unfold u; lra). lra. }
  assert (266 / 100 * u * f' <= 266 / 100 * u * ((1 + / 10 ^ 10) * f)) by (apply Rmult_le_compat_l; lra).
  apply Rabs_le. unfold u in *. lra.
Qed.

Lemma erfcx_mid_ieee exp (x : f64) v : is_finite x = true -> 0 < B2R x <= 50 -> is_erfcx (B2R x) v ->
  exists r, erfcx_double f64_arith f64_lit f64_toint exp x = ret r /\ is_finite r = true /\ Rabs (B2R r - v) <= 15 * pow2 (-53) * v.
Proof.
  intros Fx [X0 X1] Hv. apply is_erfcx_eq in Hv. subst v. rewrite u_pow.
  assert (Rx : rep 6 x (B2R x)) by (apply rep_intro; [exact Fx|]; change (pow2 6) with 64; rewrite Rabs_right; lra).
  unfold erfcx_double, erfcx_of.
  rewrite !gtb_d, !d_ofZ, (d_fin x Fx) by lia.
  replace (gtb ecmp (Fin (B2R x)) (Fin 0)) with true by (unfold gtb, ecmp; now rewrite Rcompare_Gt).
  replace (gtb ecmp (Fin (B2R x)) (Fin 50)) with false by (unfold gtb, ecmp; destruct X1 as [X1|X1]; [now rewrite Rcompare_Lt|now rewrite Rcompare_Eq]).
  pose proof (rep_add 3 6 _ _ _ _ (rep_ofZ 4 3 ltac:(lia) ltac:(lia)) Rx ltac:(lia)) as A.
  destruct (arg_ieee _ _ A ltac:(lra)) as (y & D & Y & W).
  destruct (y100_ieee _ y D Y) as (fr & r & E1 & (E2 & E3 & _) & E4).
  exists fr. split; [exact E1|]. split; [exact E2|]. rewrite E3.
  apply (compose_err r (erfcxR (400 / y - 4)) (erfcxR (B2R x)) (2001 / 1000 * u)); [apply erfcxR_pos| |reflexivity|exact E4].
  apply erfcx_near; [lra| |exact W|unfold u; lra].
  assert (4 <= 400 / y); [|lra]. apply (Rmult_le_reg_r y); [lra|]. unfold Rdiv. rewrite Rmult_assoc, Rinv_l by lra. lra.
Qed.

(** ** large arguments: the continued fraction *)
Lemma rep_big (f : f64) r : f2e f64_prec f64_emax f = frnd f64_prec f64_emax r -> Rabs (rn r) < pow2 1024 -> rep 1024 f (rn r).
Proof.
  intros E H. unfold frnd in E. rewrite Rlt_bool_true in E by exact H. apply f2e_fin_finite in E. destruct E as [E1 E2].
  split; [exact E1|]. split; [exact E2|]. left. exact H.
Qed.
Lemma fin_max (x : f64) : is_finite x = true -> Rabs (B2R x) <= pow2 1024 - pow2 971.
Proof. intros H. exact (abs_B2R_le_emax_minus_prec f64_prec f64_emax f64_Hp x). Qed.
Lemma rn_near_format x d : format x -> Rabs (rn (x + d) - (x + d)) <= Rabs d.
Proof.
  intros F. pose proof (round_N_pt radix2 fexp64 (fun z => negb (Z.even z)) (x + d)) as [_ N]. specialize (N x F). 
  eapply Rle_trans; [exact N|]. right. replace (x - (x + d)) with (- d) by ring. apply Rabs_Ropp.
Qed.
Lemma add_big (x : f64) fd d : is_finite x = true -> rep 2 fd d -> rep 1024 (a_add f64_arith x fd) (rn (B2R x + d)).
Proof.
  intros Fx (D1 & <- & D3). apply rep_big; [now apply (f2e_plus _ _ f64_Hp f64_He)|].
  pose proof (fin_max x Fx) as M. pose proof (rn_near_format (B2R x) (B2R fd) (generic_format_B2R f64_prec f64_emax x)) as N.
  change (pow2 2) with 4 in D3. assert (B : 16 < pow2 971) by (change 16 with (pow2 4); apply bpow_lt; lia).
  set (a := B2R x) in *. set (b := B2R fd) in *. set (r := rn (a + b)) in *.
  replace r with ((r - (a + b)) + (a + b)) by ring. eapply Rle_lt_trans; [apply Rabs_triang|]. eapply Rle_lt_trans; [apply Rplus_le_compat_l, Rabs_triang|]. lra.
Qed.

Lemma cf_step_arith x s S a d s' : 50 < x -> x <= s -> x <= S -> 0 <= a <= 2 -> Rabs (s - S) <= 101 / 100 * u * S ->
  Rabs (d - a / s) <= u * (a / s) + eta -> Rabs (s' - (x + d)) <= u * Rabs (x + d) + eta -> Rabs (s' - (x + a / S)) <= 101 / 100 * u * (x + a / S).
Proof.
  intros Hx Hs HS Ha HsS Hd Hs'. pose proof eta_small as [N0 N1]. pose proof u_small as [U0 U1].
  assert (Q0 : 0 <= a / s <= 1 / 25). { split; [apply div_pos; lra|]. apply (Rmult_le_reg_r s); [lra|]. unfold Rdiv at 1. rewrite Rmult_assoc, Rinv_l by lra. lra. }
  assert (Q1 : 0 <= a / S <= 1 / 25). { split; [apply div_pos; lra|]. apply (Rmult_le_reg_r S); [lra|]. unfold Rdiv at 1. rewrite Rmult_assoc, Rinv_l by lra. lra. }
  assert (D1 : Rabs (a / s - a / S) <= 101 / 100 * u * (1 / 25)).
  { replace (a / s - a / S) with ((a / s) * ((S - s) / S)) by (field; lra). rewrite Rabs_mult, (Rabs_right (a / s)) by lra.
    rewrite Rmult_comm. apply Rmult_le_compat; [apply Rabs_pos|lra| |lra].
    unfold Rdiv. rewrite Rabs_mult, (Rabs_right (/ S)) by (apply Rle_ge; left; apply Rinv_0_lt_compat; lra). rewrite Rabs_minus_sym.
    apply (Rmult_le_reg_r S); [lra|]. rewrite Rmult_assoc, Rinv_l, Rmult_1_r by lra. exact HsS. }
  apply Rabs_le_inv in D1, Hd. 
  assert (P : 0 <= x + d). { unfold u in *. lra. }
  rewrite (Rabs_right (x + d)) in Hs' by lra. apply Rabs_le_inv in Hs'. set (A := a / S) in *. set (A' := a / s) in *. clearbody A A'. apply Rabs_le. unfold u in *. lra.
Qed.

Lemma cf_step (x : f64) fs s S fa a : is_finite x = true -> 50 < B2R x -> rep 1024 fs s -> B2R x <= s -> B2R x <= S -> rep 2 fa a -> 0 <= a <= 2 ->
  Rabs (s - S) <= 101 / 100 * u * S ->
  exists s', rep 1024 (a_add f64_arith x (a_div f64_arith fa fs)) s' /\ B2R x <= s' /\ B2R x <= B2R x + a / S /\ Rabs (s' - (B2R x + a / S)) <= 101 / 100 * u * (B2R x + a / S).
Proof.
  intros Fx Hx Rs Hs HS Ra Ha HsS.
  assert (Q0 : 0 <= a / s <= 1 / 25). { split; [apply div_pos; lra|]. apply (Rmult_le_reg_r s); [lra|]. unfold Rdiv at 1. rewrite Rmult_assoc, Rinv_l by lra. lra. }
  pose proof (rep_div 2 1024 _ _ _ _ Ra Rs ltac:(lra) ltac:(rewrite Rabs_right by lra; change (pow2 2) with 4; lra) ltac:(lia)) as D.
  pose proof (add_big x _ _ Fx D) as V. exists (rn (B2R x + rn (a / s))). split; [exact V|].
  assert (P : 0 <= rn (a / s)) by (rewrite <- rn_0; apply rn_mono; lra).
  split; [|split].
  - rewrite <- (rn_id (B2R x)) at 1 by apply (generic_format_B2R f64_prec f64_emax x). apply rn_mono. lra.
  - assert (0 <= a / S) by (apply div_pos; lra). lra.
  - apply (cf_step_arith _ s S a (rn (a / s))); try assumption.
    + pose proof (rerr (a / s)) as E. rewrite (Rabs_right (a / s)) in E by lra. exact E.
    + apply rerr.
Qed.
Lemma half_lit m : (0 <= m <= 15)%Z -> (m mod 5 = 0)%Z -> rep 2 (f64_lit m (-1)) (IZR (m / 5) / 2).
Proof.
  intros Hm H5. assert (E : IZR m * powerRZ 10 (-1) = IZR (m / 5) / 2).
  { rewrite (Z.div_mod m 5) at 1 by lia. rewrite H5, Z.add_0_r, mult_IZR. change (powerRZ 10 (-1)) with (/ (10 * 1)). field. }
  pose proof (Z.div_le_mono _ _ 5 ltac:(lia) (proj2 Hm)) as D1. change (15 / 5)%Z with 3%Z in D1. pose proof (Z.div_pos m 5 ltac:(lia) ltac:(lia)) as D0. apply IZR_le in D1, D0.
  replace (IZR (m / 5) / 2) with (rn (IZR m * powerRZ 10 (-1))).
  - apply lit_rep; [lia|]. rewrite E. change (pow2 2) with 4. rewrite Rabs_right; lra.
  - rewrite E. apply rn_id. apply (multiple_format (-1)); [lia|exists (m / 5)%Z; cbn; lra|]. rewrite Rabs_right by lra. apply Rle_trans with 4; [lra|]. change 4 with (pow2 2). apply bpow_le. lia.
Qed.

Lemma cf_final c c' s S r V v : 50 < S -> c = ispR -> Rabs (c' - c) <= u * c + eta -> Rabs (s - S) <= 101 / 100 * u * S -> 0 < s ->
  Rabs (r - c' / s) <= u * Rabs (c' / s) + eta -> V = c / S -> 0 < v -> Rabs (V - v) <= / 10 ^ 16 * v -> Rabs (r - v) <= 5 * u * v + eta.
Proof.
  intros HS -> Hc Hs Ps Hr -> Hv HV. pose proof u_small as [U0 U1]. pose proof eta_small as [N0 N1]. pose proof isp_near as I. pose proof B_half as HB. apply Rabs_le_inv in I.
  assert (C : 4 / 10 <= ispR <= 7 / 10) by lra. set (c := ispR) in *. clearbody c. clear I HB.
  assert (V0 : 0 < c / S) by (apply Rdiv_lt_0_compat; lra).
  assert (W : Rabs (c' / s - c / S) <= (202 / 100 * u) * (c / S)).
  { replace (c' / s - c / S) with (((c' - c) * S - c * (s - S)) / (s * S)) by (field; lra).
    unfold Rdiv at 1. rewrite Rabs_mult, (Rabs_right (/ (s * S))) by (apply Rle_ge; left; apply Rinv_0_lt_compat; nra).
    apply (Rmult_le_reg_r (s * S)); [nra|]. rewrite Rmult_assoc, Rinv_l, Rmult_1_r by nra.
    replace (202 / 100 * u * (c / S) * (s * S)) with (202 / 100 * u * (c * s)) by (field; lra).
    assert (T1 : Rabs ((c' - c) * S) <= (u * c + eta) * S) by (rewrite Rabs_mult, (Rabs_right S) by lra; apply Rmult_le_compat_r; lra).
    assert (T2 : Rabs (c * (s - S)) <= c * (101 / 100 * u * S)) by (rewrite Rabs_mult, (Rabs_right c) by lra; apply Rmult_le_compat_l; lra).
    eapply Rle_trans; [apply Rabs_triang|]. rewrite Rabs_Ropp. apply Rabs_le_inv in Hs.
    assert (Nc : eta <= / 10 ^ 4 * u * c). { apply Rle_trans with (/ 10 ^ 4 * u * (4 / 10)); [unfold u; lra|]. apply Rmult_le_compat_l; [unfold u; lra|lra]. }
    assert (T3 : (u * c + eta) * S <= (1 + / 10 ^ 4) * (u * c) * S) by (apply Rmult_le_compat_r; lra).
    assert (T4 : (1 - / 10 ^ 10) * S <= s). { assert (101 / 100 * u * S <= / 10 ^ 10 * S) by (apply Rmult_le_compat_r; unfold u; lra). lra. }
    assert (T5 : u * c * ((1 - / 10 ^ 10) * S) <= u * c * s) by (apply Rmult_le_compat_l; [nra|exact T4]).
    assert (0 < u * c * S) by (repeat apply Rmult_lt_0_compat; lra). lra. }
  set (q := c' / s) in *. set (V := c / S) in *. clearbody q V. apply Rabs_le_inv in W, HV.
  assert (Rabs q <= (1 + / 10 ^ 10) * V). { assert (202 / 100 * u * V <= / 10 ^ 10 * V) by (apply Rmult_le_compat_r; unfold u; lra). apply Rabs_le. lra. }
  assert (u * Rabs q <= u * ((1 + / 10 ^ 10) * V)) by (apply Rmult_le_compat_l; lra).
  assert (Vv : V <= (1 + / 10 ^ 16) * v) by lra.
  assert (u * V <= u * ((1 + / 10 ^ 16) * v)) by (apply Rmult_le_compat_l; lra).
  apply Rabs_le_inv in Hr. apply Rabs_le. clear - H0 H1 Hr W HV Hv N0. unfold u in *. lra.
Qed.

Lemma erfcx_large_ieee exp (x : f64) v : is_finite x = true -> 50 < B2R x -> is_erfcx (B2R x) v ->
  exists r, erfcx_double f64_arith f64_lit f64_toint exp x = ret r /\ is_finite r = true /\ Rabs (B2R r - v) <= 5 * pow2 (-53) * v + pow2 (-1075).
Proof.
  intros Fx X0 Hv. apply is_erfcx_eq in Hv. subst v. rewrite u_pow. fold eta.
  unfold erfcx_double, erfcx_of. rewrite !gtb_d, !d_ofZ, (d_fin x Fx) by lia.
  replace (gtb ecmp (Fin (B2R x)) (Fin 0)) with true by (unfold gtb, ecmp; rewrite Rcompare_Gt by lra; reflexivity).
  replace (gtb ecmp (Fin (B2R x)) (Fin 50)) with true by (unfold gtb, ecmp; now rewrite Rcompare_Gt).
  set (X := B2R x) in *. pose proof u_small as [U0 U1]. pose proof eta_small as [N0 N1].
  assert (R0 : rep 1024 x X) by (apply fin_rep; exact Fx).
  destruct (cf_step x x X X _ 2 Fx X0 R0 (Rle_refl X) (Rle_refl X) (rep_ofZ 2 2 ltac:(lia) ltac:(lia)) ltac:(lra)) as (s1 & R1 & A1 & B1 & C1).
  { replace (X - X) with 0 by ring. rewrite Rabs_R0. apply Rmult_le_pos; lra. }
  pose proof (half_lit 15 ltac:(lia) eq_refl) as H15. change (IZR (15 / 5) / 2) with (3 / 2) in H15.
  destruct (cf_step x _ s1 _ _ (3 / 2) Fx X0 R1 A1 B1 H15 ltac:(lra) C1) as (s2 & R2 & A2 & B2 & C2).
  destruct (cf_step x _ s2 _ _ 1 Fx X0 R2 A2 B2 (rep_ofZ 1 2 ltac:(lia) ltac:(lia)) ltac:(lra) C2) as (s3 & R3 & A3 & B3 & C3).
  pose proof (half_lit 5 ltac:(lia) eq_refl) as H5. change (IZR (5 / 5) / 2) with (1 / 2) in H5.
  destruct (cf_step x _ s3 _ _ (1 / 2) Fx X0 R3 A3 B3 H5 ltac:(lra) C3) as (s4 & R4 & A4 & B4 & C4).
  unfold X in *. clear X. set (X := B2R x) in *.
  pose proof isp_near as I. pose proof B_half as HB. apply Rabs_le_inv in I.
  assert (Lc : rep 0 (f64_lit 5641895835477562869480794515607725858 (-37)) (rn ispR)). { apply lit_rep; [lia|]. change (Rabs ispR <= 1). rewrite Rabs_right; lra. }
  assert (C0 : 0 <= rn ispR <= 1). { destruct Lc as (_ & _ & L). change (pow2 0) with 1 in L. apply Rabs_le_inv in L. split; [|lra]. rewrite <- rn_0. apply rn_mono. lra. }
  pose proof (rep_div 0 1024 _ _ _ _ Lc R4 ltac:(lra)) as Q.
  assert (Qb : Rabs (rn ispR / s4) <= pow2 0).
  { change (pow2 0) with 1. rewrite Rabs_right by (apply Rle_ge, div_pos; lra). apply (Rmult_le_reg_r s4); [lra|]. unfold Rdiv. rewrite Rmult_assoc, Rinv_l by lra. lra. }
  specialize (Q Qb ltac:(lia)). destruct Q as (Q1 & Q2 & _).
  exists (erfcx_cf f64_arith f64_lit x). split; [reflexivity|]. unfold erfcx_cf. split; [exact Q1|]. rewrite Q2.
  set (S4 := X + 1 / 2 / (X + 1 / (X + 3 / 2 / (X + 2 / X)))) in *.
  apply (cf_final ispR (rn ispR) s4 S4 _ (ispR * (N4 X / D4 X))).
  - lra.
  - reflexivity.
  - pose proof (rerr ispR) as E. rewrite (Rabs_right ispR) in E by lra. exact E.
  - exact C4.
  - lra.
  - apply rerr.
  - assert (0 < X) by lra. pose proof (D4_pos X H). unfold S4, N4, D4 in *. clear - H H0. field. repeat split; nra.
  - apply erfcxR_pos.
  - apply (cf_accurate 50); [lra|lra|]. unfold D4. lra.
Qed.

(** ** arguments that are not positive *)
Lemma low_ieee : exists l, rep 5 (f64_lit (-26628735713751485) (-15)) l /\ - (7495322764862413 / 281474976710656) <= l <= -26.
Proof.
  assert (E : IZR (-26628735713751485) * powerRZ 10 (-15) = - (26628735713751485 / 10 ^ 15)). { change (powerRZ 10 (-15)) with (/ (10 ^ 15)). field. }
  exists (rn (IZR (-26628735713751485) * powerRZ 10 (-15))). split; [apply lit_rep; [lia|]; rewrite E; change (pow2 5) with 32; rewrite Rabs_left by lra; lra|].
  rewrite E. split.
  - rewrite <- (rn_id (- (7495322764862413 / 281474976710656))); [apply rn_mono; lra|].
    apply (multiple_format (-48)); [lia|exists (-7495322764862413)%Z; change (pow2 (-48)) with (/ 281474976710656); lra|].
    rewrite Rabs_left by lra. apply Rle_trans with 32; [lra|]. change 32 with (pow2 5). apply bpow_le. lia.
  - rewrite <- (rn_IZR (-26)) by lia. apply rn_mono. lra.
Qed.
Definition Zmax : R := 6237217781087071 / 8796093022208.
Lemma square_max x : - (7495322764862413 / 281474976710656) <= x <= 0 -> 0 <= rn (x * x) <= Zmax.
Proof.
  intros H. assert (0 <= x * x) by nra. split; [rewrite <- rn_0; now apply rn_mono|].
  rewrite <- (rn_id Zmax).
  - apply rn_mono. apply Rle_trans with (7495322764862413 / 281474976710656 * (7495322764862413 / 281474976710656)); [nra|unfold Zmax; lra].
  - apply (multiple_format (-43)); [lia|exists 6237217781087071%Z; change (pow2 (-43)) with (/ 8796093022208); unfold Zmax; lra|].
    unfold Zmax. rewrite Rabs_right by lra. apply Rle_trans with 1024; [lra|]. change 1024 with (pow2 10). apply bpow_le. lia.
Qed.
Lemma exp_max z : z <= Zmax -> exp z * (1 + / 10 ^ 13) <= pow2 1023.
Proof.
  intros H. rewrite <- (exp_ln (pow2 1023)) by apply bpow_gt_0.
  assert (E : ln (pow2 1023) = 1023 * ln 2). { rewrite bpow_exp, ln_exp. reflexivity. }
  rewrite E. pose proof ln2_lower as L.
  apply Rle_trans with (exp z * exp (19 / 10 ^ 14)).
  - apply Rmult_le_compat_l; [left; apply exp_pos|]. eapply Rle_trans; [|apply exp_ineq1_le]. lra.
  - rewrite <- exp_plus. apply exp_le. unfold Zmax in H. lra.
Qed.

Lemma exp_shift d : Rabs d <= / 10 ^ 12 -> Rabs (exp d - 1) <= (1 + / 10 ^ 11) * Rabs d.
Proof.
  intros H. pose proof (exp_ineq1_le d) as L. pose proof (exp_ineq1_le (- d)) as M. rewrite exp_Ropp in M. pose proof (exp_pos d) as P.
  pose proof (Rabs_le_inv _ _ H) as Hd. assert (Q : exp d * (1 - d) <= 1). { apply (Rmult_le_reg_r (/ exp d)); [now apply Rinv_0_lt_compat|]. replace (exp d * (1 - d) * / exp d) with (1 - d) by (field; lra). lra. }
  assert (U : exp d - 1 <= d + 2 * (d * d)).
  { set (e := exp d) in *. clearbody e. apply (Rmult_le_reg_r (1 - d)); [lra|]. replace ((d + 2 * (d * d)) * (1 - d)) with (d + (d * d) * (1 - 2 * d)) by ring.
    assert (0 <= d * d) by nra. assert (0 <= (d * d) * (1 - 2 * d)) by (apply Rmult_le_pos; lra). lra. }
  assert (S : 2 * (d * d) <= / 10 ^ 11 * Rabs d).
  { replace (d * d) with (Rabs d * Rabs d) by (rewrite <- Rabs_mult, Rabs_right; [reflexivity|nra]). pose proof (Rabs_pos d). nra. }
  destruct (Rle_lt_dec 0 d) as [C|C].
  - rewrite (Rabs_right d) in * by lra. apply Rabs_le. lra.
  - rewrite (Rabs_left d) in * by lra. apply Rabs_le. lra.
Qed.

Lemma neg_arith X2 z T Ez E f f2 r : 0 <= X2 <= 710 -> Rabs (z - X2) <= u * X2 + eta -> T = exp X2 -> Ez = exp z -> Rabs (E - Ez) <= 2 * u * Ez ->
  0 < f <= 1 -> Rabs (f2 - f) <= 15 * u * f -> Rabs (r - (2 * E - f2)) <= u * Rabs (2 * E - f2) + eta ->
  Rabs (r - (2 * T - f)) <= (2 * X2 + 21) * u * (2 * T - f) /\ 1 / 2 < E.
Proof.
  intros HX Hz HT HE HEz Hf Hf2 Hr. pose proof u_small as [U0 U1]. pose proof eta_small as [N0 N1].
  assert (Xu : 0 <= u * X2 <= u * 710) by (split; [apply Rmult_le_pos; lra|apply Rmult_le_compat_l; lra]).
  assert (T1 : 1 <= T). { rewrite HT. pose proof (exp_ineq1_le X2). lra. }
  assert (D : Rabs (z - X2) <= / 10 ^ 12). { eapply Rle_trans; [exact Hz|]. unfold u in *. lra. }
  pose proof (exp_shift _ D) as S. assert (EE : Ez = T * exp (z - X2)) by (rewrite HT, HE, <- exp_plus; f_equal; ring).
  set (d := exp (z - X2)) in *. clearbody d.
  assert (S2 : Rabs (d - 1) <= u * X2 + / 10000 * u). { eapply Rle_trans; [exact S|]. apply Rle_trans with ((1 + / 10 ^ 11) * (u * X2 + eta)); [apply Rmult_le_compat_l; lra|]. unfold u in *. lra. }
  assert (S3 : Rabs (E - T) <= (u * X2 + 2001 / 1000 * u) * T).
  { replace (E - T) with ((E - Ez) + T * (d - 1)) by (rewrite EE; ring). eapply Rle_trans; [apply Rabs_triang|]. rewrite Rabs_mult, (Rabs_right T) by lra.
    assert (T * Rabs (d - 1) <= T * (u * X2 + / 10000 * u)) by (apply Rmult_le_compat_l; lra).
    assert (Ez <= (1 + / 10 ^ 11) * T). { rewrite EE. apply Rabs_le_inv in S2. rewrite (Rmult_comm T). apply Rmult_le_compat_r; [lra|]. unfold u in *. lra. }
    assert (2 * u * Ez <= 2 * u * ((1 + / 10 ^ 11) * T)) by (apply Rmult_le_compat_l; lra).
    assert (0 < u * T) by nra. lra. }
  clear HT HE HEz S S2 EE Hz D. set (v := 2 * T - f). assert (V1 : T <= v) by (unfold v; lra). assert (V2 : f <= v) by lra.
  assert (A : 2 * Rabs (E - T) <= (2 * X2 * u + 4002 / 1000 * u) * v).
  { assert ((u * X2 + 2001 / 1000 * u) * T <= (u * X2 + 2001 / 1000 * u) * v) by (apply Rmult_le_compat_l; lra). lra. }
  assert (A2 : Rabs (f2 - f) <= 15 * u * v) by (eapply Rle_trans; [exact Hf2|]; apply Rmult_le_compat_l; lra).
  assert (A3 : Rabs (2 * E - f2 - v) <= 2 * Rabs (E - T) + Rabs (f2 - f)).
  { unfold v. replace (2 * E - f2 - (2 * T - f)) with (2 * (E - T) + - (f2 - f)) by ring. eapply Rle_trans; [apply Rabs_triang|]. rewrite Rabs_Ropp, Rabs_mult, (Rabs_right 2) by lra. lra. }
  assert (A4 : Rabs (2 * E - f2 - v) <= / 10 ^ 11 * v).
  { eapply Rle_trans; [exact A3|]. eapply Rle_trans; [apply Rplus_le_compat; [exact A|exact A2]|]. rewrite <- Rmult_plus_distr_r. apply Rmult_le_compat_r; [lra|]. unfold u in *. lra. }
  assert (A5 : Rabs (2 * E - f2) <= (1 + / 10 ^ 11) * v). { replace (2 * E - f2) with ((2 * E - f2 - v) + v) by ring. eapply Rle_trans; [apply Rabs_triang|]. rewrite (Rabs_right v) by lra. lra. }
  assert (A6 : u * Rabs (2 * E - f2) <= u * ((1 + / 10 ^ 11) * v)) by (apply Rmult_le_compat_l; lra).
  assert (Nv : eta <= / 1000 * u * v). { apply Rle_trans with (/ 1000 * u * 1); [unfold u; lra|]. apply Rmult_le_compat_l; [unfold u; lra|lra]. }
  split.
  - replace (r - v) with ((r - (2 * E - f2)) + (2 * E - f2 - v)) by ring. eapply Rle_trans; [apply Rabs_triang|].
    assert (0 < u * v) by nra. lra.
  - apply Rabs_le_inv in S3. assert ((u * X2 + 2001 / 1000 * u) * T <= / 10 * T) by (apply Rmult_le_compat_r; [lra|]; unfold u in *; lra). lra.
Qed.

Lemma erfcx_neg_ieee E (x : f64) v : good_exp E -> is_finite x = true -> B2R x <= 0 -> ltb (a_cmp f64_arith) x (f64_lit (-26628735713751485) (-15)) = false -> is_erfcx (B2R x) v ->
  exists r, erfcx_double f64_arith f64_lit f64_toint E x = ret r /\ is_finite r = true /\ Rabs (B2R r - v) <= (2 * (B2R x * B2R x) + 21) * pow2 (-53) * v.
Proof.
  intros GE Fx X0 Hl Hv. apply is_erfcx_eq in Hv. subst v. rewrite u_pow.
  destruct low_ieee as (l & Rl & Ll1 & Ll2).
  assert (Xl : l <= B2R x).
  { destruct (Rle_lt_dec l (B2R x)) as [C|C]; [exact C|]. exfalso. apply (proj2 (rep_ltb _ _ _ _ _ _ (fin_rep x Fx) Rl)) in C. congruence. }
  set (X := B2R x) in *. assert (XL : - (7495322764862413 / 281474976710656) <= X) by lra.
  assert (Rx : rep 5 x X) by (apply rep_intro; [exact Fx|]; change (pow2 5) with 32; fold X; rewrite Rabs_left1; lra).
  unfold erfcx_double, erfcx_of. rewrite Hl. rewrite gtb_d, d_ofZ, (d_fin x Fx) by lia. fold X.
  replace (gtb ecmp (Fin X) (Fin 0)) with false by (unfold gtb, ecmp; destruct X0 as [X0|X0]; [now rewrite Rcompare_Lt|now rewrite Rcompare_Eq]).
  pose proof (rep_sub 3 5 _ _ _ _ (rep_ofZ 4 3 ltac:(lia) ltac:(lia)) Rx ltac:(lia)) as A. replace (4 - X) with (4 + - X) in A by ring. apply (rep_weaken _ 7) in A; [|lia].
  destruct (arg_ieee _ (- X) A ltac:(lra)) as (y & D & Y & W).
  destruct (y100_ieee _ y D Y) as (ff & f2 & E1 & F2 & E4). rewrite E1. unfold bind, ret.
  set (f := erfcxR (- X)). assert (Ff : 0 < f <= 1). { split; [apply erfcxR_pos|]. rewrite <- erfcxR_0. apply erfcx_decr. lra. }
  assert (F3 : Rabs (f2 - f) <= 15 * u * f).
  { apply (compose_err f2 (erfcxR (400 / y - 4)) f (2001 / 1000 * u)); [apply erfcxR_pos| |reflexivity|exact E4].
    apply erfcx_near; [lra| |exact W|unfold u; lra].
    assert (4 <= 400 / y); [|lra]. apply (Rmult_le_reg_r y); [lra|]. unfold Rdiv. rewrite Rmult_assoc, Rinv_l by lra. lra. }
  pose proof (rep_mul 5 5 _ _ _ _ Rx Rx ltac:(lia)) as S. set (z := rn (X * X)) in *.
  pose proof (square_max X ltac:(lra)) as [Z0 Z1]. fold z in Z0, Z1. pose proof (exp_max z Z1) as Em. pose proof (exp_pos z) as Ep.
  assert (Em2 : exp z <= pow2 1023) by nra.
  destruct S as (S1 & S2 & _). destruct (GE _ S1 ltac:(rewrite S2; exact Z0) ltac:(rewrite S2; exact Em2)) as [G1 G2]. rewrite S2 in G2.
  change (bpow radix2 (-52)) with (/ 4503599627370496) in G2. set (fe := E (a_mul f64_arith x x)) in *. set (e := B2R fe) in *.
  assert (X2 : 0 <= X * X <= 710). { split; nra. }
  assert (G3 : Rabs (e - exp z) <= 2 * u * exp z) by (unfold u; lra).
  assert (Hz : Rabs (z - X * X) <= u * (X * X) + eta). { pose proof (rerr (X * X)) as Q. rewrite (Rabs_right (X * X)) in Q by lra. exact Q. }
  destruct (neg_arith (X * X) z _ _ e f f2 (rn (2 * e - f2)) X2 Hz eq_refl eq_refl G3 Ff F3 (rerr _)) as [K1 K2].
  assert (Emax : 2 * e < pow2 1024).
  { change 1024%Z with (1023 + 1)%Z. rewrite pow2_double. apply Rabs_le_inv in G3. assert (2 * u * exp z < exp z * / 10 ^ 13) by (unfold u; lra). lra. }
  assert (De : rn (2 * e) = 2 * e).
  { apply rn_id. rewrite Rmult_comm. change 2 with (pow2 1). apply mult_bpow_pos_exact_FLT; [|lia]. apply (generic_format_B2R f64_prec f64_emax fe). }
  assert (M : rep 1024 (a_mul f64_arith (a_ofZ f64_arith 2) fe) (2 * e)).
  { destruct (rep_ofZ 2 2 ltac:(lia) ltac:(lia)) as (O1 & O2 & _). rewrite <- De. apply rep_big.
    - rewrite <- O2. now apply (f2e_mult _ _ f64_Hp f64_He).
    - rewrite De, Rabs_right by lra. exact Emax. }
  destruct M as (M1 & M2 & _). destruct F2 as (F21 & F22 & _).
  assert (Fb : 0 <= f2 <= 2 * e).
  { apply Rabs_le_inv in F3. pose proof u_small. split; [|].
    - assert (15 * u * f <= 1 * f) by (apply Rmult_le_compat_r; lra). lra.
    - apply Rabs_le_inv in G3. assert (2 * u * exp z <= / 10 * exp z) by (apply Rmult_le_compat_r; lra). pose proof (exp_ineq1_le z). assert (15 * u * f <= / 10 * 1) by nra. lra. }
  assert (R : rep 1024 (a_sub f64_arith (a_mul f64_arith (a_ofZ f64_arith 2) fe) ff) (rn (2 * e - f2))).
  { apply rep_big.
    - rewrite <- M2, <- F22. now apply (f2e_minus _ _ f64_Hp f64_He).
    - rewrite Rabs_right. 2:{ apply Rle_ge. rewrite <- rn_0. apply rn_mono. lra. }
      eapply Rle_lt_trans; [|exact Emax]. rewrite <- De at 2. apply rn_mono. lra. }
  destruct R as (R1 & R2 & _). eexists. split; [reflexivity|]. split; [exact R1|]. rewrite R2.
  replace (erfcxR X) with (2 * exp (X * X) - f); [exact K1|].
  unfold f. replace (erfcxR X) with (erfcxR (- - X)) by (f_equal; ring). rewrite (erfcxR_reflect (- X)). replace (- X * - X) with (X * X) by ring. reflexivity.
Qed.

Lemma erfcx_edges_ieee E (x : f64) :
  (ltb (a_cmp f64_arith) x (f64_lit (-26628735713751485) (-15)) = true -> erfcx_double f64_arith f64_lit f64_toint E x = ret (B754_infinity false)) /\
  erfcx_double f64_arith f64_lit f64_toint E (B754_infinity false) = ret (B754_zero false) /\
  erfcx_double f64_arith f64_lit f64_toint E (B754_infinity true) = ret (B754_infinity false) /\
  erfcx_double f64_arith f64_lit f64_toint E B754_nan = ub.
Proof.
  destruct low_ieee as (l & Rl & Ll1 & Ll2).
  assert (N : forall x, ltb (a_cmp f64_arith) x (f64_lit (-26628735713751485) (-15)) = true -> erfcx_double f64_arith f64_lit f64_toint E x = ret (B754_infinity false)).
  { clear x. intros x H. unfold erfcx_double, erfcx_of. rewrite H.
    replace (gtb (a_cmp f64_arith) x (a_ofZ f64_arith 0)) with false; [reflexivity|]. symmetry. rewrite gtb_d, d_ofZ by lia.
    rewrite ltb_d, (d_fin (f64_lit _ _)) in H by apply Rl. replace (B2R (f64_lit (-26628735713751485) (-15))) with l in H by (symmetry; apply Rl).
    destruct (f2e f64_prec f64_emax x) as [a| | |]; try discriminate; [|reflexivity]. unfold ltb, gtb, ecmp in *.
    destruct (Rcompare_spec a l); try discriminate. rewrite Rcompare_Lt by lra. reflexivity. }
  split; [apply N|]. split; [|split].
  - unfold erfcx_double, erfcx_of. change (gtb (a_cmp f64_arith) (B754_infinity false) (a_ofZ f64_arith 0)) with true. change (gtb (a_cmp f64_arith) (B754_infinity false) (a_ofZ f64_arith 50)) with true.
    unfold erfcx_cf. change (a_div f64_arith (a_ofZ f64_arith 2) (B754_infinity false)) with (B754_zero false : f64).
    change (a_add f64_arith (B754_infinity false) (B754_zero false)) with (B754_infinity false : f64).
    assert (P : forall f k r, rep k f r -> 0 < r -> a_div f64_arith f (B754_infinity false) = B754_zero false).
    { intros f k r (F1 & F2 & _) F3. destruct f as [s|s| |s m e He]; try discriminate; [cbn in F2; lra|]. destruct s; [|reflexivity].
      exfalso. rewrite <- F2 in F3. change (0 < F2R (Float radix2 (Zneg m) e)) in F3. assert (F2R (Float radix2 (Zneg m) e) < 0) by (apply F2R_lt_0; reflexivity). lra. }
    pose proof (half_lit 15 ltac:(lia) eq_refl) as H15. rewrite (P _ _ _ H15) by (change (15 / 5)%Z with 3%Z; lra).
    change (a_add f64_arith (B754_infinity false) (B754_zero false)) with (B754_infinity false : f64).
    change (a_div f64_arith (a_ofZ f64_arith 1) (B754_infinity false)) with (B754_zero false : f64).
    change (a_add f64_arith (B754_infinity false) (B754_zero false)) with (B754_infinity false : f64).
    pose proof (half_lit 5 ltac:(lia) eq_refl) as H5. rewrite (P _ _ _ H5) by (change (5 / 5)%Z with 1%Z; lra).
    change (a_add f64_arith (B754_infinity false) (B754_zero false)) with (B754_infinity false : f64).
    pose proof isp_near as I. pose proof B_half as HB. apply Rabs_le_inv in I.
    assert (Lc : rep 0 (f64_lit 5641895835477562869480794515607725858 (-37)) (rn ispR)). { apply lit_rep; [lia|]. change (Rabs ispR <= 1). rewrite Rabs_right; lra. }
    rewrite (P _ _ _ Lc); [reflexivity|]. pose proof (rerr ispR) as Er. rewrite (Rabs_right ispR) in Er by lra. apply Rabs_le_inv in Er. pose proof eta_small. unfold u in *. lra.
  - apply N. rewrite ltb_d, (d_fin (f64_lit _ _)) by apply Rl. reflexivity.
  - unfold erfcx_double, erfcx_of. replace (ltb (a_cmp f64_arith) B754_nan (f64_lit (-26628735713751485) (-15))) with false; [reflexivity|].
    symmetry. rewrite ltb_d, (d_fin (f64_lit _ _)) by apply Rl. reflexivity.
Qed.
Lemma erfcx_defined_ieee E (x : f64) : is_nan x = false -> good_exp E -> erfcx_double f64_arith f64_lit f64_toint E x <> ub.
Proof.
  intros Hn GE. destruct (is_finite x) eqn:Fx.
  - destruct (Rle_lt_dec (B2R x) 0) as [C|C].
    + destruct (ltb (a_cmp f64_arith) x (f64_lit (-26628735713751485) (-15))) eqn:L.
      * rewrite (proj1 (erfcx_edges_ieee E x) L). discriminate.
      * destruct (erfcx_neg_ieee E x (erfcxR (B2R x)) GE Fx C L) as (r & -> & _); [now apply is_erfcx_eq|discriminate].
    + destruct (Rle_lt_dec (B2R x) 50) as [C'|C'].
      * destruct (erfcx_mid_ieee E x (erfcxR (B2R x)) Fx (conj C C')) as (r & -> & _); [now apply is_erfcx_eq|discriminate].
      * destruct (erfcx_large_ieee E x (erfcxR (B2R x)) Fx C') as (r & -> & _); [now apply is_erfcx_eq|discriminate].
  - destruct (erfcx_edges_ieee E x) as (_ & A & B & _). destruct x as [s|s| |s m e He]; try discriminate. destruct s; [rewrite B|rewrite A]; discriminate.
Qed.

Lemma good_exp_exists : good_exp (fun z => f64_of_R (exp (B2R z))).
Proof.
  intros z Fz Hz He. set (r := exp (B2R z)) in *. assert (R1 : 1 <= r). { unfold r. pose proof (exp_ineq1_le (B2R z)). lra. }
  assert (B : Rabs (rn r) < pow2 1024).
  { apply Rle_lt_trans with (pow2 1023); [|apply bpow_lt; lia]. apply rn_abs_le; [lia|]. rewrite Rabs_right by lra. exact He. }
  assert (P : rep 1024 (f64_of_R r) (rn r)).
  { unfold f64_of_R. set (x := round _ _ _ r). change x with (rn r) in *. clearbody x.
    set (m := Ztrunc _). set (e := cexp _ _ _).
    assert (E : IZR m * pow2 e = rn r). { symmetry. exact (rn_format r). }
    rewrite <- (rn_id (rn r) (rn_format r)). apply rep_big; [|rewrite (rn_id (rn r) (rn_format r)); exact B].
    rewrite (f2e_normalize f64_prec f64_emax f64_Hp f64_He). unfold F2R. cbn [Fnum Fexp]. now rewrite E. }
  destruct P as (P1 & P2 & _). split; [exact P1|]. rewrite P2. eapply Rle_trans; [apply rerr|]. rewrite Rabs_right by lra.
  change (bpow radix2 (-52)) with (/ 4503599627370496). pose proof eta_small. unfold u in *. lra.
Qed.

(** * P_DebyeQ: rational bounds on the rounding error of the approximants of debye1 in IEEE double (C51) *)
From Coq Require Import ZArith QArith Qabs Qreals Reals List Bool Lia Lra.
From Flocq Require Import Core BinarySingleNaN.
From Verif Require Import CSem CSemP Num NumP NumF M_Log1p S_Log1p P_Log1p P_Log1pF M_Special S_Special P_LogFact P_Expint P_Debye P_Debye1 P_SpecialF.
Import ListNotations.
Open Scope R_scope.

#[local] Instance p53 : Prec_gt_0 53 := eq_refl.
#[local] Instance v53 : Valid_exp fexp64 := FLT_exp_valid _ _.

(** ** rational bounds for one approximant, in Horner form *)
Definition uQ : Q := 1 # 9007199254740992.
Definition etaQ : Q := 1 # (10 ^ 36).
Lemma uQ_R : Q2R uQ = pow2 (-53). Proof. unfold Q2R, uQ. cbn [Qnum Qden]. change (pow2 (-53)) with (/ 9007199254740992). lra. Qed.
Lemma etaQ_R : pow2 (-1075) <= Q2R etaQ.
Proof.
  apply Rle_trans with (pow2 (-120)); [apply bpow_le; lia|]. change (pow2 (-120)) with (/ 1329227995784915872903807060280344576).
  unfold Q2R, etaQ. cbn [Qnum Qden]. change (Z.pos (10 ^ 36)) with 1000000000000000000000000000000000000%Z. lra.
Qed.
Lemma rn_errQ r b : Rabs r <= b -> Rabs (rn r - r) <= Q2R uQ * b + Q2R etaQ.
Proof. intros H. rewrite uQ_R. eapply Rle_trans; [exact (rn_err_le r b H)|]. pose proof etaQ_R. lra. Qed.
Definition litQ (p : Z * Z) : Q := fst p # Z.to_pos (10 ^ (- snd p)).
Lemma litQ_R p : (snd p <= 0)%Z -> Q2R (litQ p) = litR p.
Proof.
  intros H. unfold Q2R, litQ, litR. cbn [Qnum Qden]. f_equal. rewrite Z2Pos.id by (apply Z.pow_pos_nonneg; lia).
  replace (snd p) with (- Z.of_nat (Z.to_nat (- snd p)))%Z at 2 by lia. rewrite p10. f_equal.
  rewrite pow_IZR. do 2 f_equal. lia.
Qed.
(** (value at the centre, Lipschitz constant, bound, rounding error) over |y - xc| <= h, 0 <= y <= xr *)
Definition qbnd : Set := Q * Q * Q * Q.
(** a sum that keeps the larger denominator when it is a multiple of the other *)
Definition radd (a b : Q) : Q :=
  let da := Z.pos (Qden a) in let db := Z.pos (Qden b) in
  let k := (db / da)%Z in let k' := (da / db)%Z in
  if (k * da =? db)%Z then Qmake (Qnum a * k + Qnum b) (Qden b)
  else if (k' * db =? da)%Z then Qmake (Qnum a + Qnum b * k') (Qden a) else (a + b)%Q.
Definition rmul (a b : Q) : Q := (a * b)%Q.
Definition P45 : positive := (10 ^ 45)%positive.
(** rounding up to 45 decimals *)
Definition rup_to (t : positive) (q : Q) : Q := Qmake (- ((- (Qnum q * Z.pos t)) / Z.pos (Qden q))) t.
Definition rup : Q -> Q := rup_to P45.
Definition small (p : Z * Z) (b e : Q) : bool := (snd p <=? 0)%Z && Qle_bool (Qabs (litQ p)) 4 && Qle_bool (radd b e) 60.
Fixpoint chk (xc h xr : Q) (c : list (Z * Z)) : option qbnd :=
  match c with
  | [] => None
  | [p] =>
      let q := litQ p in
      let e := rup (radd (rmul uQ (Qabs q)) etaQ) in
      if small p (Qabs q) e then Some (q, 0%Q, Qabs q, e) else None
  | p :: c' =>
      match chk xc h xr c' with
      | None => None
      | Some (v, l, b, e) =>
          let q := litQ p in
          let v2 := radd q (rmul xc v) in
          let l2 := radd b (rmul xr l) in
          let b2 := radd (Qabs v2) (rmul h l2) in
          let s := radd (rup (radd (radd (rmul uQ (Qabs q)) etaQ) (radd (rmul uQ (rmul xr (radd b e))) etaQ))) (rup (rmul xr e)) in
          let e2 := radd (rup (radd (rmul uQ (radd b2 s)) etaQ)) s in
          if small p b2 e2 then Some (v2, l2, b2, e2) else None
      end
  end.
Lemma Q2R_make n d : Q2R (Qmake n d) = IZR n / IZR (Z.pos d). Proof. reflexivity. Qed.
Lemma den_pos (q : Q) : 0 < IZR (Z.pos (Qden q)). Proof. apply IZR_lt. reflexivity. Qed.
Lemma radd_R a b : Q2R (radd a b) = Q2R a + Q2R b.
Proof.
  unfold radd. pose proof (den_pos a) as PA. pose proof (den_pos b) as PB. destruct (Z.eqb_spec (Z.pos (Qden b) / Z.pos (Qden a) * Z.pos (Qden a)) (Z.pos (Qden b))) as [E|_].
  - set (k := (_ / _)%Z) in *. apply (f_equal IZR) in E. rewrite mult_IZR in E. rewrite Q2R_make. unfold Q2R. rewrite plus_IZR, mult_IZR. assert (IZR k <> 0) by nra.
    set (da := IZR (Z.pos (Qden a))) in *. set (db := IZR (Z.pos (Qden b))) in *. clearbody da db. subst db. field. lra.
  - destruct (Z.eqb_spec (Z.pos (Qden a) / Z.pos (Qden b) * Z.pos (Qden b)) (Z.pos (Qden a))) as [E|_]; [|apply Q2R_plus].
    set (k := (_ / _)%Z) in *. apply (f_equal IZR) in E. rewrite mult_IZR in E. rewrite Q2R_make. unfold Q2R. rewrite plus_IZR, mult_IZR. assert (IZR k <> 0) by nra.
    set (da := IZR (Z.pos (Qden a))) in *. set (db := IZR (Z.pos (Qden b))) in *. clearbody da db. subst da. field. lra.
Qed.
Lemma rmul_R a b : Q2R (rmul a b) = Q2R a * Q2R b.
Proof. apply Q2R_mult. Qed.
Lemma rup_to_R n q : Q2R q <= Q2R (rup_to n q).
Proof.
  unfold rup_to. rewrite Q2R_make. unfold Q2R. pose proof (den_pos q) as P. assert (P4 : 0 < IZR (Z.pos n)) by (apply IZR_lt; reflexivity).
  pose proof (Z.mul_div_le (- (Qnum q * Z.pos n)) (Z.pos (Qden q)) ltac:(lia)) as D. apply IZR_le in D. rewrite mult_IZR, opp_IZR, mult_IZR in D. rewrite opp_IZR.
  set (z := IZR (_ / _)) in *. set (d := IZR (Z.pos (Qden q))) in *. set (t := IZR (Z.pos n)) in *. clearbody z d t.
  apply (Rmult_le_reg_r (d * t)); [nra|]. replace (IZR (Qnum q) * / d * (d * t)) with (IZR (Qnum q) * t) by (field; lra).
  replace (- z / t * (d * t)) with (- (d * z)) by (field; lra). lra.
Qed.
Lemma rup_R q : Q2R q <= Q2R (rup q). Proof. apply rup_to_R. Qed.
Lemma Qabs_R q : Q2R (Qabs q) = Rabs (Q2R q).
Proof.
  destruct q as [n d]. unfold Q2R, Qabs. cbn [Qnum Qden]. rewrite Rabs_mult, abs_IZR. f_equal. symmetry. apply Rabs_pos_eq. left. apply Rinv_0_lt_compat, IZR_lt. reflexivity.
Qed.
Lemma Qle_R a b : Qle_bool a b = true -> Q2R a <= Q2R b.
Proof. intros H. apply Qle_Rle, Qle_bool_iff, H. Qed.
Lemma Q2R_Z z : Q2R (inject_Z z) = IZR z.
Proof. unfold Q2R, inject_Z. cbn [Qnum Qden]. rewrite Rinv_1. ring. Qed.

Lemma quad_inv {A} (a b c d a' b' c' d' : A) : Some (a, b, c, d) = Some (a', b', c', d') -> a' = a /\ b' = b /\ c' = c /\ d' = d.
Proof. repeat split; congruence. Qed.
Lemma small_R p b e : small p b e = true -> (snd p <= 0)%Z /\ Rabs (litR p) <= 4 /\ Q2R b + Q2R e <= 60.
Proof.
  unfold small. intros H. apply andb_prop in H. destruct H as [H H3]. apply andb_prop in H. destruct H as [H1 H2]. apply Z.leb_le in H1.
  apply Qle_R in H2, H3. rewrite Qabs_R, litQ_R in H2 by exact H1. rewrite radd_R in H3. change 4%Q with (inject_Z 4) in H2. change 60%Q with (inject_Z 60) in H3. rewrite Q2R_Z in H2, H3. auto.
Qed.

Section Cell.
  Variables xc h xr : Q.
  Definition region (y : R) : Prop := Rabs (y - Q2R xc) <= Q2R h /\ 0 <= y <= Q2R xr.
  Hypothesis Hc : region (Q2R xc).
  Lemma chk_spec c : forall v l b e, chk xc h xr c = Some (v, l, b, e) ->
    forallb (fun p => (snd p <=? 0)%Z) c = true /\ polyR (Q2R xc) c = Q2R v /\ 0 <= Q2R l /\ (forall y, region y -> Rabs (polyR y c) <= Q2R b) /\
    (forall y z, region y -> region z -> Rabs (polyR y c - polyR z c) <= Q2R l * Rabs (y - z)) /\
    (forall fx x, rep 6 fx x -> region x -> exists r, rep 6 (poly f64_arith f64_lit fx c) r /\ Rabs (r - polyR x c) <= Q2R e) /\ 0 <= Q2R e.
  Proof.
    assert (X0 : 0 <= Q2R xr) by (destruct Hc; lra).
    assert (U0 : 0 <= Q2R uQ) by (rewrite uQ_R; apply bpow_ge_0). assert (N0 : 0 <= Q2R etaQ) by (eapply Rle_trans; [apply bpow_ge_0|apply etaQ_R]).
    induction c as [|p c IH]; intros v l b e H; [discriminate|].
    destruct c as [|p' c].
    - clear IH. cbn [chk] in H. destruct (small _ _ _) eqn:SM in H; [|discriminate]. apply quad_inv in H; destruct H as (-> & -> & -> & ->).
      destruct (small_R _ _ _ SM) as (E1 & E4 & E60). cbn [forallb polyR]. rewrite (proj2 (Z.leb_le _ _) E1). split; [reflexivity|].
      pose proof (rup_R (radd (rmul uQ (Qabs (litQ p))) etaQ)) as RU. rewrite Qabs_R in *. rewrite litQ_R in * by exact E1. rewrite radd_R, rmul_R, Qabs_R, litQ_R in RU by exact E1.
      change (Q2R 0) with (0 * / 1). rewrite Rmult_0_l. pose proof (Rabs_pos (litR p)) as AP. assert (UP := Rmult_le_pos _ _ U0 AP).
      split; [ring|]. split; [lra|]. split; [intros; right; f_equal; ring|]. split.
      { intros y z _ _. replace (_ - _) with 0 by ring. rewrite Rabs_R0. lra. }
      split; [|lra]. intros fx x Rx Hx. exists (rn (litR p)). split; [apply (rep_weaken 2); [lia|]; apply lit_rep; [lia|exact E4]|].
      replace (rn (litR p) - (litR p + x * 0)) with (rn (litR p) - litR p) by ring. eapply Rle_trans; [apply (rn_errQ _ _ (Rle_refl _))|exact RU].
    - set (c' := p' :: c) in *. destruct (chk xc h xr c') as [[[[v' l'] b'] e']|] eqn:K'.
      2:{ exfalso. subst c'. cbn [chk] in H. cbn [chk] in K'. rewrite K' in H. discriminate. }
      destruct (IH _ _ _ _ eq_refl) as (FE & V & L & B & D & FL & EP). clear IH.
      set (s := radd (rup (radd (radd (rmul uQ (Qabs (litQ p))) etaQ) (radd (rmul uQ (rmul xr (radd b' e'))) etaQ))) (rup (rmul xr e'))).
      set (v2 := radd (litQ p) (rmul xc v')). set (l2 := radd b' (rmul xr l')). set (b2 := radd (Qabs v2) (rmul h l2)). set (e2 := radd (rup (radd (rmul uQ (radd b2 s)) etaQ)) s).
      assert (H2 : (if small p b2 e2 then Some (v2, l2, b2, e2) else None) = Some (v, l, b, e)).
      { subst c'. cbn [chk] in H. cbn [chk] in K'. rewrite K' in H. exact H. }
      clear H. destruct (small p b2 e2) eqn:SM in H2; [|discriminate]. apply quad_inv in H2; destruct H2 as (-> & -> & -> & ->).
      destruct (small_R _ _ _ SM) as (E1 & E4 & E60).
      assert (V2 : Q2R v2 = litR p + Q2R xc * Q2R v') by (unfold v2; rewrite radd_R, rmul_R, litQ_R by exact E1; reflexivity).
      assert (L2 : Q2R l2 = Q2R b' + Q2R xr * Q2R l') by (unfold l2; rewrite radd_R, rmul_R; reflexivity).
      assert (B2 : Q2R b2 = Rabs (Q2R v2) + Q2R h * Q2R l2) by (unfold b2; rewrite radd_R, rmul_R, Qabs_R; reflexivity).
      assert (SE : (Q2R uQ * Rabs (litR p) + Q2R etaQ) + (Q2R uQ * (Q2R xr * (Q2R b' + Q2R e')) + Q2R etaQ) + Q2R xr * Q2R e' <= Q2R s).
      { unfold s. rewrite radd_R. apply Rplus_le_compat; (eapply Rle_trans; [|apply rup_R]); rewrite ?radd_R, ?rmul_R, ?radd_R, ?rmul_R, ?radd_R, ?Qabs_R, ?litQ_R by exact E1; lra. }
      assert (E2 : (Q2R uQ * (Q2R b2 + Q2R s) + Q2R etaQ) + Q2R s <= Q2R e2) by (unfold e2; rewrite radd_R; apply Rplus_le_compat_r; eapply Rle_trans; [|apply rup_R]; rewrite radd_R, rmul_R, radd_R; lra).
      clearbody s v2 l2 b2 e2.
      assert (B0 : 0 <= Q2R b') by (eapply Rle_trans; [apply Rabs_pos|apply (B _ Hc)]).
      assert (L0 : 0 <= Q2R l2) by (rewrite L2; apply Rplus_le_le_0_compat; [exact B0|now apply Rmult_le_pos]).
      assert (Dd : forall y z, region y -> region z -> Rabs (polyR y (p :: c') - polyR z (p :: c')) <= Q2R l2 * Rabs (y - z)).
      { intros y z Y Z. change (polyR y (p :: c')) with (litR p + y * polyR y c'). change (polyR z (p :: c')) with (litR p + z * polyR z c').
        replace (litR p + y * polyR y c' - (litR p + z * polyR z c')) with ((y - z) * polyR y c' + z * (polyR y c' - polyR z c')) by ring.
        eapply Rle_trans; [apply Rabs_triang|]. rewrite !Rabs_mult. specialize (B y Y). specialize (D y z Y Z). destruct Z as [_ Z]. rewrite (Rabs_pos_eq z) by lra.
        pose proof (Rabs_pos (y - z)) as P. pose proof (Rabs_pos (polyR y c' - polyR z c')) as P2.
        assert (Rabs (y - z) * Rabs (polyR y c') <= Rabs (y - z) * Q2R b') by (apply Rmult_le_compat_l; lra).
        assert (z * Rabs (polyR y c' - polyR z c') <= Q2R xr * (Q2R l' * Rabs (y - z))) by (apply Rmult_le_compat; lra). rewrite L2. lra. }
      assert (VC : polyR (Q2R xc) (p :: c') = Q2R v2) by (change (polyR (Q2R xc) (p :: c')) with (litR p + Q2R xc * polyR (Q2R xc) c'); rewrite V, V2; ring).
      assert (BB : forall y, region y -> Rabs (polyR y (p :: c')) <= Q2R b2).
      { intros y Y. replace (polyR y (p :: c')) with (polyR (Q2R xc) (p :: c') + (polyR y (p :: c') - polyR (Q2R xc) (p :: c'))) by ring.
        eapply Rle_trans; [apply Rabs_triang|]. rewrite B2. apply Rplus_le_compat; [rewrite VC; lra|].
        eapply Rle_trans; [apply (Dd _ _ Y Hc)|]. rewrite Rmult_comm. apply Rmult_le_compat_r; [exact L0|exact (proj1 Y)]. }
      assert (B0' : 0 <= Q2R b2) by (eapply Rle_trans; [apply Rabs_pos|apply (BB _ Hc)]).
      assert (S0 : 0 <= Q2R s).
      { eapply Rle_trans; [|exact SE]. pose proof (Rabs_pos (litR p)). assert (0 <= Q2R uQ * Rabs (litR p)) by now apply Rmult_le_pos.
        assert (0 <= Q2R uQ * (Q2R xr * (Q2R b' + Q2R e'))) by (apply Rmult_le_pos; [exact U0|apply Rmult_le_pos; lra]). assert (0 <= Q2R xr * Q2R e') by now apply Rmult_le_pos. lra. }
      assert (E0 : 0 <= Q2R uQ * (Q2R b2 + Q2R s)) by (apply Rmult_le_pos; lra).
      split; [cbn [forallb]; rewrite FE, (proj2 (Z.leb_le _ _) E1); reflexivity|]. split; [exact VC|]. split; [exact L0|]. split; [exact BB|]. split; [exact Dd|]. split; [|lra].
      intros fx x Rx Hx. specialize (BB x Hx). specialize (B x Hx). destruct (FL fx x Rx Hx) as (r' & R1 & R2). clear FL.
      assert (RL : rep 2 (f64_lit (fst p) (snd p)) (rn (litR p))) by (apply lit_rep; [lia|exact E4]).
      assert (EL := rn_errQ (litR p) (Rabs (litR p)) (Rle_refl _)).
      change (poly f64_arith f64_lit fx (p :: c')) with (a_add f64_arith (f64_lit (fst p) (snd p)) (a_mul f64_arith fx (poly f64_arith f64_lit fx c'))).
      pose proof (rep_mul _ _ _ _ _ _ Rx R1 ltac:(lia)) as M. pose proof (rep_add _ _ _ _ _ _ RL M ltac:(lia)) as W. cbn [Z.add Pos.add Z.max Z.compare Pos.compare Pos.compare_cont] in W.
      destruct Hx as [Hx1 Hx2].
      assert (R4 : Rabs r' <= Q2R b' + Q2R e'). { replace r' with ((r' - polyR x c') + polyR x c') by ring. eapply Rle_trans; [apply Rabs_triang|]. lra. }
      assert (M1 : Rabs (x * r') <= Q2R xr * (Q2R b' + Q2R e')). { rewrite Rabs_mult, (Rabs_pos_eq x) by lra. apply Rmult_le_compat; [lra|apply Rabs_pos|lra|exact R4]. }
      assert (M2 := rn_errQ _ _ M1). set (m := rn (x * r')) in *. set (lr := rn (litR p)) in *.
      assert (S1 : Rabs (lr + m - polyR x (p :: c')) <= Q2R s).
      { change (polyR x (p :: c')) with (litR p + x * polyR x c'). replace (lr + m - (litR p + x * polyR x c')) with ((lr - litR p) + (m - x * r') + x * (r' - polyR x c')) by ring.
        eapply Rle_trans; [apply Rabs_triang|]. eapply Rle_trans; [apply Rplus_le_compat_r, Rabs_triang|]. eapply Rle_trans; [|exact SE]. rewrite Rabs_mult, (Rabs_pos_eq x) by lra.
        apply Rplus_le_compat; [apply Rplus_le_compat; assumption|]. apply Rmult_le_compat; [lra|apply Rabs_pos|lra|exact R2]. }
      assert (S2 : Rabs (lr + m) <= Q2R b2 + Q2R s). { replace (lr + m) with ((lr + m - polyR x (p :: c')) + polyR x (p :: c')) by ring. eapply Rle_trans; [apply Rabs_triang|]. lra. }
      assert (S3 := rn_errQ _ _ S2). set (w := rn (lr + m)) in *.
      assert (E3 : Rabs (w - polyR x (p :: c')) <= Q2R e2).
      { replace (w - polyR x (p :: c')) with ((w - (lr + m)) + (lr + m - polyR x (p :: c'))) by ring. eapply Rle_trans; [apply Rabs_triang|]. lra. }
      exists w. split; [|exact E3].
      destruct W as (W1 & W2 & _). split; [exact W1|]. split; [exact W2|]. change (pow2 6) with 64.
      replace w with ((w - polyR x (p :: c')) + polyR x (p :: c')) by ring. eapply Rle_trans; [apply Rabs_triang|]. lra.
  Qed.
End Cell.

(** ** one cell of the tables: [A/10, (A + W)/10] *)
Fixpoint polyQ (x : Q) (c : list (Z * Z)) : Q := match c with [] => 0%Q | p :: c' => radd (litQ p) (rmul x (polyQ x c')) end.
Lemma polyQ_R x c : forallb (fun p => (snd p <=? 0)%Z) c = true -> Q2R (polyQ x c) = polyR (Q2R x) c.
Proof.
  induction c as [|p c IH]; intros E; cbn [polyQ polyR]; [unfold Q2R; cbn; ring|]. cbn [forallb] in E. apply andb_prop in E. destruct E as [E1 E2]. apply Z.leb_le in E1.
  now rewrite radd_R, rmul_R, litQ_R, IH.
Qed.
Definition cc (A W : Z) : Q := (10 * A + 5 * W) # 100.
Definition ch (W : Z) : Q := (50 * W + 1) # 1000.
Definition cr (A W : Z) : Q := (100 * (A + W) + 1) # 1000.
Definition delta : Q := 4 # (10 ^ 16).
Definition cell_ok (sc : bool) (K : Z) (A W : Z) (c : list (Z * Z)) : bool :=
  match chk (cc A W) (ch W) (cr A W) c with None => false | Some (v, l, _, e) =>
  let tot := radd e (rmul (rmul delta (cr A W)) l) in
  let good lo := Qle_bool tot (rmul (rmul (inject_Z K) uQ) lo) in
  if sc then Qle_bool (16 # 10) (polyQ (A # 10) c) && good (16 # 10)%Q
  else let lo1 := (v - rmul (ch W) l)%Q in
       let lo2 := rmul (polyQ (A # 10) c) (Qmake A (Z.to_pos (A + W))) in
       (Qle_bool (15 # 100) lo1 && good lo1) || ((0 <? A)%Z && Qle_bool (15 # 100) lo2 && good lo2)
  end.
Fixpoint cells_ok (sc : bool) (K : Z -> Z) (a w k : Z) (cells : list (list (Z * Z))) : bool :=
  match cells with [] => true | c :: cells' => cell_ok sc (K k) (a + w * k) w c && cells_ok sc K a w (k + 1) cells' end.
Definition K0 (k : Z) : Z := if (k <=? 10)%Z then 10%Z else 500%Z.
Definition K1 (k : Z) : Z := if (k <? 49)%Z then 500%Z else 6%Z.
Definition K23 (k : Z) : Z := 6%Z.
Lemma tables_ok : cells_ok false K0 0 2 0 debye1_cells_0 && cells_ok true K1 100 2 0 debye1_cells_1 && cells_ok true K23 200 10 0 debye1_cells_2 && cells_ok true K23 300 10 0 debye1_cells_3 = true.
Proof. vm_cast_no_check (eq_refl true). Qed.

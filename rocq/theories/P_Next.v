(** * P_Next: next_greater / next_less / nextn_* enumerate the floats in order *)
From Coq Require Import ZArith Reals List Bool Lra Lia Psatz Zpower.
From Flocq Require Import Core BinarySingleNaN.
From Verif Require Import CSem CSemP Num NumP NumF NumX M_Elem S_Elem.
Import ListNotations.
Open Scope R_scope.

Section N.
  Context (prec emax : Z) (Hp : Prec_gt_0 prec) (He : Prec_lt_emax prec emax).
  Notation F := (binary_float prec emax).
  Notation E := (f2e prec emax).
  Notation fexp := (SpecFloat.fexp prec emax).
  Notation ltf := (ltb (@Bcompare prec emax)).
  Notation lef := (leb (@Bcompare prec emax)).
  Let vexp : Valid_exp fexp := fexp_correct prec emax Hp.
  Existing Instance vexp.
  Notation ng := (next_greater prec emax Hp He).
  Notation nl := (next_less prec emax Hp He).

  Lemma B2R_max : B2R (@Bmax_float prec emax Hp He) = bpow radix2 emax - bpow radix2 (emax - prec).
  Proof.
    change (B2R (@Bmax_float prec emax Hp He)) with (IZR (Z.pos (shift_pos (Z.to_pos prec) 1 - 1)) * bpow radix2 (emax - prec)).
    assert (P : (0 < prec)%Z) by exact Hp.
    assert (V : (Z.pos (shift_pos (Z.to_pos prec) 1 - 1) = 2 ^ prec - 1)%Z).
    { rewrite Pos2Z.inj_sub.
      - rewrite shift_pos_correct, Z.pow_pos_fold, Z2Pos.id by exact P. lia.
      - change (Z.pos 1 < Z.pos (shift_pos (Z.to_pos prec) 1))%Z.
        rewrite shift_pos_correct, Z.pow_pos_fold, Z2Pos.id by exact P. rewrite Z.mul_1_r.
        apply (Zpower_gt_1 radix2). exact P. }
    rewrite V. rewrite minus_IZR. change (IZR (2 ^ prec)) with (IZR (Zpower radix2 prec)).
    rewrite IZR_Zpower by lia.
    rewrite Rmult_minus_distr_r, <- bpow_plus. replace (prec + (emax - prec))%Z with emax by ring. ring.
  Qed.

  Lemma E_succ (x : F) : is_finite x = true ->
    (E (Bsucc x) = Fin (succ radix2 fexp (B2R x)) /\ succ radix2 fexp (B2R x) < bpow radix2 emax) \/
    (E (Bsucc x) = PInf /\ bpow radix2 emax <= succ radix2 fexp (B2R x)).
  Proof.
    intros Fx. pose proof (Bsucc_correct prec emax Hp He x Fx) as H.
    destruct (Rlt_bool_spec (succ radix2 fexp (B2R x)) (bpow radix2 emax)) as [Hl|Hl].
    - left. destruct H as (H1 & H2 & _). split; [|exact Hl]. rewrite f2e_finite by exact H2. rewrite H1. reflexivity.
    - right. split; [|exact Hl]. apply (f2e_inf_of_SF prec emax _ false H).
  Qed.

  Lemma succ_gt (x : F) : is_finite x = true -> B2R x < succ radix2 fexp (B2R x).
  Proof.
    intros Fx. destruct (Req_dec (B2R x) 0) as [Z|NZ]; [|apply succ_gt_id; exact NZ].
    rewrite Z. unfold succ. rewrite Rle_bool_true by lra. rewrite Rplus_0_l.
    rewrite ulp_FLT_0 || idtac.
    replace (ulp radix2 fexp 0) with (ulp radix2 (FLT_exp (SpecFloat.emin prec emax) prec) 0) by reflexivity.
    rewrite ulp_FLT_0; [apply bpow_gt_0|exact Hp].
  Qed.

  (** the successor of x: greater than x, and no float in between *)
  Lemma succ_least (x : F) : ltf x (B754_infinity false) = true ->
    ltf x (Bsucc x) = true /\ forall y, ltf x y = true -> lef (Bsucc x) y = true.
  Proof.
    intros Hx. destruct x as [s|s| |s m e B].
    4,1: match goal with |- ltf ?v _ = true /\ _ => set (x := v) in * end; assert (Fx : is_finite x = true) by reflexivity;
      clearbody x;
      rewrite ltb_f, (f2e_finite _ _ x Fx);
      pose proof (succ_gt x Fx) as G;
      destruct (E_succ x Fx) as [[ES SL]|[ES SL]]; rewrite ES;
      (split; [try (apply ltb_Fin; exact G); reflexivity|]);
      intros y Hy; rewrite ltb_f, (f2e_finite _ _ x Fx) in Hy; rewrite leb_f, ES;
      destruct (E y) as [r| | |] eqn:Ey; try reflexivity; try discriminate;
      apply ltb_Fin in Hy; destruct (f2e_fin_finite prec emax y r Ey) as [Fy By]; rewrite <- By in *;
      pose proof (succ_le_lt radix2 fexp (B2R x) (B2R y) (generic_format_B2R prec emax x) (generic_format_B2R prec emax y) Hy) as S;
      [apply leb_Fin; exact S|exfalso; pose proof (abs_B2R_lt_emax prec emax y) as A; apply Rabs_def2 in A; lra].
    - destruct s; [|discriminate]. cbn [Bsucc]. split; [reflexivity|].
      intros y Hy. rewrite leb_f, f2e_opp.
      rewrite (f2e_finite prec emax Bmax_float) by reflexivity. cbn [eopp].
      destruct (E y) as [r| | |] eqn:Ey; try reflexivity; try (rewrite ltb_f, Ey in Hy; discriminate).
      destruct (f2e_fin_finite prec emax y r Ey) as [Fy By]. rewrite <- By. apply leb_Fin.
      pose proof (abs_B2R_le_emax_minus_prec prec emax Hp y) as A. rewrite B2R_max.
      destruct (Rcase_abs (B2R y)) as [Q|Q]; unfold Rabs in A; destruct (Rcase_abs (B2R y)); lra.
    - discriminate.
  Qed.

  Lemma ng_lt x : ltf x (B754_infinity false) = true -> ng x = Bsucc x.
  Proof. intros H. unfold next_greater, nextafter. unfold ltb in H. destruct (Bcompare x _) as [[]|]; try discriminate. reflexivity. Qed.
  Lemma not_gt_inf (x : F) : Bcompare x (B754_infinity false) <> Some Gt.
  Proof. destruct x as [s|[]| |s m e B]; discriminate. Qed.

  Lemma lt_inf_cases (x : F) : ltf x (B754_infinity false) = true \/ x = B754_infinity false \/ x = B754_nan.
  Proof. destruct x as [s|[]| |s m e B]; auto. Qed.

  Theorem next_greater_ok (x : F) :
    (is_nan x = true -> is_nan (ng x) = true) /\
    (x = B754_infinity false -> ng x = B754_infinity false) /\
    (ltf x (B754_infinity false) = true ->
       ltf x (ng x) = true /\ forall y, ltf x y = true -> lef (ng x) y = true).
  Proof.
    repeat split.
    - destruct x; try discriminate. reflexivity.
    - intros ->. reflexivity.
    - rewrite ng_lt by assumption. apply succ_least. assumption.
    - rewrite ng_lt by assumption. apply succ_least. assumption.
  Qed.

  (** mirror image *)
  Lemma ltf_opp (x y : F) : ltf (Bopp x) (Bopp y) = ltf y x.
  Proof.
    rewrite !ltb_f, !f2e_opp. destruct (E x) as [a| | |], (E y) as [b| | |]; try reflexivity. cbn [eopp].
    destruct (ltb ecmp (Fin b) (Fin a)) eqn:Q; [apply ltb_Fin in Q; apply ltb_Fin; lra|apply ltb_Fin_false in Q; apply ltb_Fin_false; lra].
  Qed.
  Lemma lef_opp (x y : F) : lef (Bopp x) (Bopp y) = lef y x.
  Proof.
    rewrite !leb_f, !f2e_opp. destruct (E x) as [a| | |], (E y) as [b| | |]; try reflexivity. cbn [eopp].
    destruct (leb ecmp (Fin b) (Fin a)) eqn:Q; [apply leb_Fin in Q; apply leb_Fin; lra|apply leb_Fin_false in Q; apply leb_Fin_false; lra].
  Qed.

  Theorem next_less_mirror (x : F) : nl x = Bopp (ng (Bopp x)).
  Proof.
    unfold next_less, next_greater, nextafter.
    destruct x as [[]|[]| |[] m e B]; try reflexivity; cbn -[Bsucc Bpred]; unfold Bpred; cbn -[Bsucc]; rewrite ?Bopp_involutive; reflexivity.
  Qed.

  Theorem next_less_ok (x : F) :
    (is_nan x = true -> is_nan (nl x) = true) /\
    (x = B754_infinity true -> nl x = B754_infinity true) /\
    (ltf (B754_infinity true) x = true ->
       ltf (nl x) x = true /\ forall y, ltf y x = true -> lef y (nl x) = true).
  Proof.
    rewrite next_less_mirror. destruct (next_greater_ok (Bopp x)) as (H1 & H2 & H3). repeat split.
    - intros H. rewrite is_nan_Bopp. apply H1. rewrite is_nan_Bopp. exact H.
    - intros ->. reflexivity.
    - rewrite <- ltf_opp, Bopp_involutive. apply H3. rewrite <- ltf_opp in H. exact H.
    - intros y Hy. rewrite <- lef_opp, Bopp_involutive. apply H3.
      + rewrite <- ltf_opp in H. exact H.
      + rewrite ltf_opp. exact Hy.
  Qed.

  (** going up and down again: same value *)
  Theorem next_less_greater (x : F) : ltf x (B754_infinity false) = true ->
    eqb (@Bcompare prec emax) (nl (ng x)) x = true.
  Proof.
    intros Hx. pose proof (Bcompare_laws prec emax) as L.
    destruct (next_greater_ok x) as (_ & _ & G). destruct (G Hx) as [G1 G2].
    destruct (next_less_ok (ng x)) as (_ & _ & K).
    assert (Hlow : ltf (B754_infinity true) (ng x) = true).
    { apply (le_lt_trans _ L _ x); [|exact G1]. destruct x as [s|[]| |s m e B]; try reflexivity. discriminate. }
    destruct (K Hlow) as [K1 K2]. apply (le_antisym _ L); [|apply K2; exact G1].
    destruct (ltb_notnan _ L _ _ K1) as [N1 _]. destruct (ltb_notnan _ L _ _ Hx) as [N2 _].
    apply (not_lt_le _ L); [exact N2|exact N1|]. destruct (ltf x (nl (ng x))) eqn:Q; [|reflexivity].
    exfalso. pose proof (G2 _ Q) as Z. pose proof (le_not_lt _ L _ _ Z). congruence.
  Qed.

  (** ** nextn *)
  Fixpoint ups (f : F -> F) (x : F) (n : nat) : list F :=
    match n with O => [] | S n' => f x :: ups f (f x) n' end.
  Lemma ups_length f x n : length (ups f x n) = n.
  Proof. revert x. induction n as [|n IH]; intros x; simpl; [reflexivity|]. rewrite IH. reflexivity. Qed.

  Lemma nextn_iter f : forall n k x (mo : mem F) po so,
    (forall i, (i < n)%nat -> mo (po + (k + Z.of_nat i) * so)%Z <> None) ->
    exists x', iter_from n k (fun i (st : F * mem F) => let '(x, mo) := st in
         bind (set mo po so i (f x)) (fun mo' => ret (f x, mo'))) (x, mo)
    = Some (x', upds mo po so k (ups f x n)).
  Proof.
    induction n as [|n IH]; intros k x mo po so W.
    - eexists. reflexivity.
    - cbn [iter_from ups upds].
      rewrite set_upd by (specialize (W O ltac:(lia)); rewrite Z.add_0_r in W; exact W).
      cbn [bind]. unfold ret. cbn [bind]. apply IH. intros i Hi. unfold upd.
      destruct (_ =? _)%Z; [discriminate|]. specialize (W (S i) ltac:(lia)).
      replace (k + 1 + Z.of_nat i)%Z with (k + Z.of_nat (S i))%Z by lia. exact W.
  Qed.

  Lemma ups_run_up n x : run_up x (ups ng x n).
  Proof.
    revert x. induction n as [|n IH]; intros x; simpl; [exact I|]. split; [|apply IH].
    destruct (next_greater_ok x) as (H1 & H2 & H3). destruct (lt_inf_cases x) as [H|[H|H]].
    - left. exact (H3 H).
    - right. left. split; [exact H|exact (H2 H)].
    - right. right. subst x. split; reflexivity.
  Qed.
  Lemma ups_run_down n x : run_down x (ups nl x n).
  Proof.
    revert x. induction n as [|n IH]; intros x; simpl; [exact I|]. split; [|apply IH].
    destruct (next_less_ok x) as (H1 & H2 & H3).
    assert (C : ltf (B754_infinity true) x = true \/ x = B754_infinity true \/ x = B754_nan)
      by (destruct x as [s|[]| |s m e B]; auto).
    destruct C as [H|[H|H]].
    - left. exact (H3 H).
    - right. left. split; [exact H|exact (H2 H)].
    - right. right. subst x. split; reflexivity.
  Qed.

  Theorem nextn_greater_ok x (n : nat) mo po so : writable mo po so n ->
    exists ys, writes (nextn_greater_core_calc prec emax Hp He x (Z.of_nat n) mo po so) mo po so ys /\
      length ys = n /\ run_up x ys.
  Proof.
    intros W. exists (ups ng x n). split; [|split; [apply ups_length|apply ups_run_up]].
    unfold nextn_greater_core_calc, for_each. rewrite Z.sub_0_r, Nat2Z.id.
    destruct (nextn_iter ng n 0 x mo po so) as [x' Hx].
    { intros i Hi. rewrite Z.add_0_l. apply W. exact Hi. }
    eexists. split; [|apply upds_wrote; rewrite ups_length; apply W].
    unfold next_greater in Hx at 1 2. cbv zeta. rewrite Hx. reflexivity.
  Qed.

  Theorem nextn_less_ok x (n : nat) mo po so : writable mo po so n ->
    exists ys, writes (nextn_less_core_calc prec emax Hp He x (Z.of_nat n) mo po so) mo po so ys /\
      length ys = n /\ run_down x ys.
  Proof.
    intros W. exists (ups nl x n). split; [|split; [apply ups_length|apply ups_run_down]].
    unfold nextn_less_core_calc, for_each. rewrite Z.sub_0_r, Nat2Z.id.
    destruct (nextn_iter nl n 0 x mo po so) as [x' Hx].
    { intros i Hi. rewrite Z.add_0_l. apply W. exact Hi. }
    eexists. split; [|apply upds_wrote; rewrite ups_length; apply W].
    unfold next_less in Hx at 1 2. cbv zeta. rewrite Hx. reflexivity.
  Qed.
End N.

(** * NumF: IEEE operations as saturating rounding of exact operations *)
From Coq Require Import ZArith Reals List Bool Lia Lra.
From Flocq Require Import Core BinarySingleNaN Relative.
From Verif Require Import CSem Num NumP.
Open Scope R_scope.

Section F.
  Context (prec emax : Z).
  Context (Hp : Prec_gt_0 prec) (He : Prec_lt_emax prec emax).
  Notation F := (binary_float prec emax).
  Notation fexp := (SpecFloat.fexp prec emax).
  Local Instance fexp_valid : Valid_exp fexp := fexp_correct prec emax Hp.
  Local Instance fexp_mono : Monotone_exp fexp := fexp_monotone prec emax.

  Definition rnd (r : R) : R := round radix2 fexp ZnearestE r.
  Definition frnd (r : R) : ER :=
    if Rlt_bool (Rabs (rnd r)) (bpow radix2 emax) then Fin (rnd r)
    else if Rlt_bool r 0 then NInf else PInf.

  Lemma f2e_inf_of_SF (z : F) s :
    B2SF z = SpecFloat.S754_infinity s -> f2e prec emax z = if s then NInf else PInf.
  Proof. destruct z as [b|b| |b m e H]; simpl; try discriminate. intros E; injection E as ->. destruct s; reflexivity. Qed.

  Lemma overflow_NE s : binary_overflow prec emax mode_NE s = SpecFloat.S754_infinity s.
  Proof. reflexivity. Qed.

  Lemma Bsign_neg (x : F) : is_finite x = true -> B2R x < 0 -> Bsign x = true.
  Proof.
    destruct x as [s|s| |s m e H]; simpl; try discriminate; intros _ Hx; [lra|].
    destruct s; [reflexivity|]. exfalso. apply Rlt_not_le in Hx. apply Hx.
    apply F2R_ge_0. simpl. lia.
  Qed.
  Lemma Bsign_pos (x : F) : is_finite x = true -> 0 < B2R x -> Bsign x = false.
  Proof.
    destruct x as [s|s| |s m e H]; simpl; try discriminate; intros _ Hx; [lra|].
    destruct s; [|reflexivity]. exfalso. apply Rlt_not_le in Hx. apply Hx.
    apply F2R_le_0. simpl. lia.
  Qed.
  Lemma Bsign_true_le (x : F) : is_finite x = true -> Bsign x = true -> B2R x <= 0.
  Proof. intros Hf Hs. destruct (Rle_or_lt (B2R x) 0) as [H|H]; [exact H|]. rewrite (Bsign_pos x Hf H) in Hs. discriminate. Qed.
  Lemma Bsign_false_ge (x : F) : is_finite x = true -> Bsign x = false -> 0 <= B2R x.
  Proof. intros Hf Hs. destruct (Rle_or_lt 0 (B2R x)) as [H|H]; [exact H|]. rewrite (Bsign_neg x Hf H) in Hs. discriminate. Qed.

  Lemma rnd_0 : rnd 0 = 0.
  Proof. apply round_0. typeclasses eauto. Qed.

  Lemma ovf_nonzero r : Rlt_bool (Rabs (rnd r)) (bpow radix2 emax) = false -> r <> 0.
  Proof.
    intros H E. rewrite E, rnd_0, Rabs_R0, Rlt_bool_true in H; [discriminate|apply bpow_gt_0].
  Qed.

  Lemma f2e_plus (x y : F) : is_finite x = true -> is_finite y = true ->
    f2e prec emax (Bplus mode_NE x y) = frnd (B2R x + B2R y).
  Proof.
    intros Fx Fy. generalize (Bplus_correct prec emax Hp He mode_NE x y Fx Fy).
    change (round radix2 fexp (round_mode mode_NE) (B2R x + B2R y)) with (rnd (B2R x + B2R y)).
    unfold frnd. destruct (Rlt_bool _ _) eqn:E.
    - intros (H1 & H2 & _). rewrite f2e_finite, H1 by exact H2. reflexivity.
    - intros (H1 & H2). rewrite overflow_NE in H1. apply f2e_inf_of_SF in H1. rewrite H1.
      apply ovf_nonzero in E.
      destruct (Bsign x) eqn:Sx.
      + apply Bsign_true_le in Sx; [|exact Fx]. symmetry in H2. apply Bsign_true_le in H2; [|exact Fy].
        rewrite Rlt_bool_true by lra. reflexivity.
      + apply Bsign_false_ge in Sx; [|exact Fx]. symmetry in H2. apply Bsign_false_ge in H2; [|exact Fy].
        rewrite Rlt_bool_false by lra. reflexivity.
  Qed.

  Lemma f2e_minus (x y : F) : is_finite x = true -> is_finite y = true ->
    f2e prec emax (Bminus mode_NE x y) = frnd (B2R x - B2R y).
  Proof.
    intros Fx Fy. generalize (Bminus_correct prec emax Hp He mode_NE x y Fx Fy).
    change (round radix2 fexp (round_mode mode_NE) (B2R x - B2R y)) with (rnd (B2R x - B2R y)).
    unfold frnd. destruct (Rlt_bool _ _) eqn:E.
    - intros (H1 & H2 & _). rewrite f2e_finite, H1 by exact H2. reflexivity.
    - intros (H1 & H2). rewrite overflow_NE in H1. apply f2e_inf_of_SF in H1. rewrite H1.
      apply ovf_nonzero in E.
      destruct (Bsign x) eqn:Sx.
      + apply Bsign_true_le in Sx; [|exact Fx].
        assert (Sy : Bsign y = false) by (destruct (Bsign y); [discriminate|reflexivity]).
        apply Bsign_false_ge in Sy; [|exact Fy].
        rewrite Rlt_bool_true by lra. reflexivity.
      + apply Bsign_false_ge in Sx; [|exact Fx].
        assert (Sy : Bsign y = true) by (destruct (Bsign y); [reflexivity|discriminate]).
        apply Bsign_true_le in Sy; [|exact Fy].
        rewrite Rlt_bool_false by lra. reflexivity.
  Qed.

  Lemma xor_sign_neg (x y : F) : is_finite x = true -> is_finite y = true -> B2R x * B2R y <> 0 ->
    xorb (Bsign x) (Bsign y) = Rlt_bool (B2R x * B2R y) 0.
  Proof.
    intros Fx Fy Hn.
    destruct (Rtotal_order (B2R x) 0) as [Hx|[Hx|Hx]]; [| rewrite Hx in Hn; lra |];
    (destruct (Rtotal_order (B2R y) 0) as [Hy|[Hy|Hy]]; [| rewrite Hy in Hn; lra |]);
    rewrite ?(Bsign_neg x Fx), ?(Bsign_pos x Fx), ?(Bsign_neg y Fy), ?(Bsign_pos y Fy) by lra; simpl; symmetry.
    - apply Rlt_bool_false. nra.
    - apply Rlt_bool_true. nra.
    - apply Rlt_bool_true. nra.
    - apply Rlt_bool_false. nra.
  Qed.

  Lemma f2e_mult (x y : F) : is_finite x = true -> is_finite y = true ->
    f2e prec emax (Bmult mode_NE x y) = frnd (B2R x * B2R y).
  Proof.
    intros Fx Fy. generalize (Bmult_correct prec emax Hp He mode_NE x y).
    change (round radix2 fexp (round_mode mode_NE) (B2R x * B2R y)) with (rnd (B2R x * B2R y)).
    unfold frnd. destruct (Rlt_bool _ _) eqn:E.
    - intros (H1 & H2 & _). rewrite Fx, Fy in H2. rewrite f2e_finite, H1 by exact H2. reflexivity.
    - intros H1. rewrite overflow_NE in H1. apply f2e_inf_of_SF in H1. rewrite H1.
      apply ovf_nonzero in E. rewrite xor_sign_neg by assumption. reflexivity.
  Qed.

  Lemma f2e_div (x y : F) : is_finite x = true -> is_finite y = true -> B2R y <> 0 ->
    f2e prec emax (Bdiv mode_NE x y) = frnd (B2R x / B2R y).
  Proof.
    intros Fx Fy Hy. generalize (Bdiv_correct prec emax Hp He mode_NE x y Hy).
    change (round radix2 fexp (round_mode mode_NE) (B2R x / B2R y)) with (rnd (B2R x / B2R y)).
    unfold frnd. destruct (Rlt_bool _ _) eqn:E.
    - intros (H1 & H2 & _). rewrite Fx in H2. rewrite f2e_finite, H1 by exact H2. reflexivity.
    - intros H1. rewrite overflow_NE in H1. apply f2e_inf_of_SF in H1. rewrite H1.
      apply ovf_nonzero in E.
      assert (Hx : B2R x <> 0) by (intros Hx; apply E; rewrite Hx; unfold Rdiv; ring).
      rewrite xor_sign_neg by (try assumption; apply Rmult_integral_contrapositive_currified; assumption).
      destruct (Rlt_bool_spec (B2R x * B2R y) 0) as [H|H]; destruct (Rlt_bool_spec (B2R x / B2R y) 0) as [H'|H'];
        try reflexivity; exfalso.
      + assert (B2R x * B2R y = (B2R x / B2R y) * (B2R y * B2R y)) by (field; assumption).
        assert (0 < B2R y * B2R y) by nra. nra.
      + assert (B2R x * B2R y = (B2R x / B2R y) * (B2R y * B2R y)) by (field; assumption).
        assert (0 < B2R y * B2R y) by nra. nra.
  Qed.

  Lemma f2e_sqrt (x : F) : is_finite x = true -> 0 <= B2R x ->
    f2e prec emax (Bsqrt mode_NE x) = Fin (rnd (sqrt (B2R x))).
  Proof.
    intros Fx Hx. destruct (Bsqrt_correct prec emax Hp He mode_NE x) as (H1 & H2 & _).
    destruct x as [s|s| |s m e H]; try discriminate.
    - simpl. rewrite sqrt_0. rewrite rnd_0. reflexivity.
    - destruct s.
      + exfalso. simpl in Hx. apply Rle_not_lt in Hx. apply Hx. apply F2R_lt_0. simpl. lia.
      + rewrite f2e_finite by exact H2. f_equal. exact H1.
  Qed.

  Lemma f2e_normalize m e s :
    f2e prec emax (binary_normalize prec emax Hp He mode_NE m e s) = frnd (F2R (Float radix2 m e)).
  Proof.
    generalize (binary_normalize_correct prec emax Hp He mode_NE m e s). cbv zeta.
    change (round radix2 fexp (round_mode mode_NE) (F2R (Float radix2 m e))) with (rnd (F2R (Float radix2 m e))).
    unfold frnd. destruct (Rlt_bool _ _) eqn:E.
    - intros (H1 & H2 & _). rewrite f2e_finite, H1 by exact H2. reflexivity.
    - intros H1. rewrite overflow_NE in H1. apply f2e_inf_of_SF in H1. exact H1.
  Qed.

  Lemma f2e_ofZ z : f2e prec emax (a_ofZ (farith prec emax Hp He) z) = frnd (IZR z).
  Proof. unfold farith, a_ofZ. rewrite f2e_normalize. f_equal. unfold F2R; simpl. ring. Qed.

  Lemma f2e_opp (x : F) : f2e prec emax (Bopp x) = eopp (f2e prec emax x).
  Proof.
    destruct x as [s|[]| |s m e H]; simpl; try reflexivity.
    - f_equal; ring.
    - f_equal. rewrite <- F2R_Zopp. f_equal. destruct s; reflexivity.
  Qed.
  Lemma f2e_abs (x : F) : f2e prec emax (Babs x) = eabs (f2e prec emax x).
  Proof.
    destruct x as [s|[]| |s m e H]; simpl; try reflexivity.
    - rewrite Rabs_R0. reflexivity.
    - f_equal. rewrite <- F2R_Zabs. f_equal. destruct s; reflexivity.
  Qed.

  (** ** frnd *)
  Lemma rnd_le a b : a <= b -> rnd a <= rnd b.
  Proof. intros H. apply round_le; [typeclasses eauto|typeclasses eauto|exact H]. Qed.

  Lemma frnd_cases r :
    (frnd r = Fin (rnd r) /\ Rabs (rnd r) < bpow radix2 emax) \/
    (frnd r = PInf /\ 0 < r /\ bpow radix2 emax <= rnd r) \/
    (frnd r = NInf /\ r < 0 /\ rnd r <= - bpow radix2 emax).
  Proof.
    unfold frnd. destruct (Rlt_bool_spec (Rabs (rnd r)) (bpow radix2 emax)) as [H|H]; [left; auto|right].
    assert (Hr : r <> 0). { apply ovf_nonzero. apply Rlt_bool_false. exact H. }
    destruct (Rlt_bool_spec r 0) as [Hr0|Hr0]; [right|left]; split; try reflexivity; (split; [lra|]).
    - assert (rnd r <= 0) by (rewrite <- rnd_0; apply rnd_le; lra).
      rewrite Rabs_left1 in H by assumption. lra.
    - assert (0 <= rnd r) by (rewrite <- rnd_0; apply rnd_le; lra).
      rewrite Rabs_right in H by lra. exact H.
  Qed.

  Lemma frnd_le a b : a <= b -> leb ecmp (frnd a) (frnd b) = true.
  Proof.
    intros H. pose proof (rnd_le _ _ H) as Hr. pose proof (bpow_gt_0 radix2 emax).
    destruct (frnd_cases a) as [(Ea & Ha)|[(Ea & Ha & Ha')|(Ea & Ha & Ha')]];
    destruct (frnd_cases b) as [(Eb & Hb)|[(Eb & Hb & Hb')|(Eb & Hb & Hb')]];
    rewrite Ea, Eb; try reflexivity.
    - apply leb_Fin. exact Hr.
    - exfalso. apply Rabs_def2 in Ha. lra.
    - exfalso. apply Rabs_def2 in Hb. lra.
    - exfalso. lra.
  Qed.

  Lemma frnd_nonan r : frnd r <> ENaN.
  Proof. destruct (frnd_cases r) as [(E & _)|[(E & _)|(E & _)]]; rewrite E; discriminate. Qed.

  Lemma rnd_generic r : generic_format radix2 fexp r -> rnd r = r.
  Proof. intros H. apply round_generic; [typeclasses eauto|exact H]. Qed.

  Lemma rnd_B2R (x : F) : rnd (B2R x) = B2R x.
  Proof. apply rnd_generic. apply generic_format_B2R. Qed.

  Lemma frnd_B2R (x : F) : frnd (B2R x) = Fin (B2R x).
  Proof.
    unfold frnd. rewrite rnd_B2R. rewrite Rlt_bool_true; [reflexivity|]. apply abs_B2R_lt_emax.
  Qed.

  (** a bound that is itself representable bounds the rounded value *)
  Lemma frnd_le_B2R r (x : F) : is_finite x = true -> r <= B2R x -> leb ecmp (frnd r) (f2e prec emax x) = true.
  Proof. intros Fx H. rewrite f2e_finite by exact Fx. rewrite <- frnd_B2R. apply frnd_le. exact H. Qed.
  Lemma frnd_ge_B2R r (x : F) : is_finite x = true -> B2R x <= r -> leb ecmp (f2e prec emax x) (frnd r) = true.
  Proof. intros Fx H. rewrite f2e_finite by exact Fx. rewrite <- frnd_B2R. apply frnd_le. exact H. Qed.

  (** finiteness from a magnitude bound by a power of two *)
  Lemma generic_bpow e : (3 - emax - prec <= e)%Z -> generic_format radix2 fexp (bpow radix2 e).
  Proof.
    intros H. apply generic_format_bpow. unfold SpecFloat.fexp, SpecFloat.emin.
    unfold Prec_gt_0 in Hp. unfold Prec_lt_emax in He. lia.
  Qed.

  Lemma frnd_small r e : (3 - emax - prec <= e < emax)%Z -> Rabs r <= bpow radix2 e ->
    frnd r = Fin (rnd r) /\ Rabs (rnd r) <= bpow radix2 e.
  Proof.
    intros Hee Hr. assert (Hb : Rabs (rnd r) <= bpow radix2 e).
    { apply abs_round_le_generic; [typeclasses eauto|typeclasses eauto|apply generic_bpow; lia|exact Hr]. }
    split; [|exact Hb]. unfold frnd. rewrite Rlt_bool_true; [reflexivity|].
    eapply Rle_lt_trans; [exact Hb|]. apply bpow_lt. lia.
  Qed.

  Lemma f2e_fin_finite (x : F) r : f2e prec emax x = Fin r -> is_finite x = true /\ B2R x = r.
  Proof.
    destruct x as [s|[]| |s m e H]; cbn [f2e]; intros E; try discriminate; injection E as <-; split; reflexivity.
  Qed.

  Lemma f2e_nan (x : F) : f2e prec emax x = ENaN <-> is_nan x = true.
  Proof. destruct x as [s|[]| |s m e H]; simpl; split; intros; congruence. Qed.

  Lemma ltb_f (x y : F) : ltb (@Bcompare prec emax) x y = ltb ecmp (f2e _ _ x) (f2e _ _ y).
  Proof. unfold ltb. rewrite Bcompare_f2e. reflexivity. Qed.
  Lemma leb_f (x y : F) : leb (@Bcompare prec emax) x y = leb ecmp (f2e _ _ x) (f2e _ _ y).
  Proof. unfold leb. rewrite Bcompare_f2e. reflexivity. Qed.
  Lemma gtb_f (x y : F) : gtb (@Bcompare prec emax) x y = gtb ecmp (f2e _ _ x) (f2e _ _ y).
  Proof. unfold gtb. rewrite Bcompare_f2e. reflexivity. Qed.
  Lemma geb_f (x y : F) : geb (@Bcompare prec emax) x y = geb ecmp (f2e _ _ x) (f2e _ _ y).
  Proof. unfold geb. rewrite Bcompare_f2e. reflexivity. Qed.
  Lemma eqb_f (x y : F) : eqb (@Bcompare prec emax) x y = eqb ecmp (f2e _ _ x) (f2e _ _ y).
  Proof. unfold eqb. rewrite Bcompare_f2e. reflexivity. Qed.
End F.

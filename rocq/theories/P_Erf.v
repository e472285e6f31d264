(** * P_Erf: the error function; the Gaussian integral; comparison with solutions of the differential equation *)
From Coq Require Import Reals Lra Lia Psatz.
From Coquelicot Require Import Coquelicot.
Open Scope R_scope.

Definition gauss (s : R) : R := exp (- (s * s)).
Lemma gauss_pos s : 0 < gauss s. Proof. apply exp_pos. Qed.
Lemma gauss_cont s : continuous gauss s.
Proof. unfold gauss. apply (ex_derive_continuous (V:=R_NormedModule)). auto_derive; auto. Qed.
Lemma gauss_RInt a b : is_RInt gauss a b (RInt gauss a b).
Proof. apply (@RInt_correct R_CompleteNormedModule). apply (ex_RInt_continuous (V:=R_CompleteNormedModule)). intros. apply gauss_cont. Qed.
Definition Efun (x : R) : R := RInt gauss 0 x.
Lemma Efun_derive x : is_derive Efun x (gauss x).
Proof.
  apply (is_derive_RInt (V:=R_NormedModule) gauss Efun 0 x).
  - apply filter_forall. intros y. apply gauss_RInt.
  - apply gauss_cont.
Qed.
Lemma Efun_0 : Efun 0 = 0.
Proof. unfold Efun. rewrite RInt_point. reflexivity. Qed.

(** ** the Gaussian integral *)
Definition gk (x t : R) : R := exp (- (x * x) * (1 + t * t)) / (1 + t * t).
Definition Gfun (x : R) : R := RInt (gk x) 0 1.
Lemma gk_pos x t : 0 < gk x t.
Proof. unfold gk. apply Rdiv_lt_0_compat; [apply exp_pos|nra]. Qed.
Lemma gk_cont x t : continuous (gk x) t.
Proof. unfold gk. apply (ex_derive_continuous (V:=R_NormedModule)). auto_derive. nra. Qed.
Lemma gk_ex x : ex_RInt (gk x) 0 1.
Proof. apply (ex_RInt_continuous (V:=R_CompleteNormedModule)). intros. apply gk_cont. Qed.
Lemma gk_derive x t : is_derive (fun u => gk u t) x (- 2 * x * exp (- (x * x) * (1 + t * t))).
Proof. unfold gk. auto_derive; [auto|]. field. nra. Qed.
Lemma Gfun_derive x : is_derive Gfun x (RInt (fun t => - 2 * x * exp (- (x * x) * (1 + t * t))) 0 1).
Proof.
  unfold Gfun.
  rewrite <- (RInt_ext (fun t => Derive (fun u => gk u t) x)).
  2: { intros t _. apply is_derive_unique, gk_derive. }
  apply is_derive_RInt_param.
  - apply filter_forall. intros u t _. eexists. apply gk_derive.
  - intros t _.
    apply continuity_2d_pt_ext with (f := fun u v => (- 2 * u) * exp (- (u * u) * (1 + v * v))).
    { intros u v. symmetry. apply is_derive_unique, gk_derive. }
    apply continuity_2d_pt_mult.
    + apply continuity_2d_pt_mult; [apply continuity_2d_pt_const|apply continuity_2d_pt_id1].
    + apply (continuity_1d_2d_pt_comp exp (fun u v => - (u * u) * (1 + v * v))).
      * apply derivable_continuous_pt, derivable_pt_exp.
      * apply continuity_2d_pt_mult.
        -- apply continuity_2d_pt_opp, continuity_2d_pt_mult; apply continuity_2d_pt_id1.
        -- apply continuity_2d_pt_plus; [apply continuity_2d_pt_const|]. apply continuity_2d_pt_mult; apply continuity_2d_pt_id2.
  - apply filter_forall. intros u. apply gk_ex.
Qed.
Lemma Gfun_derive2 x : RInt (fun t => - 2 * x * exp (- (x * x) * (1 + t * t))) 0 1 = - 2 * gauss x * Efun x.
Proof.
  assert (H : RInt (fun t => x * gauss (x * t + 0)) 0 1 = Efun x).
  { unfold Efun. apply is_RInt_unique.
    apply (is_RInt_comp_lin (V:=R_NormedModule) gauss x 0 0 1).
    replace (x * 0 + 0) with 0 by ring. replace (x * 1 + 0) with x by ring. apply gauss_RInt. }
  rewrite <- H. change (- 2 * gauss x * RInt (fun t => x * gauss (x * t + 0)) 0 1) with (scal (- 2 * gauss x) (RInt (fun t => x * gauss (x * t + 0)) 0 1)).
  rewrite <- (RInt_scal (V:=R_CompleteNormedModule)).
  2: { apply (ex_RInt_continuous (V:=R_CompleteNormedModule)). intros. apply (ex_derive_continuous (V:=R_NormedModule)).
       unfold gauss. auto_derive; auto. }
  apply RInt_ext. intros t _. unfold gauss, scal; simpl. unfold mult; simpl.
  replace (- (x * x) * (1 + t * t)) with (- (x * x) + - ((x * t + 0) * (x * t + 0))) by ring. rewrite exp_plus. ring.
Qed.
Lemma gauss_sum x : Efun x * Efun x + Gfun x = PI / 4.
Proof.
  assert (D : forall u, is_derive (fun x => Efun x * Efun x + Gfun x) u 0).
  { intros u. replace 0 with ((gauss u * Efun u + Efun u * gauss u) + (- 2 * gauss u * Efun u)) by ring.
    apply (is_derive_plus (V:=R_NormedModule) (fun x => Efun x * Efun x) Gfun).
    - apply (is_derive_mult Efun Efun u (gauss u) (gauss u)); try apply Efun_derive. intros; apply Rmult_comm.
    - rewrite <- Gfun_derive2. apply Gfun_derive. }
  assert (E : Efun x * Efun x + Gfun x = Efun 0 * Efun 0 + Gfun 0).
  { destruct (MVT_gen (fun x => Efun x * Efun x + Gfun x) 0 x (fun _ => 0)) as [c [_ C]].
    - intros; apply D.
    - intros u _. apply continuity_pt_filterlim. apply (ex_derive_continuous (V:=R_NormedModule) (fun x => Efun x * Efun x + Gfun x)). exists 0. exact (D u).
    - simpl in C. lra. }
  rewrite E, Efun_0.
  assert (H : Gfun 0 = atan 1 - atan 0).
  { unfold Gfun. apply is_RInt_unique.
    apply (is_RInt_ext (fun t => / (1 + t ^ 2))).
    { intros t _. unfold gk. replace (- (0 * 0) * (1 + t * t)) with 0 by ring. rewrite exp_0. unfold Rdiv. rewrite Rmult_1_l. f_equal. ring. }
    apply (is_RInt_derive (V:=R_CompleteNormedModule) atan (fun t => / (1 + t ^ 2))).
    - intros t _. apply is_derive_Reals. apply derivable_pt_lim_atan.
    - intros t _. apply (ex_derive_continuous (V:=R_NormedModule)). auto_derive. nra. }
  rewrite H, atan_0, atan_1. lra.
Qed.
Lemma Gfun_bounds x : 0 <= Gfun x <= gauss x.
Proof.
  unfold Gfun. split.
  - apply RInt_ge_0; [lra|apply gk_ex|]. intros; left; apply gk_pos.
  - replace (gauss x) with (RInt (fun _ => gauss x) 0 1) by (rewrite RInt_const; unfold scal; simpl; unfold mult; simpl; ring).
    apply RInt_le; [lra|apply gk_ex|apply ex_RInt_const|].
    intros t Ht. unfold gk, gauss.
    apply (Rmult_le_reg_r (1 + t * t)); [nra|]. unfold Rdiv. rewrite Rmult_assoc, Rinv_l, Rmult_1_r by nra.
    apply Rle_trans with (exp (- (x * x))).
    + destruct (Req_dec x 0) as [->|N]. { right. f_equal. ring. }
      destruct (Req_dec t 0) as [->|N']. { right. f_equal. ring. }
      left. apply exp_increasing. assert (0 < x * x) by (apply Rsqr_pos_lt in N; exact N). assert (0 < t * t) by (apply Rsqr_pos_lt in N'; exact N'). nra.
    + pose proof (exp_pos (- (x * x))). nra.
Qed.

(** ** erfc *)
Definition B : R := / sqrt PI.
Lemma sqrtPI_pos : 0 < sqrt PI. Proof. apply sqrt_lt_R0, PI_RGT_0. Qed.
Lemma B_pos : 0 < B. Proof. apply Rinv_0_lt_compat, sqrtPI_pos. Qed.
Lemma B_sq : B * B * PI = 1.
Proof. unfold B. rewrite <- (sqrt_sqrt PI) at 3 by (left; apply PI_RGT_0). pose proof sqrtPI_pos. field. lra. Qed.
Definition erfcR (x : R) : R := 1 - 2 * B * Efun x.
Definition vanishes (h : R -> R) : Prop := forall eps, 0 < eps -> exists N, forall x, N < x -> Rabs (h x) < eps.
Lemma Efun_pos x : 0 < x -> 0 < Efun x.
Proof.
  intros H. destruct (MVT_cor2 Efun gauss 0 x H) as (c & E & _).
  { intros c _. apply is_derive_Reals, Efun_derive. }
  rewrite Efun_0 in E. pose proof (gauss_pos c). nra.
Qed.
Lemma gauss_small x : 1 < x -> gauss x <= / x.
Proof.
  intros H. unfold gauss. rewrite exp_Ropp. apply Rinv_le_contravar; [lra|].
  pose proof (exp_ineq1_le (x * x)). nra.
Qed.
Lemma vanishes_inv h c : 0 <= c -> (forall x, 1 < x -> Rabs (h x) <= c / x) -> vanishes h.
Proof.
  intros Hc H eps He. exists (Rmax 1 (c / eps)). intros x Hx.
  pose proof (Rmax_l 1 (c / eps)). pose proof (Rmax_r 1 (c / eps)).
  eapply Rle_lt_trans; [apply H; lra|].
  apply (Rmult_lt_reg_r x); [lra|]. unfold Rdiv. rewrite Rmult_assoc, Rinv_l, Rmult_1_r by lra.
  apply Rlt_le_trans with (eps * (c / eps) + eps * (x - c / eps)); [|right; ring].
  replace (eps * (c / eps)) with c by (field; lra).
  assert (0 < eps * (x - c / eps)) by (apply Rmult_lt_0_compat; lra). lra.
Qed.
Lemma erfcR_vanishes : vanishes erfcR.
Proof.
  apply (vanishes_inv _ 2 ltac:(lra)). intros x Hx. unfold erfcR.
  pose proof (gauss_sum x) as S. pose proof (Gfun_bounds x) as G. pose proof (gauss_small x Hx) as GS.
  pose proof (Efun_pos x ltac:(lra)) as EP. pose proof B_pos as BP. pose proof B_sq as BS.
  assert (Q : (1 - 2 * B * Efun x) * (1 + 2 * B * Efun x) = 4 * B * B * Gfun x).
  { replace ((1 - 2 * B * Efun x) * (1 + 2 * B * Efun x)) with (1 - 4 * B * B * (Efun x * Efun x)) by ring.
    replace (Efun x * Efun x) with (PI / 4 - Gfun x) by lra.
    replace (1 - 4 * B * B * (PI / 4 - Gfun x)) with (1 - B * B * PI + 4 * B * B * Gfun x) by field. lra. }
  assert (B2 : 4 * B * B <= 2).
  { assert (2 <= PI) by (pose proof PI2_1; lra). nra. }
  assert (U : 0 < 2 * B * Efun x) by nra.
  assert (V : 0 <= 4 * B * B * Gfun x <= 2 * / x).
  { split; [apply Rmult_le_pos; nra|]. apply Rle_trans with (2 * Gfun x); [apply Rmult_le_compat_r; lra|lra]. }
  set (u := 2 * B * Efun x) in *.
  assert (0 <= 1 - u) by nra.
  rewrite Rabs_right by lra. unfold Rdiv. nra.
Qed.
Lemma erfcR_derive x : is_derive erfcR x (- (2 * B) * gauss x).
Proof.
  unfold erfcR. replace (- (2 * B) * gauss x) with (0 - 2 * B * gauss x) by ring.
  apply (is_derive_minus (V:=R_NormedModule) (fun _ => 1)).
  - apply @is_derive_const.
  - apply (is_derive_scal Efun x (2 * B)). apply Efun_derive.
Qed.

(** a function that grows up to its limit 0 is nonpositive *)
Lemma grows_to_0 (h h' : R -> R) a : (forall x, a <= x -> is_derive h x (h' x)) -> (forall x, a <= x -> 0 <= h' x) ->
  vanishes h -> h a <= 0.
Proof.
  intros D P V. apply le_epsilon. intros eps He. destruct (V eps He) as [N HN].
  set (b := Rmax (N + 1) (a + 1)). assert (N < b) by (pose proof (Rmax_l (N + 1) (a + 1)); unfold b; lra).
  assert (Hb : a < b) by (pose proof (Rmax_r (N + 1) (a + 1)); unfold b; lra).
  specialize (HN b H). apply Rabs_def2 in HN.
  destruct (MVT_cor2 h h' a b Hb) as (c & E & Hc).
  { intros c Hc. apply is_derive_Reals, D. lra. }
  specialize (P c ltac:(lra)). nra.
Qed.
Lemma erfcR_pos x : 0 < erfcR x.
Proof.
  assert (W : forall x, 0 <= erfcR x).
  { intros y. assert (- erfcR y <= 0); [|lra].
    apply (grows_to_0 (fun x => - erfcR x) (fun x => 2 * B * gauss x)).
    - intros u _. replace (2 * B * gauss u) with (- (- (2 * B) * gauss u)) by ring.
      apply (is_derive_opp (V:=R_NormedModule) erfcR). apply erfcR_derive.
    - intros u _. pose proof B_pos. pose proof (gauss_pos u). nra.
    - intros eps He. destruct (erfcR_vanishes eps He) as [N HN]. exists N. intros u Hu. rewrite Rabs_Ropp. auto. }
  destruct (MVT_cor2 erfcR (fun x => - (2 * B) * gauss x) x (x + 1) ltac:(lra)) as (c & E & Hc).
  { intros c _. apply is_derive_Reals, erfcR_derive. }
  pose proof (W (x + 1)). pose proof B_pos. pose proof (gauss_pos c). nra.
Qed.
Lemma erfcR_decr x y : x <= y -> erfcR y <= erfcR x.
Proof.
  intros [H| ->]; [|lra]. destruct (MVT_cor2 erfcR (fun x => - (2 * B) * gauss x) x y H) as (c & E & Hc).
  { intros c _. apply is_derive_Reals, erfcR_derive. }
  pose proof B_pos. pose proof (gauss_pos c). assert (0 < B * gauss c * (y - x)) by (repeat apply Rmult_lt_0_compat; lra). nra.
Qed.
Lemma Efun_odd x : Efun (- x) = - Efun x.
Proof.
  assert (H : forall u, is_derive (fun x => Efun (- x) + Efun x) u 0).
  { intros u. replace 0 with (- gauss u + gauss u) by ring.
    apply (is_derive_plus (V:=R_NormedModule) (fun x => Efun (- x)) Efun); [|apply Efun_derive].
    replace (- gauss u) with (-1 * gauss (- u)) by (unfold gauss; replace (- u * - u) with (u * u) by ring; ring).
    apply (is_derive_comp (V:=R_NormedModule) Efun Ropp); [apply Efun_derive|]. auto_derive; [auto|ring]. }
  destruct (MVT_gen (fun x => Efun (- x) + Efun x) 0 x (fun _ => 0)) as [c [_ C]].
  - intros; apply H.
  - intros u _. apply continuity_pt_filterlim. apply (ex_derive_continuous (V:=R_NormedModule) (fun x => Efun (- x) + Efun x)). exists 0. exact (H u).
  - simpl in C. rewrite Ropp_0, Efun_0 in C. lra.
Qed.
Lemma erfcR_reflect x : erfcR (- x) = 2 - erfcR x.
Proof. unfold erfcR. rewrite Efun_odd. ring. Qed.
Lemma erfcR_0 : erfcR 0 = 1.
Proof. unfold erfcR. rewrite Efun_0. ring. Qed.

(** ** erfcx *)
Definition erfcxR (x : R) : R := exp (x * x) * erfcR x.
Lemma erfcxR_pos x : 0 < erfcxR x.
Proof. apply Rmult_lt_0_compat; [apply exp_pos|apply erfcR_pos]. Qed.
Lemma exp_gauss x : exp (x * x) * gauss x = 1.
Proof. unfold gauss. rewrite <- exp_plus, Rplus_opp_r. apply exp_0. Qed.
Lemma erfcxR_derive x : is_derive erfcxR x (2 * x * erfcxR x - 2 * B).
Proof.
  unfold erfcxR. replace (2 * x * (exp (x * x) * erfcR x) - 2 * B) with ((2 * x * exp (x * x)) * erfcR x + exp (x * x) * (- (2 * B) * gauss x)).
  2: { replace (exp (x * x) * (- (2 * B) * gauss x)) with (- (2 * B) * (exp (x * x) * gauss x)) by ring. rewrite exp_gauss. ring. }

  apply (is_derive_mult (fun x => exp (x * x)) erfcR x); [|apply erfcR_derive|intros; apply Rmult_comm].
  auto_derive; auto. ring.
Qed.
Lemma erfcxR_reflect x : erfcxR (- x) = 2 * exp (x * x) - erfcxR x.
Proof. unfold erfcxR. rewrite erfcR_reflect. replace (- x * - x) with (x * x) by ring. ring. Qed.
Lemma erfcxR_0 : erfcxR 0 = 1.
Proof. unfold erfcxR. rewrite erfcR_0, Rmult_0_l, exp_0. ring. Qed.

(** g solves g' = 2 x g - 2 B + r on [a, oo) with s*r between 0 and rho * 2 B: then g is close to erfcx *)
Section Compare.
  Variables (g g' : R -> R).
  Definition resid (x : R) : R := g' x - 2 * x * g x + 2 * B.
  Lemma gg_derive x : is_derive g x (g' x) -> is_derive (fun x => gauss x * g x) x (gauss x * (resid x - 2 * B)).
  Proof.
    intros D. replace (gauss x * (resid x - 2 * B)) with ((- (2 * x) * gauss x) * g x + gauss x * g' x) by (unfold resid; ring).
    apply (is_derive_mult gauss g x); [|exact D|intros; apply Rmult_comm].
    unfold gauss. auto_derive; auto. ring.
  Qed.
  Lemma above a rho : (forall x, a <= x -> is_derive g x (g' x)) -> vanishes (fun x => gauss x * g x) ->
    (forall x, a <= x -> - rho * (2 * B) <= resid x) -> 0 <= rho -> g a <= (1 + rho) * erfcxR a.
  Proof.
    intros D V P Hr.
    assert (H : gauss a * g a - (1 + rho) * erfcR a <= 0).
    { apply (grows_to_0 (fun x => gauss x * g x - (1 + rho) * erfcR x) (fun x => gauss x * (resid x - 2 * B) - (1 + rho) * (- (2 * B) * gauss x))).
      - intros x Hx. apply (is_derive_minus (V:=R_NormedModule) (fun x => gauss x * g x)); [apply gg_derive; auto|].
        apply (is_derive_scal erfcR). apply erfcR_derive.
      - intros x Hx. specialize (P x Hx). pose proof (gauss_pos x).
        replace (gauss x * (resid x - 2 * B) - (1 + rho) * (- (2 * B) * gauss x)) with (gauss x * (resid x + rho * (2 * B))) by ring.
        apply Rmult_le_pos; lra.
      - intros eps He. destruct (V (eps / 2) ltac:(lra)) as [N HN].
        destruct (erfcR_vanishes (eps / 2 / (1 + rho)) ltac:(apply Rdiv_lt_0_compat; lra)) as [N' HN'].
        exists (Rmax N N'). intros x Hx. pose proof (Rmax_l N N'). pose proof (Rmax_r N N').
        specialize (HN x ltac:(lra)). specialize (HN' x ltac:(lra)).
        apply Rabs_def2 in HN. apply Rabs_def2 in HN'.
        assert (E : (1 + rho) * (eps / 2 / (1 + rho)) = eps / 2) by (field; lra).
        apply Rabs_def1; nra. }
    assert (E := exp_gauss a). pose proof (exp_pos (a * a)). unfold erfcxR.
    replace (g a) with (exp (a * a) * (gauss a * g a)) by (rewrite <- Rmult_assoc, E; ring). nra.
  Qed.
  Lemma below a rho : (forall x, a <= x -> is_derive g x (g' x)) -> vanishes (fun x => gauss x * g x) ->
    (forall x, a <= x -> resid x <= rho * (2 * B)) -> 0 <= rho <= 1 -> (1 - rho) * erfcxR a <= g a.
  Proof.
    intros D V P Hr.
    assert (H : (1 - rho) * erfcR a - gauss a * g a <= 0).
    { apply (grows_to_0 (fun x => (1 - rho) * erfcR x - gauss x * g x) (fun x => (1 - rho) * (- (2 * B) * gauss x) - gauss x * (resid x - 2 * B))).
      - intros x Hx. apply (is_derive_minus (V:=R_NormedModule) (fun x => (1 - rho) * erfcR x)); [|apply gg_derive; auto].
        apply (is_derive_scal erfcR). apply erfcR_derive.
      - intros x Hx. specialize (P x Hx). pose proof (gauss_pos x).
        replace ((1 - rho) * (- (2 * B) * gauss x) - gauss x * (resid x - 2 * B)) with (gauss x * (rho * (2 * B) - resid x)) by ring.
        apply Rmult_le_pos; lra.
      - intros eps He. destruct (V (eps / 2) ltac:(lra)) as [N HN].
        destruct (erfcR_vanishes (eps / 2) ltac:(lra)) as [N' HN'].
        exists (Rmax N N'). intros x Hx. pose proof (Rmax_l N N'). pose proof (Rmax_r N N').
        specialize (HN x ltac:(lra)). specialize (HN' x ltac:(lra)).
        apply Rabs_def2 in HN. pose proof (erfcR_pos x) as W. rewrite Rabs_right in HN' by lra.
        apply Rabs_def1; nra. }
    assert (E := exp_gauss a). pose proof (exp_pos (a * a)). unfold erfcxR.
    replace (g a) with (exp (a * a) * (gauss a * g a)) by (rewrite <- Rmult_assoc, E; ring). nra.
  Qed.
  (** on an interval: a relative error of at most d at the right end stays one *)
  Lemma inward x1 x2 d : x1 <= x2 -> (forall x, x1 <= x <= x2 -> is_derive g x (g' x)) ->
    (forall x, x1 <= x <= x2 -> Rabs (resid x) <= d * (2 * B)) ->
    Rabs (g x2 - erfcxR x2) <= d * erfcxR x2 -> Rabs (g x1 - erfcxR x1) <= d * erfcxR x1.
  Proof.
    intros [H12| ->] D P E2; [|exact E2].
    assert (K : forall s, s = 1 \/ s = -1 -> s * (gauss x2 * g x2 - erfcR x2) <= d * erfcR x2 -> s * (gauss x1 * g x1 - erfcR x1) <= d * erfcR x1).
    { intros s Hs K2.
      destruct (MVT_cor2 (fun x => s * (gauss x * g x - erfcR x) - d * erfcR x)
                  (fun x => s * (gauss x * (resid x - 2 * B) - (- (2 * B) * gauss x)) - d * (- (2 * B) * gauss x)) x1 x2 H12) as (c & E & Hc).
      { intros c Hc. apply is_derive_Reals.
        apply (is_derive_minus (V:=R_NormedModule) (fun x => s * (gauss x * g x - erfcR x))).
        - apply (is_derive_scal (fun x => gauss x * g x - erfcR x)).
          apply (is_derive_minus (V:=R_NormedModule) (fun x => gauss x * g x)); [apply gg_derive, D; lra|apply erfcR_derive].
        - apply (is_derive_scal erfcR), erfcR_derive. }
      specialize (P c ltac:(lra)). apply Rabs_le_between in P. pose proof (gauss_pos c).
      replace (s * (gauss c * (resid c - 2 * B) - - (2 * B) * gauss c) - d * (- (2 * B) * gauss c))
        with (gauss c * (s * resid c + d * (2 * B))) in E by ring.
      assert (0 <= gauss c * (s * resid c + d * (2 * B))).
      { apply Rmult_le_pos; [lra|]. destruct Hs; subst s; lra. }
      assert (0 <= gauss c * (s * resid c + d * (2 * B)) * (x2 - x1)) by (apply Rmult_le_pos; lra).
      lra. }
    assert (T : forall x, g x - erfcxR x = exp (x * x) * (gauss x * g x - erfcR x)).
    { intros x. unfold erfcxR. rewrite Rmult_minus_distr_l, <- Rmult_assoc, exp_gauss. ring. }
    rewrite T in E2 |- *. unfold erfcxR in *.
    rewrite Rabs_mult, (Rabs_right (exp (x2 * x2))) in E2 by (left; apply exp_pos).
    rewrite Rabs_mult, (Rabs_right (exp (x1 * x1))) by (left; apply exp_pos).
    pose proof (exp_pos (x1 * x1)). pose proof (exp_pos (x2 * x2)).
    assert (F2 : Rabs (gauss x2 * g x2 - erfcR x2) <= d * erfcR x2) by (apply (Rmult_le_reg_l (exp (x2 * x2))); lra).
    apply Rabs_le_between in F2.
    assert (F1 : Rabs (gauss x1 * g x1 - erfcR x1) <= d * erfcR x1).
    { apply Rabs_le_between. pose proof (K 1 ltac:(auto) ltac:(lra)). pose proof (K (-1) ltac:(auto) ltac:(lra)). lra. }
    nra.
  Qed.
End Compare.

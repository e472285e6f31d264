(** * P_Log1p: proofs about the log1p functions, exact arithmetic (C50) *)
From Coq Require Import ZArith Reals List Bool Lia Lra.
From Flocq Require Import Core.
From Verif Require Import CSem CSemP Num NumP M_Log1p S_Log1p.
Open Scope R_scope.

Lemma polar a b t : 0 < a -> t = atan (b / a) ->
  a = sqrt (a * a + b * b) * cos t /\ b = sqrt (a * a + b * b) * sin t.
Proof.
  intros Ha ->. rewrite cos_atan, sin_atan. unfold Rsqr.
  assert (H1 : 0 < 1 + b / a * (b / a)) by (pose proof (Rle_0_sqr (b / a)) as H; unfold Rsqr in H; lra).
  assert (E : sqrt (a * a + b * b) = a * sqrt (1 + b / a * (b / a))).
  { replace (a * a + b * b) with ((a * a) * (1 + b / a * (b / a))) by (field; lra).
    rewrite sqrt_mult_alt by nra. now rewrite sqrt_square by lra. }
  rewrite E. pose proof (sqrt_lt_R0 _ H1). split; field; repeat split; lra.
Qed.

Lemma atan2_polar a b : a <> 0 \/ b <> 0 ->
  exists t, eatan2 (Fin b) (Fin a) = Fin t /\ - PI < t <= PI /\
    a = sqrt (a * a + b * b) * cos t /\ b = sqrt (a * a + b * b) * sin t.
Proof.
  intros H. pose proof PI_RGT_0 as Pi. unfold eatan2.
  destruct (Rcompare_spec a 0) as [Ha|Ha|Ha].
  - pose proof (atan_bound (b / a)) as Hb. 
    assert (P : - a = sqrt (a * a + b * b) * cos (atan (b / a)) /\ - b = sqrt (a * a + b * b) * sin (atan (b / a))).
    { replace (a * a + b * b) with ((- a) * (- a) + (- b) * (- b)) by ring. apply polar; [lra|]. f_equal. field. lra. }
    destruct P as [P1 P2].
    assert (Neg : 0 <= b -> atan (b / a) <= 0).
    { intros Q. rewrite <- atan_0. destruct (Req_dec b 0) as [->|N]; [right; f_equal; field; lra|].
      left. apply atan_increasing. assert (0 < b / - a) by (apply Rdiv_lt_0_compat; lra). replace (b / a) with (- (b / - a)) by (field; lra). lra. }
    assert (Pos : b < 0 -> 0 < atan (b / a)).
    { intros Q. rewrite <- atan_0. apply atan_increasing. replace (b / a) with ((- b) / (- a)) by (field; lra). apply Rdiv_lt_0_compat; lra. }
    destruct (Rcompare_spec b 0) as [Hc|Hc|Hc]; (eexists; split; [reflexivity|]).
    + specialize (Pos Hc). split; [lra|]. rewrite cos_minus, sin_minus, cos_PI, sin_PI. split; lra.
    + specialize (Neg ltac:(lra)). split; [lra|]. rewrite neg_cos, neg_sin. split; lra.
    + specialize (Neg ltac:(lra)). split; [lra|]. rewrite neg_cos, neg_sin. split; lra.
  - subst a. replace (0 * 0 + b * b) with (Rsqr b) by (unfold Rsqr; ring). rewrite sqrt_Rsqr_abs.
    destruct (Rcompare_spec b 0) as [Hc|Hc|Hc].
    + eexists. split; [reflexivity|]. split; [lra|]. rewrite cos_neg, sin_neg, cos_PI2, sin_PI2, Rabs_left by lra. split; ring.
    + exfalso. lra.
    + eexists. split; [reflexivity|]. split; [lra|]. rewrite cos_PI2, sin_PI2, Rabs_right by lra. split; ring.
  - eexists. split; [reflexivity|]. pose proof (atan_bound (b / a)). split; [lra|]. now apply polar.
Qed.

Notation dd := (log1p_doubledouble earith elog elog1p ehypot eatan2).
Notation thm4 := (log1p_theorem4 earith eclog).

Lemma sum_exact x y : fst (two_sum earith (Fin x) (Fin y)) = Fin (x + y) /\ snd (two_sum earith (Fin x) (Fin y)) = Fin 0.
Proof. cbn. split; [reflexivity|]. unfold esub, eopp, eadd. f_equal. ring. Qed.

Lemma xsq_exact x y : xsquared_plus_2x_plus_ysquared earith (Fin x) (Fin y) = Fin (x * x + 2 * x + y * y).
Proof.
  unfold xsquared_plus_2x_plus_ysquared, square, split, double_sum, two_sum, two_sum_quick. cbn. f_equal. ring.
Qed.

Lemma half_ln a : 0 < a -> / 2 * ln a = ln (sqrt a).
Proof.
  intros Ha. assert (S : 0 < sqrt a) by now apply sqrt_lt_R0.
  rewrite <- (sqrt_sqrt a) at 1 by lra. rewrite ln_mult by assumption. field.
Qed.

(** both branches give the logarithm of the modulus *)
Lemma dd_real x y : x <> -1 \/ y <> 0 -> fst (dd (Fin x, Fin y)) = Fin (ln (sqrt ((1 + x) * (1 + x) + y * y))).
Proof.
  intros H. assert (P : 0 < (1 + x) * (1 + x) + y * y).
  { destruct H as [H|H]; [assert (1 + x <> 0) by lra|]; pose proof (Rle_0_sqr (1 + x)) as Q1; pose proof (Rle_0_sqr y) as Q2; unfold Rsqr in *.
    - assert (0 < Rsqr (1 + x)) by now apply Rsqr_pos_lt. unfold Rsqr in *. lra.
    - assert (0 < Rsqr y) by now apply Rsqr_pos_lt. unfold Rsqr in *. lra. }
  unfold log1p_doubledouble. cbn [fst].
  assert (B2 : elog (ehypot (a_add earith (Fin x) (a_ofZ earith 1)) (Fin y)) = Fin (ln (sqrt ((1 + x) * (1 + x) + y * y)))).
  { cbn. replace ((x + 1) * (x + 1) + y * y) with ((1 + x) * (1 + x) + y * y) by ring.
    rewrite Rcompare_Gt; [reflexivity|now apply sqrt_lt_R0]. }
  rewrite B2. match goal with |- (if ?c then _ else _) = _ => destruct c; [|reflexivity] end.
  match goal with |- (if ltb _ ?l ?r then _ else _) = _ => destruct (ltb (a_cmp earith) l r) eqn:E; [|reflexivity] end.
  rewrite xsq_exact. cbn [a_mul a_div a_ofZ a_abs a_add earith a_cmp] in *.
  rewrite ediv_Fin in E by lra. rewrite ediv_Fin by lra. cbn [emul eadd eabs] in E. apply ltb_Fin in E. apply Rabs_def2 in E.
  cbn [elog1p]. rewrite Rcompare_Gt by lra. cbn [emul]. f_equal.
  replace (1 + (x * x + 2 * x + y * y)) with ((1 + x) * (1 + x) + y * y) by ring.
  rewrite <- half_ln by exact P. lra.
Qed.

Theorem dd_exact x y : x <> -1 \/ y <> 0 ->
  exists re im, dd (Fin x, Fin y) = (Fin re, Fin im) /\ principal_log (1 + x) y re im.
Proof.
  intros H. destruct (atan2_polar (1 + x) y) as (t & E & Ht & P1 & P2); [destruct H; [left; lra|now right]|].
  pose proof (dd_real x y H) as R.
  assert (I : snd (dd (Fin x, Fin y)) = Fin t).
  { change (snd (dd (Fin x, Fin y))) with (eatan2 (Fin y) (Fin (x + 1))). now rewrite Rplus_comm. }
  rewrite (surjective_pairing (dd (Fin x, Fin y))), R, I.
  exists (ln (sqrt ((1 + x) * (1 + x) + y * y))), t. split; [reflexivity|].
  assert (S : 0 < sqrt ((1 + x) * (1 + x) + y * y)).
  { apply sqrt_lt_R0. destruct H as [H|H]; pose proof (Rle_0_sqr (1 + x)) as Q1; pose proof (Rle_0_sqr y) as Q2.
    - assert (0 < Rsqr (1 + x)) by (apply Rsqr_pos_lt; lra). unfold Rsqr in *. lra.
    - assert (0 < Rsqr y) by now apply Rsqr_pos_lt. unfold Rsqr in *. lra. }
  unfold principal_log. rewrite exp_ln by exact S. auto.
Qed.

Theorem dd_minus_one : fst (dd (Fin (-1), Fin 0)) = NInf.
Proof.
  unfold log1p_doubledouble. cbn [fst].
  assert (B2 : elog (ehypot (a_add earith (Fin (-1)) (a_ofZ earith 1)) (Fin 0)) = NInf).
  { cbn. replace ((-1 + 1) * (-1 + 1) + 0 * 0) with 0 by ring. rewrite sqrt_0. now rewrite Rcompare_Eq. }
  rewrite B2. match goal with |- (if ?c then _ else _) = _ => destruct c; [|reflexivity] end.
  match goal with |- (if ltb _ ?l ?r then _ else _) = _ => destruct (ltb (a_cmp earith) l r) eqn:E; [|reflexivity] end.
  exfalso. cbn [a_mul a_div a_ofZ a_abs a_add earith a_cmp] in E. rewrite ediv_Fin in E by lra.
  cbn [emul eadd eabs] in E. apply ltb_Fin in E. apply Rabs_def2 in E. lra.
Qed.

(** an infinite part gives real part +inf *)
Theorem dd_infinite x y : x <> ENaN -> y <> ENaN -> (eisinf x || eisinf y)%bool = true -> fst (dd (x, y)) = PInf.
Proof.
  intros Hx Hy H. unfold log1p_doubledouble. cbn [fst].
  assert (B2 : elog (ehypot (a_add earith x (a_ofZ earith 1)) y) = PInf).
  { destruct x, y; try discriminate; try contradiction; reflexivity. }
  rewrite B2. cbn [a_mul a_div a_ofZ a_abs a_add earith a_cmp].
  rewrite !ediv_Fin by lra.
  destruct x, y; try discriminate; try contradiction; cbn; rewrite ?andb_false_r; reflexivity.
Qed.

Theorem theorem4_exact cmul cdiv x y : x <> -1 \/ y <> 0 ->
  exists re im, thm4 cmul cdiv (Fin x, Fin y) = (Fin re, Fin im) /\ principal_log (1 + x) y re im.
Proof.
  intros H. destruct (atan2_polar (1 + x) y) as (t & E & Ht & P1 & P2); [destruct H; [left; lra|now right]|].
  unfold log1p_theorem4. cbn [fst snd a_add a_sub a_ofZ a_cmp earith eadd esub eopp].
  destruct (eqb ecmp (Fin (x + 1)) (Fin 1) && eqb ecmp (Fin y) (Fin 0))%bool eqn:C.
  - apply andb_prop in C. destruct C as [C1 C2]. apply eqb_Fin in C1, C2. assert (x = 0) by lra. subst x y.
    exists 0, 0. split; [reflexivity|]. unfold principal_log. rewrite exp_0, cos_0, sin_0. pose proof PI_RGT_0. lra.
  - replace (eqb ecmp (Fin (x + 1 + - (1))) (Fin x)) with true by (symmetry; apply eqb_Fin; ring).
    exists (ln (sqrt ((1 + x) * (1 + x) + y * y))), t.
    assert (S : 0 < sqrt ((1 + x) * (1 + x) + y * y)).
    { apply sqrt_lt_R0. destruct H as [H|H]; pose proof (Rle_0_sqr (1 + x)) as Q1; pose proof (Rle_0_sqr y) as Q2.
      - assert (0 < Rsqr (1 + x)) by (apply Rsqr_pos_lt; lra). unfold Rsqr in *. lra.
      - assert (0 < Rsqr y) by now apply Rsqr_pos_lt. unfold Rsqr in *. lra. }
    split; [|unfold principal_log; rewrite exp_ln by exact S; auto].
    unfold eclog. cbn [fst snd]. rewrite (Rplus_comm x 1), E. cbn [ehypot elog]. now rewrite Rcompare_Gt by exact S.
Qed.

(** the float version, with exact float and double arithmetic *)
Theorem ddf_exact x y : x <> -1 \/ y <> 0 ->
  log1pf_doubledouble earith earith (fun v => v) (fun v => v) elog elog1p elog ehypot eatan2 (Fin x, Fin y) = dd (Fin x, Fin y).
Proof.
  intros H. unfold log1pf_doubledouble, log1p_doubledouble. rewrite xsq_exact. unfold xsq_float. reflexivity.
Qed.

(** the loops *)
Lemma liter_map {T U} (f : T -> M U) (F : T -> U) po so (l : list T) : forall k (m : mem U),
  Forall (fun x => f x = Some (F x)) l ->
  (forall j, (j < length l)%nat -> m (po + (k + Z.of_nat j) * so)%Z <> None) ->
  liter k l (fun k x m => bind (f x) (fun y => set m po so k y)) m = Some (upds m po so k (map F l)).
Proof.
  induction l as [|x l IH]; intros k m Hf Hm; [reflexivity|]. inversion_clear Hf as [|? ? H1 H2].
  cbn [liter map upds]. rewrite H1. cbn [bind]. rewrite set_upd.
  2:{ specialize (Hm O). rewrite Z.add_0_r in Hm. apply Hm. cbn. lia. }
  cbn [bind]. rewrite IH; [reflexivity|exact H2|]. intros j Hj. specialize (Hm (S j)).
  replace (k + 1 + Z.of_nat j)%Z with (k + Z.of_nat (S j))%Z by lia.
  unfold upd. destruct (_ =? _)%Z; [discriminate|]. apply Hm. cbn. lia.
Qed.

Theorem unary_loop_writes {T U} (f : T -> M U) (F : T -> U) (m : mem T) p step pout ostep (out : mem U) l :
  view m p step l -> writable out pout ostep (length l) -> Forall (fun x => f x = Some (F x)) l ->
  writes (unary_loop f m p (Z.of_nat (length l)) step pout ostep out) out pout ostep (map F l).
Proof.
  intros V W Hf. unfold unary_loop.
  rewrite (for_each_view m p step l _ (fun k x o => bind (f x) (fun y => set o pout ostep k y))).
  2:exact V. 2:{ intros k s x Hk E. now rewrite E. }
  rewrite (liter_map f F); [|exact Hf|]. 2:{ intros j Hj. apply W. exact Hj. }
  apply writes_upds with (n := length l); [exact W|apply map_length].
Qed.

Theorem nan_loop {T} (A : arith T) (f : T * T -> T * T) (m : mem (T * T)) p step pout ostep (out : mem (T * T)) l :
  view m p step l -> writable out pout ostep (length l) ->
  writes (unary_loop (fun z => ret (nan_guard A f z)) m p (Z.of_nat (length l)) step pout ostep out) out pout ostep
    (map (fun z => if isnanb (a_cmp A) (fst z) || isnanb (a_cmp A) (snd z) then (a_nan A, a_nan A) else f z) l).
Proof.
  intros V W. apply unary_loop_writes; [exact V|exact W|]. apply Forall_forall. reflexivity.
Qed.

(** * P_Expint: accuracy of expint1 and logexpint1 in exact arithmetic (C51) *)
From Coq Require Import ZArith Reals List Bool Lia Lra.
From Coquelicot Require Import Coquelicot.
From Flocq Require Raux Core.
From Verif Require Import CSem Num NumP M_Special S_Special P_LogFact.
Import ListNotations.
Open Scope R_scope.

(** ** the integrand and bounds by antiderivatives *)
Definition fE (t : R) : R := exp (- t) / t.
Lemma fE_cont t : 0 < t -> continuous fE t.
Proof. intros H. apply (ex_derive_continuous (K := R_AbsRing) (V := R_NormedModule)). unfold fE. auto_derive. lra. Qed.
Lemma fE_RInt x b : 0 < x -> 0 < b -> is_RInt fE x b (RInt fE x b).
Proof.
  intros Hx Hb. apply (RInt_correct (V := R_CompleteNormedModule)), (ex_RInt_continuous (V := R_CompleteNormedModule)).
  intros z Hz. apply fE_cont. destruct (Rle_dec x b); [rewrite Rmin_left in Hz|rewrite Rmin_right in Hz]; lra.
Qed.
Lemma fE_RInt_derive x b : 0 < x -> 0 < b -> is_derive (RInt fE x) b (fE b).
Proof.
  intros Hx Hb. apply (is_derive_RInt fE (RInt fE x) x b); [|now apply fE_cont].
  exists (mkposreal b Hb). intros y Hy. apply fE_RInt; [exact Hx|].
  cbn in Hy. unfold ball in Hy. cbn in Hy. unfold AbsRing_ball, abs, minus, plus, opp in Hy. cbn in Hy. apply Rabs_def2 in Hy. lra.
Qed.
Lemma anti_bound s (F F' : R -> R) x b : 0 < x <= b -> (forall t, x <= t -> is_derive F t (F' t)) ->
  (forall t, x <= t -> 0 <= s * (- F' t - fE t)) -> 0 <= s * (F x - F b - RInt fE x b).
Proof.
  intros [Hx Hb] D P. destruct Hb as [Hb|<-].
  2:{ rewrite RInt_point. change (@zero R_CompleteNormedModule) with 0. replace (F x - F x - 0) with 0 by ring. lra. }
  destruct (MVT_cor2 (fun b => F x - F b - RInt fE x b) (fun b => - F' b - fE b) x b Hb) as (c & E & Hc).
  { intros c Hc. apply is_derive_Reals.
    assert (D1 := D c ltac:(lra)). assert (D2 := fE_RInt_derive x c Hx ltac:(lra)).
    apply (is_derive_minus (fun b => F x - F b) (fun b => RInt fE x b) c (- F' c) (fE c)); [|exact D2].
    replace (- F' c) with (0 - F' c) by ring. apply (is_derive_minus (fun _ => F x) F c 0 (F' c)); [apply @is_derive_const|exact D1]. }
  rewrite RInt_point in E. change (@zero R_CompleteNormedModule) with 0 in E.
  replace (F x - F b - RInt fE x b) with ((- F' c - fE c) * (b - x)) by lra.
  assert (H := P c ltac:(lra)). rewrite <- Rmult_assoc. apply Rmult_le_pos; lra.
Qed.

(** E1 from the integrals over [x, b] *)
Lemma E1_lim x v : is_E1 x v -> 0 < x -> forall eps, 0 < eps -> exists M, forall b, M < b -> Rabs (RInt fE x b - v) < eps.
Proof.
  intros H Hx eps He. unfold is_E1, is_RInt_gen, filterlimi, filter_le, filtermapi in H.
  destruct (H (ball v eps) (locally_ball v (mkposreal eps He))) as [Q R' HQ HR HH].
  destruct HR as [M HM]. exists (Rmax M 0). intros b Hb.
  assert (Q x) by exact HQ.
  destruct (HH x b H0 (HM b ltac:(eapply Rle_lt_trans; [apply Rmax_l|exact Hb]))) as (y & Y1 & Y2). cbn in Y1.
  assert (0 < b) by (eapply Rle_lt_trans; [apply Rmax_r|exact Hb]).
  assert (E : RInt fE x b = y) by (apply is_RInt_unique; exact Y1). rewrite E. exact Y2.
Qed.
Lemma E1_upper x v (F F' : R -> R) : is_E1 x v -> 0 < x -> (forall t, x <= t -> is_derive F t (F' t)) ->
  (forall t, x <= t -> F' t <= - fE t) -> (forall t, x <= t -> 0 <= F t) -> v <= F x.
Proof.
  intros H Hx D P N. apply le_epsilon. intros eps He. destruct (E1_lim x v H Hx eps He) as [M HM].
  set (b := Rmax (M + 1) x). assert (Hb : x <= b) by apply Rmax_r. assert (M < b) by (pose proof (Rmax_l (M + 1) x); unfold b; lra).
  specialize (HM b H0). apply Rabs_def2 in HM.
  pose proof (anti_bound 1 F F' x b ltac:(lra) D ltac:(intros t Ht; specialize (P t Ht); lra)). specialize (N b Hb). lra.
Qed.
Lemma exp_neg_small t : 0 < t -> exp (- t) <= / t.
Proof. intros H. rewrite exp_Ropp. apply Rinv_le_contravar; [lra|]. pose proof (exp_ineq1_le t). lra. Qed.
Lemma E1_lower x v (F F' : R -> R) : is_E1 x v -> 0 < x -> (forall t, x <= t -> is_derive F t (F' t)) ->
  (forall t, x <= t -> - fE t <= F' t) -> (forall t, x <= t -> F t <= exp (- t) / t) -> F x <= v.
Proof.
  intros H Hx D P N. apply le_epsilon. intros eps He. destruct (E1_lim x v H Hx (eps / 2) ltac:(lra)) as [M HM].
  set (b := Rmax (Rmax (M + 1) x) (Rmax 1 (2 / eps))).
  assert (Hb : x <= b) by (eapply Rle_trans; [|apply Rmax_l]; apply Rmax_r).
  assert (M < b) by (assert (M + 1 <= b) by (eapply Rle_trans; [|apply Rmax_l]; apply Rmax_l); lra).
  assert (H1 : 1 <= b) by (eapply Rle_trans; [|apply Rmax_r]; apply Rmax_l).
  assert (H2 : 2 / eps <= b) by (eapply Rle_trans; [|apply Rmax_r]; apply Rmax_r).
  specialize (HM b H0). apply Rabs_def2 in HM.
  pose proof (anti_bound (-1) F F' x b ltac:(lra) D ltac:(intros t Ht; specialize (P t Ht); lra)). specialize (N b Hb).
  assert (exp (- b) / b <= eps / 2).
  { apply Rle_trans with (/ b / 1).
    - unfold Rdiv. apply Rmult_le_compat; [left; apply exp_pos|left; apply Rinv_0_lt_compat; lra|apply exp_neg_small; lra|apply Rinv_le_contravar; lra].
    - replace (eps / 2) with (/ (2 / eps)) by (field; lra). unfold Rdiv at 1. rewrite Rinv_1, Rmult_1_r. apply Rinv_le_contravar; [apply Rdiv_lt_0_compat; lra|exact H2]. }
  lra.
Qed.
(** E1 exists *)
Lemma E1_exists x : 0 < x -> exists v, is_E1 x v.
Proof.
  intros Hx. set (S := fun y => exists b, x <= b /\ y = RInt fE x b).
  assert (UB : forall b, x <= b -> RInt fE x b <= exp (- x) / x).
  { intros b Hb.
    pose proof (anti_bound 1 (fun t => exp (- t) / x) (fun t => - exp (- t) / x) x b ltac:(lra)) as A.
    assert (0 <= exp (- b) / x) by (apply Rmult_le_pos; [left; apply exp_pos|left; now apply Rinv_0_lt_compat]).
    assert (0 <= 1 * (exp (- x) / x - exp (- b) / x - RInt fE x b)).
    { apply A.
      - intros t _. auto_derive; [exact I|]. field. lra.
      - intros t Ht. unfold fE. enough (exp (- t) / t <= exp (- t) / x) by (unfold Rdiv in *; lra).
        apply Rmult_le_compat_l; [left; apply exp_pos|]. apply Rinv_le_contravar; lra. }
    lra. }
  assert (MONO : forall b c, x <= b <= c -> RInt fE x b <= RInt fE x c).
  { intros b c Hbc. pose proof (anti_bound (-1) (fun _ => 0) (fun _ => 0) b c ltac:(lra)) as A.
    assert (E : RInt fE x c = RInt fE x b + RInt fE b c).
    { symmetry. apply (RInt_Chasles fE x b c); eexists; apply fE_RInt; lra. }
    assert (0 <= -1 * (0 - 0 - RInt fE b c)).
    { apply A; [intros; apply @is_derive_const|]. intros t Ht. unfold fE.
      assert (0 <= exp (- t) / t) by (apply Rmult_le_pos; [left; apply exp_pos|left; apply Rinv_0_lt_compat; lra]). lra. }
    lra. }
  destruct (completeness S) as [v [V1 V2]].
  { exists (exp (- x) / x). intros y (b & Hb & ->). now apply UB. }
  { exists (RInt fE x x), x. split; [lra|reflexivity]. }
  exists v. intros P [eps HP].
  assert (EX : exists b, x <= b /\ v - eps < RInt fE x b).
  { apply Classical_Prop.NNPP. intros N. assert (B : is_upper_bound S (v - eps)).
    { intros y (b & Hb & ->). apply Rnot_lt_le. intros C. apply N. now exists b. }
    specialize (V2 _ B). destruct eps as [e He]. cbn in *. lra. }
  destruct EX as (b & Hb & Hv).
  exists (fun a => a = x) (fun c => b < c); [reflexivity|exists b; auto|]. intros a c -> Hc. cbn.
  exists (RInt fE x c). split; [apply fE_RInt; lra|]. apply HP.
  assert (RInt fE x b <= RInt fE x c) by (apply MONO; lra).
  assert (RInt fE x c <= v) by (apply V1; exists c; split; [lra|reflexivity]).
  destruct eps as [e He]. cbn in *. unfold ball; cbn. unfold AbsRing_ball, abs, minus, plus, opp; cbn. apply Rabs_def1; lra.
Qed.
Lemma E1_unique x v w : 0 < x -> is_E1 x v -> is_E1 x w -> v = w.
Proof.
  intros Hx V W. apply Rminus_diag_uniq. destruct (Req_dec (v - w) 0) as [|N]; [assumption|exfalso].
  assert (P : 0 < Rabs (v - w) / 2) by (pose proof (Rabs_pos_lt _ N); lra).
  destruct (E1_lim x v V Hx _ P) as [M1 H1], (E1_lim x w W Hx _ P) as [M2 H2].
  set (b := Rmax M1 M2 + 1). assert (B1 : M1 < b) by (pose proof (Rmax_l M1 M2); unfold b; lra).
  assert (B2 : M2 < b) by (pose proof (Rmax_r M1 M2); unfold b; lra).
  specialize (H1 b B1). specialize (H2 b B2). 
  assert (Rabs (v - w) <= Rabs (RInt fE x b - v) + Rabs (RInt fE x b - w)).
  { replace (v - w) with (- (RInt fE x b - v) + (RInt fE x b - w)) by ring. eapply Rle_trans; [apply Rabs_triang|]. rewrite Rabs_Ropp. lra. }
  lra.
Qed.

(** ** the continued fraction *)
Fixpoint cfr (k : nat) (x t : R) : R :=
  match k with O => t | S k' => cfr k' x (INR k / (1 + INR k / (x + t))) end.
Lemma cstep_eq k x t : 0 < k -> 0 < x + t -> k / (1 + k / (x + t)) = k * (x + t) / (x + t + k).
Proof. intros K H. field. split; lra. Qed.
Lemma cstep_pos k x t : 0 < k -> 0 < x -> 0 <= t -> 0 <= k / (1 + k / (x + t)).
Proof. intros K X H. rewrite cstep_eq by lra. apply Rmult_le_pos; [nra|]. left. apply Rinv_0_lt_compat. lra. Qed.
Lemma cfr_pos k : forall x t, 0 < x -> 0 <= t -> 0 <= cfr k x t.
Proof. induction k; intros x t X H; [exact H|]. cbn [cfr]. apply IHk; [exact X|]. apply cstep_pos; [apply lt_0_INR; lia|lra|lra]. Qed.

(** the residual of the Riccati equation satisfied by the tails; [s] is its sign *)
Lemma cfr_residual s k : forall (t : R -> R) (t' : R) x, 0 < x -> 0 <= t x -> is_derive t x t' ->
  0 <= s * (t' - (t x + t x * t x / x - INR (S k))) ->
  exists d, is_derive (fun y => cfr k y (t y)) x d /\
    (let T := cfr k x (t x) in 0 <= s * (d - (T + T * T / x - 1))).
Proof.
  induction k as [|k IH]; intros t t' x X H D R.
  - exists t'. split; [exact D|]. exact R.
  - cbn [cfr]. set (K := INR (S k)) in *. assert (HK : 0 < K) by (apply lt_0_INR; lia).
    set (u := fun y => K / (1 + K / (y + t y))).
    assert (S0 : 0 < x + t x) by lra. assert (SK : 0 < x + t x + K) by lra.
    assert (DU : is_derive u x (K * K * (1 + t') / ((x + t x + K) * (x + t x + K)))).
    { unfold u. assert (ED : ex_derive t x) by now exists t'. assert (E1 : Derive t x = t') by now apply is_derive_unique.
      clearbody K. auto_derive.
      - repeat split; try lra; auto. intros C. assert (0 < K * / (x + t x)) by (apply Rmult_lt_0_compat; [lra|now apply Rinv_0_lt_compat]). lra.
      - change (Derive (fun x0 => t x0) x) with (Derive t x). rewrite E1. field. lra. }
    assert (EU : u x = K * (x + t x) / (x + t x + K)) by (unfold u; apply cstep_eq; lra).
    refine (IH u _ x X _ DU _); [unfold u; apply cstep_pos; lra|].
    rewrite S_INR in R. fold K in R. rewrite EU. fold K.
    replace (K * K * (1 + t') / ((x + t x + K) * (x + t x + K)) -
       (K * (x + t x) / (x + t x + K) + K * (x + t x) / (x + t x + K) * (K * (x + t x) / (x + t x + K)) / x - K))
      with (K * K / ((x + t x + K) * (x + t x + K)) * (t' - (t x + t x * t x / x - (K + 1)))) by (field; lra).
    rewrite <- Rmult_assoc, (Rmult_comm s), Rmult_assoc. apply Rmult_le_pos; [|exact R].
    apply Rmult_le_pos; [nra|]. left. apply Rinv_0_lt_compat. nra.
Qed.
Lemma Fcf_derive s m c x : 0 < x -> 0 <= c -> 0 <= s * (0 - (c + c * c / x - INR (S m))) ->
  exists d, is_derive (fun y => exp (- y) * (1 / (y + cfr m y c))) x d /\ 0 <= s * (- d - fE x).
Proof.
  intros X C R. destruct (cfr_residual s m (fun _ => c) 0 x X C ltac:(apply @is_derive_const) R) as (d & D & P).
  pose proof (cfr_pos m x c X C) as TP.
  set (T := fun y => cfr m y c) in *. change (cfr m x c) with (T x) in *. cbn zeta in P.
  exists (- exp (- x) * (1 / (x + T x)) + exp (- x) * (- (1 + d) / ((x + T x) * (x + T x)))). split.
  - assert (ED : ex_derive T x) by now exists d. assert (E1 : Derive T x = d) by now apply is_derive_unique.
    change (is_derive (fun y => exp (- y) * (1 / (y + T y))) x (- exp (- x) * (1 / (x + T x)) + exp (- x) * (- (1 + d) / ((x + T x) * (x + T x))))).
    clearbody T. auto_derive; [repeat split; auto; lra|]. change (Derive (fun x0 => T x0) x) with (Derive T x). rewrite E1. field. lra.
  - unfold fE. replace (- (- exp (- x) * (1 / (x + T x)) + exp (- x) * (- (1 + d) / ((x + T x) * (x + T x)))) - exp (- x) / x)
      with (exp (- x) / ((x + T x) * (x + T x)) * (d - (T x + T x * T x / x - 1))) by (field; lra).
    rewrite <- Rmult_assoc, (Rmult_comm s), Rmult_assoc. apply Rmult_le_pos; [|exact P].
    apply Rmult_le_pos; [left; apply exp_pos|]. left. apply Rinv_0_lt_compat. nra.
Qed.
Lemma choose_derive (F : R -> R) (Q : R -> R -> Prop) x : 
  (forall t, x <= t -> exists d, is_derive F t d /\ Q t d) ->
  (forall t, x <= t -> is_derive F t (Derive F t)) /\ (forall t, x <= t -> Q t (Derive F t)).
Proof.
  intros H. split; intros t Ht; destruct (H t Ht) as (d & D & q); assert (E := is_derive_unique F t d D); rewrite E; assumption.
Qed.
Lemma E1_cf_upper x v m : is_E1 x v -> 0 < x -> v <= exp (- x) * (1 / (x + cfr m x 0)).
Proof.
  intros H X. set (F := fun y => exp (- y) * (1 / (y + cfr m y 0))).
  destruct (choose_derive F (fun t d => 0 <= 1 * (- d - fE t)) x) as [D Q].
  { intros t Ht. apply Fcf_derive; [lra|lra|]. pose proof (pos_INR (S m)). unfold Rdiv. lra. }
  apply (E1_upper x v F (Derive F)); auto.
  - intros t Ht. specialize (Q t Ht). lra.
  - intros t Ht. unfold F. apply Rmult_le_pos; [left; apply exp_pos|]. apply Rmult_le_pos; [lra|]. left. apply Rinv_0_lt_compat.
    pose proof (cfr_pos m t 0). lra.
Qed.
Lemma E1_cf_lower x v m : is_E1 x v -> 0 < x -> exp (- x) * (1 / (x + cfr m x (INR (S m)))) <= v.
Proof.
  intros H X. set (F := fun y => exp (- y) * (1 / (y + cfr m y (INR (S m))))).
  pose proof (pos_INR (S m)) as PI.
  destruct (choose_derive F (fun t d => 0 <= -1 * (- d - fE t)) x) as [D Q].
  { intros t Ht. apply Fcf_derive; [lra|lra|]. set (c := INR (S m)) in *.
    replace (-1 * (0 - (c + c * c / t - c))) with (c * c * / t) by (field; lra).
    apply Rmult_le_pos; [nra|left; apply Rinv_0_lt_compat; lra]. }
  apply (E1_lower x v F (Derive F)); auto.
  - intros t Ht. specialize (Q t Ht). lra.
  - intros t Ht. unfold F, Rdiv. rewrite Rmult_1_l. apply Rmult_le_compat_l; [left; apply exp_pos|]. apply Rinv_le_contravar; [lra|].
    pose proof (cfr_pos m t (INR (S m)) ltac:(lra) PI). lra.
Qed.
(** the relative gap between the two bounds decreases with x *)
Lemma cfr_gap k : forall x y a b a' b', 0 < x <= y -> 0 <= a <= b -> 0 <= a' <= b' -> a <= a' -> b <= b' -> b' - a' <= b - a ->
  0 <= cfr k x a <= cfr k x b /\ 0 <= cfr k y a' <= cfr k y b' /\ cfr k x a <= cfr k y a' /\ cfr k y b' - cfr k y a' <= cfr k x b - cfr k x a.
Proof.
  induction k as [|k IH]; intros x y a b a' b' X A A' L L' G; [cbn [cfr]; lra|].
  cbn [cfr]. set (K := INR (S k)) in *. assert (HK : 0 < K) by (apply lt_0_INR; lia).
  assert (MONO : forall p q, 0 < p <= q -> K * p / (p + K) <= K * q / (q + K)).
  { intros p q Hp. apply (Rmult_le_reg_r ((p + K) * (q + K))); [nra|].
    replace (K * p / (p + K) * ((p + K) * (q + K))) with (K * p * (q + K)) by (field; lra).
    replace (K * q / (q + K) * ((p + K) * (q + K))) with (K * q * (p + K)) by (field; lra). nra. }
  rewrite !cstep_eq by lra. apply IH; [exact X| | | | |].
  - split; [|apply MONO; lra]. apply Rmult_le_pos; [nra|]. left; apply Rinv_0_lt_compat; lra.
  - split; [|apply MONO; lra]. apply Rmult_le_pos; [nra|]. left; apply Rinv_0_lt_compat; lra.
  - apply MONO; lra.
  - apply MONO; lra.
  - assert (DF : forall p q, 0 < p -> 0 < q -> K * q / (q + K) - K * p / (p + K) = K * K * ((q - p) * (/ (p + K) * / (q + K)))) by (intros; field; lra).
    rewrite !DF by lra. apply Rmult_le_compat_l; [nra|]. apply Rmult_le_compat; [lra| |lra|].
    + apply Rmult_le_pos; left; apply Rinv_0_lt_compat; lra.
    + apply Rmult_le_compat; try (left; apply Rinv_0_lt_compat; lra); apply Rinv_le_contravar; lra.
Qed.

(** the bounds at rational points *)
Fixpoint cfz (k : nat) (p q n d : Z) : Z * Z :=
  match k with O => (n, d) | S k' => let s := (p * d + q * n)%Z in cfz k' p q (Z.of_nat k * s) (s + Z.of_nat k * (q * d)) end.
Lemma cfz_spec k : forall p q n d, (0 < p)%Z -> (0 < q)%Z -> (0 <= n)%Z -> (0 < d)%Z ->
  let r := cfz k p q n d in (0 <= fst r)%Z /\ (0 < snd r)%Z /\ cfr k (IZR p / IZR q) (IZR n / IZR d) = IZR (fst r) / IZR (snd r).
Proof.
  induction k as [|k IH]; intros p q n d P Q N Dd; [repeat split; auto|].
  cbn [cfz cfr]. set (s := (p * d + q * n)%Z). assert (0 < s)%Z by (unfold s; nia).
  replace (INR (S k) / (1 + INR (S k) / (IZR p / IZR q + IZR n / IZR d))) with (IZR (Z.of_nat (S k) * s) / IZR (s + Z.of_nat (S k) * (q * d))).
  - apply IH; auto; nia.
  - assert (0 < IZR p) by now apply IZR_lt. assert (0 < IZR q) by now apply IZR_lt. assert (0 < IZR d) by now apply IZR_lt.
    assert (0 <= IZR n) by now apply IZR_le. rewrite <- INR_IZR_INZ || idtac.
    assert (K : 0 < INR (S k)) by (apply lt_0_INR; lia).
    unfold s. rewrite !plus_IZR, !mult_IZR, !plus_IZR, !mult_IZR, <- !INR_IZR_INZ. set (K' := INR (S k)) in *. clearbody K'.
    set (a := IZR p) in *. set (b := IZR q) in *. set (c := IZR n) in *. set (e := IZR d) in *. clearbody a b c e.
    assert (0 < a * e + b * c) by nra. assert (0 < b * e) by nra. assert (0 < K' * (b * e)) by nra. field. repeat split; nra.
Qed.
Definition gap_check (m : nat) (p q : Z) (e N : Z) : bool :=
  let (n, d) := cfz m p q 0 1 in
  let (n', d') := cfz m p q (Z.of_nat (S m)) 1 in
  ((n' * d - n * d') * q * N <=? e * (p * d + q * n) * d')%Z.
Lemma gap_check_spec m p q e N : (0 < p)%Z -> (0 < q)%Z -> (0 < N)%Z -> gap_check m p q e N = true ->
  forall x, IZR p / IZR q <= x -> let a := cfr m x 0 in let b := cfr m x (INR (S m)) in
    0 <= a <= b /\ b - a <= IZR e / IZR N * (x + a).
Proof.
  intros P Q HN G x Hx. assert (P' : 0 < IZR p) by now apply IZR_lt. assert (Q' : 0 < IZR q) by now apply IZR_lt.
  assert (N' : 0 < IZR N) by now apply IZR_lt.
  assert (X0 : 0 < IZR p / IZR q) by now apply Rdiv_lt_0_compat.
  pose proof (pos_INR (S m)) as PI.
  unfold gap_check in G. pose proof (cfz_spec m p q 0 1 P Q ltac:(lia) ltac:(lia)) as A.
  pose proof (cfz_spec m p q (Z.of_nat (S m)) 1 P Q ltac:(lia) ltac:(lia)) as B.
  destruct (cfz m p q 0 1) as [n d], (cfz m p q (Z.of_nat (S m)) 1) as [n' d']. cbn [fst snd] in *. apply Z.leb_le in G.
  destruct A as (A1 & A2 & A3), B as (B1 & B2 & B3). rewrite <- INR_IZR_INZ in B3.
  replace (0 / 1) with 0 in A3 by field. replace (INR (S m) / 1) with (INR (S m)) in B3 by field.
  destruct (cfr_gap m (IZR p / IZR q) x 0 (INR (S m)) 0 (INR (S m))) as (G1 & G2 & G3 & G4); try lra.
  cbn zeta. split; [exact G2|]. eapply Rle_trans; [exact G4|]. rewrite A3, B3 in *.
  apply IZR_lt in A2, B2. apply IZR_le in A1, B1, G. rewrite !mult_IZR, minus_IZR, plus_IZR, !mult_IZR in G.
  set (X := IZR p / IZR q) in *.
  assert (GX : IZR n' / IZR d' - IZR n / IZR d <= IZR e / IZR N * (X + IZR n / IZR d)).
  { apply (Rmult_le_reg_r (IZR d' * IZR d * IZR q * IZR N)); [repeat apply Rmult_lt_0_compat; assumption|]. unfold X.
    replace ((IZR n' / IZR d' - IZR n / IZR d) * (IZR d' * IZR d * IZR q * IZR N)) with ((IZR n' * IZR d - IZR n * IZR d') * IZR q * IZR N) by (field; lra).
    replace (IZR e / IZR N * (IZR p / IZR q + IZR n / IZR d) * (IZR d' * IZR d * IZR q * IZR N)) with (IZR e * (IZR p * IZR d + IZR q * IZR n) * IZR d') by (field; lra).
    exact G. }
  eapply Rle_trans; [exact GX|]. 
  assert (0 <= IZR e / IZR N).
  { assert (0 < X + IZR n / IZR d) by lra. assert (0 <= IZR e / IZR N * (X + IZR n / IZR d)) by lra. 
    apply (Rmult_le_reg_r (X + IZR n / IZR d)); lra. }
  apply Rmult_le_compat_l; lra.
Qed.
Lemma gap_checked : forallb (fun j => gap_check (20 + j) 80 (Z.of_nat j + 1) 24 (10 ^ 17)) (seq 0 80) = true.
Proof. vm_compute. reflexivity. Qed.

(** the code's value between the bounds *)
Lemma cf_value x v m e N : is_E1 x v -> 0 < x -> (0 < N)%Z -> 
  (let a := cfr m x 0 in let b := cfr m x (INR (S m)) in 0 <= a <= b /\ b - a <= IZR e / IZR N * (x + a)) ->
  v <= exp (- x) * (1 / (x + cfr m x 0)) <= v * (1 + IZR e / IZR N).
Proof.
  intros H X HN [A B]. split; [now apply E1_cf_upper|]. pose proof (E1_cf_lower x v m H X) as L.
  set (a := cfr m x 0) in *. set (b := cfr m x (INR (S m))) in *. set (E := IZR e / IZR N) in *. pose proof (exp_pos (- x)) as EP.
  apply Rle_trans with (exp (- x) * (1 / (x + b)) * (1 + E)).
  - rewrite Rmult_assoc. apply Rmult_le_compat_l; [lra|]. apply (Rmult_le_reg_r ((x + a) * (x + b))); [nra|].
    replace (1 / (x + a) * ((x + a) * (x + b))) with (x + b) by (field; lra).
    replace (1 / (x + b) * (1 + E) * ((x + a) * (x + b))) with ((1 + E) * (x + a)) by (field; lra). lra.
  - apply Rmult_le_compat_r; [|exact L]. assert (0 <= E * (x + a)) by lra.
    assert (0 <= E) by (apply (Rmult_le_reg_r (x + a)); lra). lra.
Qed.
Lemma expint1_cf_Fin k : forall x t, 0 < x -> 0 <= t -> expint1_cf earith k (Fin x) (Fin t) = Fin (cfr k x t).
Proof.
  induction k as [|k IH]; intros x t X H; [reflexivity|]. cbn [expint1_cf cfr].
  cbn [a_ofZ a_add a_sub a_mul a_div earith]. rewrite <- INR_IZR_INZ. cbn [eadd].
  assert (K : 0 < INR (S k)) by (apply lt_0_INR; lia).
  rewrite ediv_Fin by lra. cbn [eadd]. rewrite ediv_Fin.
  2:{ assert (0 < INR (S k) / (x + t)) by (apply Rdiv_lt_0_compat; lra). lra. }
  apply IH; [exact X|apply cstep_pos; lra].
Qed.
Lemma etoint_80 x : 1 < x -> exists j, (j < 80)%nat /\ etoint (Fin (80 / x)) = ret (Z.of_nat j) /\ 80 / (INR j + 1) <= x.
Proof.
  intros X. assert (Q0 : 0 < 80 / x) by (apply Rdiv_lt_0_compat; lra).
  assert (Q1 : 80 / x < 80) by (apply (Rmult_lt_reg_r x); [lra|]; unfold Rdiv; rewrite Rmult_assoc, Rinv_l; lra).
  assert (E : Raux.Ztrunc (80 / x) = Raux.Zfloor (80 / x)) by (apply Raux.Ztrunc_floor; lra).
  pose proof (Raux.Zfloor_lb (80 / x)) as B1. pose proof (Raux.Zfloor_ub (80 / x)) as B2. set (z := Raux.Zfloor (80 / x)) in *.
  assert (Z0 : (0 <= z)%Z). { apply Z.lt_succ_r, lt_IZR. unfold Z.succ. rewrite plus_IZR. lra. }
  assert (Z1 : (z < 80)%Z) by (apply lt_IZR; lra).
  exists (Z.to_nat z). split; [lia|]. split.
  - cbn [etoint]. rewrite E. unfold in_int. replace ((- 2 ^ 31 <=? z) && (z <? 2 ^ 31))%Z with true; [now rewrite Z2Nat.id|].
    symmetry. apply andb_true_intro. rewrite Z.leb_le, Z.ltb_lt. lia.
  - rewrite INR_IZR_INZ, Z2Nat.id by lia. assert (0 <= IZR z) by now apply IZR_le.
    apply (Rmult_le_reg_r (IZR z + 1)); [lra|]. replace (80 / (IZR z + 1) * (IZR z + 1)) with 80 by (field; lra).
    apply Rlt_le. replace 80 with (80 / x * x) by (field; lra). rewrite Rmult_comm. apply Rmult_lt_compat_l; lra.
Qed.
Lemma expint1_t_acc x v : 1 < x -> is_E1 x v -> exists t, expint1_t earith etoint (Fin x) = ret (Fin t) /\
  0 < t /\ v <= exp (- x) * t <= v * (1 + 24 / 10 ^ 17).
Proof.
  intros X H. destruct (etoint_80 x X) as (j & J & E & B). unfold expint1_t. 
  cbn [a_ofZ a_add a_sub a_mul a_div earith]. rewrite ediv_Fin by lra. rewrite E. cbn [ret bind].
  replace (Z.to_nat (20 + Z.of_nat j)) with (20 + j)%nat by lia. rewrite expint1_cf_Fin by lra. cbn [eadd].
  pose proof (cfr_pos (20 + j) x 0 ltac:(lra) ltac:(lra)) as P.
  rewrite ediv_Fin by lra. eexists. split; [reflexivity|]. split; [apply Rdiv_lt_0_compat; lra|].
  pose proof (proj1 (forallb_forall _ _) gap_checked j ltac:(apply in_seq; lia)) as G. cbn beta in G.
  assert (PN : IZR (10 ^ 17) = 10 ^ 17) by (change (10 ^ 17)%Z with (10 ^ Z.of_nat 17)%Z; symmetry; apply pow_IZR).
  rewrite <- PN. apply (cf_value x v (20 + j) 24 (10 ^ 17) H); [lra|reflexivity|].
  apply (gap_check_spec _ 80 (Z.of_nat j + 1)); [lia|lia|reflexivity|exact G|]. rewrite plus_IZR, <- INR_IZR_INZ. exact B.
Qed.

(** ** the series on (0, 1] *)
Definition fac (n : nat) : R := INR (fact n).
Lemma fac_S n : fac (S n) = (INR n + 1) * fac n.
Proof. unfold fac. rewrite fact_simpl, mult_INR, S_INR. reflexivity. Qed.
Lemma fac_pos n : 0 < fac n.
Proof. apply lt_0_INR, lt_O_fact. Qed.
Lemma fac_0 : fac 0 = 1. Proof. reflexivity. Qed.
Lemma fac_1 : fac 1 = 1. Proof. reflexivity. Qed.
Local Opaque fac.
Fixpoint En (n : nat) (x : R) : R := match n with O => 1 | S n' => En n' x + (- x) ^ S n' / fac (S n') end.
Lemma En_derive n x : is_derive (En (S n)) x (- En n x).
Proof.
  induction n as [|n IH].
  - cbn [En]. rewrite fac_1. auto_derive; [exact I|]. cbn. field.
  - change (En (S (S n))) with (fun x => En (S n) x + (- x) ^ S (S n) / fac (S (S n))).
    replace (- En (S n) x) with (- En n x + - ((- x) ^ S n / fac (S n))) by (cbn [En]; ring).
    apply (is_derive_plus (En (S n)) (fun x => (- x) ^ S (S n) / fac (S (S n))) x (- En n x) (- ((- x) ^ S n / fac (S n))) IH).
    rewrite (fac_S (S n)). pose proof (fac_pos (S n)) as P. assert (N : INR (S n) + 1 <> 0) by (pose proof (pos_INR (S n)); lra).
    set (f := fac (S n)) in *. clearbody f. assert (Hp : pred (S (S n)) = S n) by reflexivity. set (m := S (S n)) in *.
    assert (EM : INR m = INR (S n) + 1) by (unfold m; apply S_INR). clearbody m. set (q := INR (S n)) in *. clearbody q. 
    auto_derive; [exact I|]. rewrite Hp. rewrite EM. field. split; [lra|exact N].
Qed.
Lemma En_0 n : En n 0 = 1.
Proof. induction n; [reflexivity|]. cbn [En]. rewrite IHn, Ropp_0, pow_i by lia. unfold Rdiv. ring. Qed.
Lemma exp_En n : forall x, 0 <= x -> 0 <= (-1) ^ S n * (exp (- x) - En n x).
Proof.
  induction n as [|n IH]; intros x X.
  - cbn [En pow]. enough (exp (- x) <= 1) by lra. rewrite <- exp_0. destruct X as [X|<-]; [left; apply exp_increasing; lra|rewrite Ropp_0; lra].
  - destruct X as [X|<-].
    2:{ rewrite En_0, Ropp_0, exp_0. replace (1 - 1) with 0 by ring. lra. }
    apply (mono_from_0 (fun x => (-1) ^ S (S n) * (exp (- x) - En (S n) x)) (fun x => (-1) ^ S n * (exp (- x) - En n x)) x X).
    + intros c _. replace ((-1) ^ S n * (exp (- c) - En n c)) with ((-1) ^ S (S n) * (- exp (- c) - - En n c)) by (cbn [pow]; ring).
      apply (is_derive_scal (fun x => exp (- x) - En (S n) x) c ((-1) ^ S (S n)) (- exp (- c) - - En n c)).
      apply (is_derive_minus (fun x => exp (- x)) (En (S n)) c (- exp (- c)) (- En n c)); [|apply En_derive].
      auto_derive; [exact I|]. ring.
    + intros c Hc. apply IH. lra.
    + rewrite En_0, Ropp_0, exp_0. ring.
Qed.
Lemma exp_En26 x : 0 <= x -> 0 <= En 26 x - exp (- x) <= x ^ 27 / fac 27.
Proof.
  intros X. pose proof (exp_En 26 x X) as A. pose proof (exp_En 27 x X) as B.
  assert (O : (-1) ^ 27 = -1) by ring. assert (O' : (-1) ^ 28 = 1) by ring. rewrite O in A. rewrite O' in B.
  change (En 27 x) with (En 26 x + (- x) ^ 27 / fac 27) in B.
  replace ((- x) ^ 27) with (- x ^ 27) in B by ring. unfold Rdiv in *. lra.
Qed.
Definition rk (k : nat) (x : R) : R := (- x) ^ k / (INR (S k) * fac (S k)).
Fixpoint es (n : nat) (x : R) : R := match n with O => rk 0 x | S n' => es n' x + rk n x end.
Fixpoint SE (n : nat) (x : R) : R := match n with O => 1 | S n' => SE n' x + (- x) ^ n / fac (S n) end.
Lemma SE_En n x : x * SE n x = 1 - En (S n) x.
Proof.
  induction n as [|n IH]; [cbn [SE En]; rewrite fac_1; field|].
  change (SE (S n) x) with (SE n x + (- x) ^ S n / fac (S (S n))). change (En (S (S n)) x) with (En (S n) x + (- x) ^ S (S n) / fac (S (S n))).
  rewrite Rmult_plus_distr_l, IH. cbn [pow]. unfold Rdiv. ring.
Qed.
Lemma es_derive n x : is_derive (fun x => x * es n x) x (SE n x).
Proof.
  induction n as [|n IH].
  - cbn [es SE]. unfold rk. rewrite fac_1. auto_derive; [exact I|]. cbn. field.
  - change (SE (S n) x) with (SE n x + (- x) ^ S n / fac (S (S n))).
    apply (is_derive_ext (fun x => x * es n x + x * rk (S n) x)); [intros t; cbn [es]; symmetry; apply Rmult_plus_distr_l|].
    apply (is_derive_plus (fun x => x * es n x) (fun x => x * rk (S n) x) x (SE n x) ((- x) ^ S n / fac (S (S n))) IH).
    unfold rk. pose proof (fac_pos (S (S n))) as P. set (f := fac (S (S n))) in *. clearbody f. 
    assert (Q : 0 < INR (S (S n))) by (apply lt_0_INR; lia). assert (E : INR (S (S n)) = INR (S n) + 1) by apply S_INR.
    set (g := INR (S (S n))) in *. clearbody g. assert (EP : forall t, (- t) ^ S n = (- t) * (- t) ^ (pred (S n))) by (intros; reflexivity).
    set (m := S n) in *. clearbody m. auto_derive; [exact I|]. rewrite (EP x). rewrite E in *. field. split; lra.
Qed.
Definition gam : R := IZR 577215664901532860606512090082402431042159 * powerRZ 10 (-42).
Definition PS (x : R) : R := - gam - ln x + x * es 25 x.
Lemma PS_derive x : 0 < x -> is_derive PS x (- En 26 x / x).
Proof.
  intros X. replace (- En 26 x / x) with (- / x + SE 25 x).
  2:{ pose proof (SE_En 25 x) as E. replace (En 26 x) with (1 - x * SE 25 x) by lra. field. lra. }
  apply (is_derive_plus (fun x => - gam - ln x) (fun x => x * es 25 x) x (- / x) (SE 25 x)); [|apply es_derive].
  auto_derive; [exact X|]. field. lra.
Qed.
Lemma PS_diff x : 0 < x <= 1 -> 0 <= PS x - PS 1 - RInt fE x 1 <= / 10 ^ 20.
Proof.
  intros X. split.
  - pose proof (anti_bound 1 PS (fun t => - En 26 t / t) x 1 X) as A. rewrite Rmult_1_l in A. apply A.
    + intros t Ht. apply PS_derive. lra.
    + intros t Ht. unfold fE. replace (1 * (- (- En 26 t / t) - exp (- t) / t)) with ((En 26 t - exp (- t)) * / t) by (field; lra).
      apply Rmult_le_pos; [apply exp_En26; lra|left; apply Rinv_0_lt_compat; lra].
  - set (c := / (27 * fac 27)). pose proof (fac_pos 27) as FP.
    pose proof (anti_bound (-1) (fun t => PS t + c * t ^ 27) (fun t => - En 26 t / t + c * (27 * t ^ 26)) x 1 X) as A.
    assert (A' : 0 <= -1 * (PS x + c * x ^ 27 - (PS 1 + c * 1 ^ 27) - RInt fE x 1)).
    { apply A.
      - intros t Ht. apply (is_derive_plus PS (fun t => c * t ^ 27) t (- En 26 t / t) (c * (27 * t ^ 26))); [apply PS_derive; lra|].
        clearbody c. auto_derive; [exact I|]. change (pred 27) with 26%nat. replace (INR 27) with 27 by (rewrite INR_IZR_INZ; reflexivity). ring.
      - intros t Ht. unfold fE, c. pose proof (proj2 (exp_En26 t ltac:(lra))) as B.
        replace (-1 * (- (- En 26 t / t + / (27 * fac 27) * (27 * t ^ 26)) - exp (- t) / t)) with ((t ^ 27 / fac 27 - (En 26 t - exp (- t))) * / t).
        + apply Rmult_le_pos; [lra|left; apply Rinv_0_lt_compat; lra].
        + set (f := fac 27) in *. clearbody f. set (e := exp (- t)). set (n := En 26 t). clearbody e n. field. lra. }
    rewrite pow1 in A'. assert (0 <= c * x ^ 27) by (apply Rmult_le_pos; [left; apply Rinv_0_lt_compat; lra|apply pow_le; lra]).
    assert (c <= / 10 ^ 20).
    { unfold c. apply Rinv_le_contravar; [apply pow_lt; lra|]. 
      assert (G : 10 ^ 20 <= fac 27).
      { rewrite !fac_S. rewrite fac_0. rewrite !INR_IZR_INZ. cbn [Z.of_nat Pos.of_succ_nat Pos.succ]. cbn [pow]. lra. }
      lra. }
    lra.
Qed.

From Coq Require Import QArith Qreals.
Open Scope R_scope.
Fixpoint facZ (n : nat) : Z := match n with O => 1%Z | S n' => (Z.of_nat n * facZ n')%Z end.
Lemma facZ_fac n : IZR (facZ n) = fac n.
Proof. induction n; [symmetry; apply fac_0|]. cbn [facZ]. rewrite mult_IZR, IHn, fac_S, <- INR_IZR_INZ, S_INR. reflexivity. Qed.
Lemma facZ_pos n : (0 < facZ n)%Z.
Proof. induction n; [reflexivity|]. cbn [facZ]. lia. Qed.
Lemma Q2R_Z z : Q2R (inject_Z z) = IZR z.
Proof. unfold Q2R. cbn. field. Qed.
Lemma Q2R_frac n d : (0 < d)%Z -> Q2R (inject_Z n / inject_Z d)%Q = IZR n / IZR d.
Proof.
  intros H. rewrite Q2R_div, !Q2R_Z; [reflexivity|]. intros E. apply Qeq_eqR in E. rewrite Q2R_Z in E. unfold Q2R in E. cbn in E.
  assert (0 < IZR d) by now apply IZR_lt. lra.
Qed.
Fixpoint enQ (n : nat) : Q := (match n with O => 1 | S n' => enQ n' + inject_Z ((-1) ^ Z.of_nat n) / inject_Z (facZ n) end)%Q.
Lemma enQ_En n : Q2R (enQ n) = En n 1.
Proof.
  induction n; [cbn [enQ En]; unfold Q2R; cbn; field|]. cbn [enQ]. rewrite Q2R_plus, IHn, Q2R_frac by apply facZ_pos.
  change (En (S n) 1) with (En n 1 + (- (1)) ^ S n / fac (S n)). rewrite facZ_fac, <- pow_IZR. reflexivity.
Qed.
Fixpoint esQ (n : nat) : Q :=
  (match n with O => 1 | S n' => esQ n' + inject_Z ((-1) ^ Z.of_nat n) / inject_Z (Z.of_nat (S n) * facZ (S n)) end)%Q.
Lemma esQ_es n : Q2R (esQ n) = es n 1.
Proof.
  induction n as [|n IH]; [cbn [esQ es]; unfold rk, Q2R; rewrite fac_1; cbn; field|]. cbn [esQ]. rewrite Q2R_plus, IH.
  rewrite Q2R_frac by (pose proof (facZ_pos (S (S n))); lia).
  change (es (S n) 1) with (es n 1 + rk (S n) 1)%R. unfold rk. rewrite mult_IZR, facZ_fac, <- pow_IZR, <- INR_IZR_INZ. reflexivity.
Qed.
Definition gamQ : Q := (inject_Z 577215664901532860606512090082402431042159 / inject_Z (10 ^ 42))%Q.
Lemma gamQ_gam : Q2R gamQ = gam.
Proof.
  unfold gamQ, gam. rewrite Q2R_frac by reflexivity. unfold Rdiv. f_equal. cbn [powerRZ]. f_equal. 
  replace (Pos.to_nat 42) with 42%nat by reflexivity. change (10 ^ 42)%Z with (10 ^ Z.of_nat 42)%Z. symmetry. apply pow_IZR.
Qed.
Definition cfQ (m : nat) (t : Z) : Q := let (n, d) := cfz m 1 1 t 1 in (/ (1 + inject_Z n / inject_Z d))%Q.
Lemma cfQ_cf m t : (0 <= t)%Z -> Q2R (cfQ m t) = (1 / (1 + cfr m 1 (IZR t)))%R.
Proof.
  intros H. unfold cfQ. pose proof (cfz_spec m 1 1 t 1 ltac:(lia) ltac:(lia) H ltac:(lia)) as S. destruct (cfz m 1 1 t 1) as [n d].
  cbn [fst snd] in S. destruct S as (S1 & S2 & S3). replace (1 / 1)%R with 1%R in S3 by field. replace (IZR t / 1)%R with (IZR t) in S3 by field.
  rewrite S3. assert (P1 : (0 <= IZR n)%R) by now apply IZR_le. assert (P2 : (0 < IZR d)%R) by now apply IZR_lt.
  assert (P3 : (0 <= IZR n / IZR d)%R) by (apply Rmult_le_pos; [lra|left; now apply Rinv_0_lt_compat]).
  assert (E : Q2R (1 + inject_Z n / inject_Z d)%Q = (1 + IZR n / IZR d)%R).
  { rewrite Q2R_plus, Q2R_frac by exact S2. f_equal. unfold Q2R. cbn. field. }
  rewrite Q2R_inv, E; [unfold Rdiv; ring|]. intros C. apply Qeq_eqR in C. rewrite E in C. unfold Q2R in C at 1. cbn in C. lra.
Qed.
Definition tiny : Q := (inject_Z 1 / inject_Z (10 ^ 20))%Q.
Lemma anchor_1 : Qle_bool (enQ 26 * cfQ 200 0 - (esQ 25 - gamQ)) tiny = true.
Proof. vm_compute. reflexivity. Qed.
Lemma anchor_2 : Qle_bool ((esQ 25 - gamQ) - enQ 27 * cfQ 200 201) tiny = true.
Proof. vm_compute. reflexivity. Qed.
Lemma anchor_3 : Qle_bool (2 # 10) (enQ 27 * cfQ 200 201) = true.
Proof. vm_compute. reflexivity. Qed.
Lemma tiny_R : Q2R tiny = / 10 ^ 20.
Proof. unfold tiny. rewrite Q2R_frac by reflexivity. change (10 ^ 20)%Z with (10 ^ Z.of_nat 20)%Z. rewrite <- pow_IZR. lra. Qed.
Local Opaque enQ cfQ esQ gamQ tiny.
Open Scope R_scope.
Lemma exp_1_bounds : Q2R (enQ 27) <= exp (- (1)) <= Q2R (enQ 26).
Proof.
  rewrite !enQ_En. pose proof (exp_En 26 1 ltac:(lra)) as A. pose proof (exp_En 27 1 ltac:(lra)) as B.
  assert (O : (-1) ^ 27 = -1) by ring. assert (O' : (-1) ^ 28 = 1) by ring. rewrite O in A. rewrite O' in B. lra.
Qed.
Lemma PS_1 w : is_E1 1 w -> Rabs (PS 1 - w) <= / 10 ^ 20 /\ 2 / 10 <= w.
Proof.
  intros H. pose proof (E1_cf_upper 1 w 200 H ltac:(lra)) as U. pose proof (E1_cf_lower 1 w 200 H ltac:(lra)) as L.
  pose proof exp_1_bounds as X. 
  assert (C1 := anchor_1). assert (C2 := anchor_2). assert (C3 := anchor_3).
  apply Qle_bool_iff, Qle_Rle in C1, C2, C3. rewrite !Q2R_minus, Q2R_mult, tiny_R in C1, C2. rewrite Q2R_mult in C3.
  replace (INR 201) with (IZR 201) in L by (rewrite INR_IZR_INZ; reflexivity).
  rewrite <- (cfQ_cf 200 0) in U by lia. rewrite <- (cfQ_cf 200 201) in L by lia. rewrite esQ_es, gamQ_gam in C1, C2.
  replace (es 25 1 - gam) with (PS 1) in C1, C2 by (unfold PS; rewrite ln_1; ring).
  replace (Q2R (2 # 10)) with (2 / 10) in C3 by (unfold Q2R; cbn; lra).
  assert (PU : 0 < Q2R (cfQ 200 0)) by (rewrite (cfQ_cf 200 0) by lia; pose proof (cfr_pos 200 1 0); apply Rdiv_lt_0_compat; lra).
  assert (PL : 0 < Q2R (cfQ 200 201)) by (rewrite (cfQ_cf 200 201) by lia; pose proof (cfr_pos 200 1 201); apply Rdiv_lt_0_compat; lra).
  assert (exp (- (1)) * Q2R (cfQ 200 0) <= Q2R (enQ 26) * Q2R (cfQ 200 0)) by (apply Rmult_le_compat_r; lra).
  assert (Q2R (enQ 27) * Q2R (cfQ 200 201) <= exp (- (1)) * Q2R (cfQ 200 201)) by (apply Rmult_le_compat_r; lra).
  split; [apply Rabs_le|]; lra.
Qed.

Lemma E1_split x v w : 0 < x -> is_E1 x v -> is_E1 1 w -> v = RInt fE x 1 + w.
Proof.
  intros X V W. apply Rminus_diag_uniq. set (d := v - (RInt fE x 1 + w)). destruct (Req_dec d 0) as [|N]; [assumption|exfalso].
  assert (P : 0 < Rabs d / 2) by (pose proof (Rabs_pos_lt _ N); lra).
  destruct (E1_lim x v V X _ P) as [M1 H1], (E1_lim 1 w W ltac:(lra) _ P) as [M2 H2].
  set (b := Rmax (Rmax M1 M2) 1 + 1).
  assert (B1 : M1 < b) by (pose proof (Rmax_l M1 M2); pose proof (Rmax_l (Rmax M1 M2) 1); unfold b; lra).
  assert (B2 : M2 < b) by (pose proof (Rmax_r M1 M2); pose proof (Rmax_l (Rmax M1 M2) 1); unfold b; lra).
  assert (B3 : 1 < b) by (pose proof (Rmax_r (Rmax M1 M2) 1); unfold b; lra).
  specialize (H1 b B1). specialize (H2 b B2). clearbody b.
  assert (E : RInt fE x b = RInt fE x 1 + RInt fE 1 b) by (symmetry; apply (RInt_Chasles fE x 1 b); eexists; apply fE_RInt; lra).
  assert (Rabs d <= Rabs (RInt fE x b - v) + Rabs (RInt fE 1 b - w)).
  { replace d with (- (RInt fE x b - v) + (RInt fE 1 b - w)) by (unfold d; rewrite E; ring). eapply Rle_trans; [apply Rabs_triang|]. rewrite Rabs_Ropp. lra. }
  lra.
Qed.
Lemma RInt_fE_pos x : 0 < x <= 1 -> 0 <= RInt fE x 1.
Proof.
  intros X. pose proof (anti_bound (-1) (fun _ => 0) (fun _ => 0) x 1 X) as A.
  assert (0 <= -1 * (0 - 0 - RInt fE x 1)).
  { apply A; [intros; apply @is_derive_const|]. intros t Ht. unfold fE.
    assert (0 <= exp (- t) / t) by (apply Rmult_le_pos; [left; apply exp_pos|left; apply Rinv_0_lt_compat; lra]). lra. }
  lra.
Qed.
Lemma PS_acc x v : 0 < x <= 1 -> is_E1 x v -> Rabs (PS x - v) <= 2 / 10 ^ 20 /\ 2 / 10 <= v.
Proof.
  intros X V. destruct (E1_exists 1 ltac:(lra)) as [w W]. destruct (PS_1 w W) as [A B].
  pose proof (PS_diff x X) as Df. rewrite (E1_split x v w ltac:(lra) V W). pose proof (RInt_fE_pos x X). split; [|lra].
  apply Rabs_le_between in A. apply Rabs_le. unfold Rdiv. set (e := / 10 ^ 20) in *. lra.
Qed.

(** the loop of the series: nothing is dropped, since no term is 0 *)
Lemma rk_step i x : - rk i x * INR (S i) * x / (INR (S (S i)) * INR (S (S i))) = rk (S i) x.
Proof.
  unfold rk. rewrite (fac_S (S i)). cbn [pow]. pose proof (fac_pos (S i)). rewrite (S_INR (S i)). pose proof (pos_INR i). rewrite (S_INR i).
  set (f := fac (S i)) in *. clearbody f. set (n := INR i) in *. clearbody n. set (p := (- x) ^ i). clearbody p. field. repeat split; lra.
Qed.
Lemma rk_neq0 i x : 0 < x -> rk i x <> 0.
Proof.
  intros X E. unfold rk in E. assert (0 < INR (S i)) by (apply lt_0_INR; lia). pose proof (fac_pos (S i)).
  assert (N : (- x) ^ i <> 0) by (apply pow_nonzero; lra). apply Rmult_integral in E. destruct E as [E|E]; [auto|].
  apply (Rinv_neq_0_compat (INR (S i) * fac (S i))) in E; [exact E|]. nra.
Qed.
Lemma series_Fin x : 0 < x -> forall n i, (n + i = 25)%nat ->
  expint1_series earith n (Fin x) (Fin (es i x)) (Fin (rk i x)) = Fin (es 25 x).
Proof.
  intros X. induction n as [|n IH]; intros i E; [cbn [expint1_series]; now replace i with 25%nat by lia|].
  cbn [expint1_series]. replace (26 - Z.of_nat (S n))%Z with (Z.of_nat (S i)) by lia.
  replace (Z.of_nat (S i) + 1)%Z with (Z.of_nat (S (S i))) by lia.
  cbn [a_ofZ a_add a_sub a_mul a_div a_opp a_cmp earith]. rewrite mult_IZR, <- !INR_IZR_INZ. cbn [eopp emul eadd].
  assert (0 < INR (S (S i))) by (apply lt_0_INR; lia). rewrite ediv_Fin by nra. rewrite rk_step. cbn [eadd].
  assert (Q : CSem.eqb ecmp (Fin (es i x + rk (S i) x)) (Fin (es i x)) = false).
  { apply eqb_Fin_false. intros C. apply (rk_neq0 (S i) x X). lra. }
  rewrite Q. apply (IH (S i)). lia.
Qed.
Lemma elog_Fin x : 0 < x -> elog (Fin x) = Fin (ln x).
Proof. intros X. cbn [elog]. destruct (Raux.Rcompare_spec x 0); [lra|lra|reflexivity]. Qed.
Lemma expint1_01_Fin x : 0 < x -> expint1_01 earith eeuler elog (Fin x) = Fin (PS x).
Proof.
  intros X. unfold expint1_01. cbn [a_ofZ].
  assert (E0 : Fin 1 = Fin (es 0 x)). { f_equal. cbn [es]. unfold rk. rewrite fac_1. cbn. field. }
  assert (E1 : Fin 1 = Fin (rk 0 x)) by exact E0.
  pose proof (series_Fin x X 25 0 eq_refl) as S. rewrite <- E0, <- E1 in S.
  cbn [a_ofZ a_add a_sub a_mul a_div a_opp earith]. rewrite elog_Fin by exact X.
  change (a_ofZ earith 1) with (Fin 1). rewrite S. reflexivity.
Qed.

(** ** expint1 *)
Lemma expint1_acc x v : 0 < x -> is_E1 x v ->
  exists y, expint1 earith eeuler etoint elog eexp (Fin x) = ret (Fin y) /\ Rabs (y - v) <= 24 / 10 ^ 17 * v.
Proof.
  intros X V. unfold expint1. change (a_ofZ earith 0) with (Fin 0). change (a_ofZ earith 1) with (Fin 1). change (a_cmp earith) with ecmp.
  replace (CSem.ltb ecmp (Fin x) (Fin 0)) with false by (symmetry; apply ltb_Fin_false; lra).
  replace (CSem.eqb ecmp (Fin x) (Fin 0)) with false by (symmetry; apply eqb_Fin_false; lra).
  destruct (CSem.leb ecmp (Fin x) (Fin 1)) eqn:L.
  - apply leb_Fin in L. rewrite expint1_01_Fin by exact X. eexists. split; [reflexivity|].
    destruct (PS_acc x v ltac:(lra) V) as [A B]. eapply Rle_trans; [exact A|].
    apply Rle_trans with (24 / 10 ^ 17 * (2 / 10)); [cbn [pow]; lra|]. apply Rmult_le_compat_l; [cbn [pow]; lra|exact B].
  - apply leb_Fin_false in L. destruct (expint1_t_acc x v L V) as (t & E & TP & A). rewrite E. cbn [ret bind].
    eexists. split; [reflexivity|]. apply Rabs_le. set (e := 24 / 10 ^ 17) in *. 
    assert (0 <= e * v) by (apply (Rplus_le_reg_l v); lra). lra.
Qed.
Lemma expint1_special {T} (A : arith T) comb toint log exp x :
  (CSem.ltb (a_cmp A) x (a_ofZ A 0) = true -> expint1 A comb toint log exp x = ret (a_nan A)) /\
  (CSem.ltb (a_cmp A) x (a_ofZ A 0) = false -> CSem.eqb (a_cmp A) x (a_ofZ A 0) = true -> expint1 A comb toint log exp x = ret (a_inf A)).
Proof. unfold expint1. split; [intros ->|intros -> ->]; reflexivity. Qed.

(** ** logexpint1 *)
Lemma ln_gap a b e : 0 < a <= b -> b <= a * (1 + e) -> 0 <= ln b - ln a <= e.
Proof.
  intros [A B] H. split; [pose proof (ln_le a b A B); lra|].
  assert (0 < 1 + e) by (apply (Rmult_lt_reg_l a); lra).
  assert (E : b <= a * exp e) by (eapply Rle_trans; [exact H|]; apply Rmult_le_compat_l; [lra|apply exp_ineq1_le]).
  apply ln_le in E; [|lra]. rewrite ln_mult, ln_exp in E by (try exact A; apply exp_pos). lra.
Qed.
Definition sA (x : R) : R := (-1 + (2 + (-6 + (24 - 120 / x) / x) / x) / x) / x.
Lemma sA_bounds t : 500 <= t -> - (1 / 500) <= sA t <= 0.
Proof.
  intros H. unfold sA, Rdiv. set (u := / t). assert (U : 0 < u <= / 500) by (split; [apply Rinv_0_lt_compat; lra|apply Rinv_le_contravar; lra]).
  clearbody u. set (q1 := 24 - 120 * u). assert (23 <= q1 <= 24) by (unfold q1; lra). clearbody q1.
  set (q2 := -6 + q1 * u). assert (-6 <= q2 <= -5) by (unfold q2; nra). clearbody q2.
  set (q3 := 2 + q2 * u). assert (1 <= q3 <= 2) by (unfold q3; nra). clearbody q3.
  set (q4 := -1 + q3 * u). assert (-1 <= q4 <= 0) by (unfold q4; nra). clearbody q4. nra.
Qed.
Definition FA (x : R) : R := exp (- x) / x * (1 + sA x).
Lemma FA_derive t : 0 < t -> is_derive FA t (- (exp (- t) * (/ t - 720 * (/ t) ^ 7))).
Proof. intros H. unfold FA, sA. auto_derive; [repeat split; lra|]. field. lra. Qed.
Lemma FA_bounds x v : 500 <= x -> is_E1 x v -> FA x <= v <= FA x * (1 + 48 / 10 ^ 15).
Proof.
  intros X V. split.
  - apply (E1_lower x v FA _ V ltac:(lra) (fun t Ht => FA_derive t ltac:(lra))).
    + intros t Ht. unfold fE, Rdiv. pose proof (exp_pos (- t)). 
      assert (0 <= 720 * (/ t) ^ 7) by (apply Rmult_le_pos; [lra|]; apply pow_le; left; apply Rinv_0_lt_compat; lra). nra.
    + intros t Ht. unfold FA. pose proof (sA_bounds t ltac:(lra)). rewrite <- (Rmult_1_r (exp (- t) / t)) at 2. apply Rmult_le_compat_l; [|lra].
      apply Rmult_le_pos; [left; apply exp_pos|left; apply Rinv_0_lt_compat; lra].
  - set (e := 48 / 10 ^ 15). assert (E0 : 0 < e < 1) by (unfold e; cbn [pow]; lra).
    assert (ES : 720 * (/ 500) ^ 6 * (1 + e) <= e) by (unfold e; cbn [pow]; lra).
    rewrite (Rmult_comm (FA x)).
    apply (E1_upper x v (fun t => (1 + e) * FA t) (fun t => (1 + e) * - (exp (- t) * (/ t - 720 * (/ t) ^ 7))) V ltac:(lra)).
    + intros t Ht. apply (is_derive_scal FA t (1 + e)). apply FA_derive. lra.
    + intros t Ht. unfold fE, Rdiv. pose proof (exp_pos (- t)) as EP. clearbody e.
      assert (U : 0 < / t <= / 500) by (split; [apply Rinv_0_lt_compat; lra|apply Rinv_le_contravar; lra]). set (u := / t) in *. clearbody u.
      assert (U6 : u ^ 6 <= (/ 500) ^ 6) by (apply pow_incr; lra). 
      replace ((1 + e) * - (exp (- t) * (u - 720 * u ^ 7))) with (- (exp (- t) * (u * ((1 + e) - 720 * u ^ 6 * (1 + e))))) by ring.
      apply Ropp_le_contravar. apply Rmult_le_compat_l; [lra|]. rewrite <- (Rmult_1_r u) at 1. apply Rmult_le_compat_l; [lra|].
      assert (720 * u ^ 6 * (1 + e) <= 720 * (/ 500) ^ 6 * (1 + e)) by (apply Rmult_le_compat_r; lra). lra.
    + intros t Ht. pose proof (sA_bounds t ltac:(lra)). apply Rmult_le_pos; [lra|]. unfold FA. apply Rmult_le_pos; [|lra].
      apply Rmult_le_pos; [left; apply exp_pos|left; apply Rinv_0_lt_compat; lra].
Qed.
Lemma elog1p_Fin x : -1 < x -> elog1p (Fin x) = Fin (ln (1 + x)).
Proof. intros X. cbn [elog1p]. destruct (Raux.Rcompare_spec x (-1)); [lra|lra|reflexivity]. Qed.
Lemma logexpint1_acc x v : 0 < x -> is_E1 x v ->
  exists y, logexpint1 earith eeuler etoint elog elog1p (Fin x) = ret (Fin y) /\ Rabs (y - ln v) <= 24 / 10 ^ 17 * (1 + Rabs (ln v)).
Proof.
  intros X V. unfold logexpint1.
  change (a_ofZ earith) with (fun z => Fin (IZR z)). cbn beta. change (a_cmp earith) with ecmp.
  replace (CSem.ltb ecmp (Fin x) (Fin 0)) with false by (symmetry; apply ltb_Fin_false; lra).
  replace (CSem.eqb ecmp (Fin x) (Fin 0)) with false by (symmetry; apply eqb_Fin_false; lra).
  set (e := 24 / 10 ^ 17). assert (E0 : 0 < e) by (unfold e; cbn [pow]; lra). pose proof (Rabs_pos (ln v)) as AP.
  destruct (CSem.leb ecmp (Fin x) (Fin 1)) eqn:L.
  { apply leb_Fin in L. rewrite expint1_01_Fin by exact X. destruct (PS_acc x v ltac:(lra) V) as [A B].
    assert (T : 2 / 10 ^ 20 <= 1 / 10 ^ 18 * (1 / 10)) by (cbn [pow]; lra). set (d := 2 / 10 ^ 20) in *. set (d' := 1 / 10 ^ 18) in *.
    assert (D1 : d' <= e / 2) by (unfold d', e; cbn [pow]; lra). assert (D2 : d' < 1 / 2) by (unfold d'; cbn [pow]; lra). assert (D3 : 0 < d') by (unfold d'; cbn [pow]; lra).
    clearbody d d' e. apply Rabs_le_between in A.
    assert (P : 1 / 10 < PS x) by nra. rewrite elog_Fin by lra. eexists. split; [reflexivity|].
    assert (G : Rabs (ln (PS x) - ln v) <= d').
    { destruct (Rle_dec v (PS x)) as [H|H].
      - pose proof (ln_gap v (PS x) d' ltac:(lra) ltac:(nra)). apply Rabs_le; lra.
      - pose proof (ln_gap (PS x) v d' ltac:(lra) ltac:(nra)). apply Rabs_le; lra. }
    eapply Rle_trans; [exact G|]. nra. }
  apply leb_Fin_false in L. destruct (CSem.leb ecmp (Fin x) (Fin 500)) eqn:L5.
  - destruct (expint1_t_acc x v L V) as (t & E & TP & A). rewrite E. cbn [ret bind]. rewrite elog_Fin by exact TP.
    eexists. split; [reflexivity|]. fold e in A. pose proof (exp_pos (- x)) as EP.
    assert (VP : 0 < v). { assert (0 < exp (- x) * t) by nra. apply (Rmult_lt_reg_r (1 + e)); [lra|]. lra. }
    pose proof (ln_gap v (exp (- x) * t) e ltac:(lra) ltac:(lra)) as G. rewrite ln_mult, ln_exp in G by assumption.
    apply Rabs_le. clearbody e. nra.
  - apply leb_Fin_false in L5. pose proof (FA_bounds x v ltac:(lra) V) as [B1 B2]. pose proof (sA_bounds x ltac:(lra)) as SB.
    cbn [a_add a_sub a_mul a_div a_opp earith]. rewrite ediv_Fin by lra. unfold esub. cbn [eopp eadd].
    rewrite ediv_Fin by lra. cbn [eadd]. rewrite ediv_Fin by lra. cbn [eadd]. rewrite ediv_Fin by lra. cbn [eadd]. rewrite ediv_Fin by lra.
    change (24 + - (120 / x)) with (24 - 120 / x). change ((-1 + (2 + (-6 + (24 - 120 / x) / x) / x) / x) / x) with (sA x).
    rewrite elog1p_Fin by lra. rewrite elog_Fin by lra. cbn [eopp eadd]. eexists. split; [reflexivity|].
    pose proof (exp_pos (- x)) as EP. assert (EX : 0 < exp (- x) / x) by (apply Rdiv_lt_0_compat; lra).
    assert (FP : 0 < FA x) by (unfold FA; apply Rmult_lt_0_compat; lra).
    assert (LF : ln (FA x) = - x + - ln x + ln (1 + sA x)).
    { unfold FA, Rdiv. rewrite !ln_mult, ln_exp, ln_Rinv; try lra; try (apply Rinv_0_lt_compat; lra). }
    rewrite <- LF. pose proof (ln_gap (FA x) v (48 / 10 ^ 15) ltac:(lra) B2) as G.
    assert (LV : ln v <= - (499)).
    { assert (LX : 0 <= ln x) by (rewrite <- ln_1; apply ln_le; lra). assert (ln (1 + sA x) <= 0) by (rewrite <- ln_1; apply ln_le; lra).
      assert (48 / 10 ^ 15 <= 1) by (cbn [pow]; lra). lra. }
    rewrite Rabs_minus_sym. rewrite (Rabs_pos_eq (ln v - ln (FA x))) by lra. rewrite (Rabs_left (ln v)) by lra.
    assert (48 / 10 ^ 15 <= e * 500) by (unfold e; cbn [pow]; lra). clearbody e. nra.
Qed.
Lemma logexpint1_special {T} (A : arith T) comb toint log log1p x :
  (CSem.ltb (a_cmp A) x (a_ofZ A 0) = true -> logexpint1 A comb toint log log1p x = ret (a_nan A)) /\
  (CSem.ltb (a_cmp A) x (a_ofZ A 0) = false -> CSem.eqb (a_cmp A) x (a_ofZ A 0) = true -> logexpint1 A comb toint log log1p x = ret (a_inf A)).
Proof. unfold logexpint1. split; [intros ->|intros -> ->]; reflexivity. Qed.

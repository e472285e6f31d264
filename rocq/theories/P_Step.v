(** * P_Step: proofs about step, linearstep, smoothstep3, smoothstep5, invsmoothstep3 *)
From Coq Require Import ZArith Reals List Bool Lra Lia Psatz.
From Flocq Require Import Core BinarySingleNaN.
From Coquelicot Require Import Coquelicot.
From Verif Require Import CSem Num NumP M_Elem S_Elem.
Open Scope R_scope.

(** ** Gluing derivatives *)
Lemma glue_derive f f1 f2 c l :
  (forall x, x <= c -> f x = f1 x) -> (forall x, c <= x -> f x = f2 x) ->
  derivable_pt_lim f1 c l -> derivable_pt_lim f2 c l -> derivable_pt_lim f c l.
Proof.
  intros H1 H2 D1 D2 eps He.
  destruct (D1 eps He) as [d1 K1]. destruct (D2 eps He) as [d2 K2].
  assert (Hd : 0 < Rmin d1 d2) by (apply Rmin_pos; apply cond_pos).
  exists (mkposreal _ Hd). intros h Hh Ha. simpl in Ha.
  assert (Ha1 : Rabs h < d1) by (eapply Rlt_le_trans; [exact Ha|apply Rmin_l]).
  assert (Ha2 : Rabs h < d2) by (eapply Rlt_le_trans; [exact Ha|apply Rmin_r]).
  destruct (Rle_or_lt h 0) as [Hs|Hs].
  - rewrite (H1 (c + h)) by lra. rewrite (H1 c) by lra. apply K1; assumption.
  - rewrite (H2 (c + h)) by lra. rewrite (H2 c) by lra. apply K2; assumption.
Qed.

Lemma local_derive f g x l d : 0 < d -> (forall y, Rabs (y - x) < d -> f y = g y) ->
  derivable_pt_lim g x l -> derivable_pt_lim f x l.
Proof.
  intros Hd E D eps He. destruct (D eps He) as [d1 K].
  assert (Hm : 0 < Rmin d d1) by (apply Rmin_pos; [exact Hd|apply cond_pos]).
  exists (mkposreal _ Hm). intros h Hh Ha. simpl in Ha.
  rewrite (E (x + h)).
  2:{ replace (x + h - x) with h by ring. eapply Rlt_le_trans; [exact Ha|apply Rmin_l]. }
  rewrite (E x).
  2:{ rewrite Rminus_eq_0, Rabs_R0. exact Hd. }
  apply K; [exact Hh|]. eapply Rlt_le_trans; [exact Ha|apply Rmin_r].
Qed.

Definition clamp01 (g : R -> R) (z o : R) (u : R) : R :=
  if Rle_dec u 0 then z else if Rle_dec 1 u then o else g u.

Lemma clamp_lo g z o u : u <= 0 -> clamp01 g z o u = z.
Proof. intros H. unfold clamp01. destruct (Rle_dec u 0); [reflexivity|lra]. Qed.
Lemma clamp_hi g z o u : 1 <= u -> clamp01 g z o u = o.
Proof. intros H. unfold clamp01. destruct (Rle_dec u 0); [lra|]. destruct (Rle_dec 1 u); [reflexivity|lra]. Qed.
Lemma clamp_mid g z o u : g 0 = z -> g 1 = o -> 0 <= u <= 1 -> clamp01 g z o u = g u.
Proof.
  intros H0 H1 H. unfold clamp01. destruct (Rle_dec u 0).
  - replace u with 0 by lra. auto.
  - destruct (Rle_dec 1 u); [replace u with 1 by lra; auto|reflexivity].
Qed.

Lemma clamp_derive g g' z o : g 0 = z -> g 1 = o -> g' 0 = 0 -> g' 1 = 0 ->
  (forall u, derivable_pt_lim g u (g' u)) ->
  forall u, derivable_pt_lim (clamp01 g z o) u (clamp01 g' 0 0 u).
Proof.
  intros H0 H1 D0 D1 D u.
  destruct (Rtotal_order u 0) as [L|[->|L]].
  - rewrite clamp_lo by lra. apply (local_derive _ (fct_cte z) u 0 (- u)); [lra| |apply derivable_pt_lim_const].
    intros y Hy. apply clamp_lo. apply Rabs_def2 in Hy. lra.
  - rewrite clamp_lo by lra. apply (local_derive _ (fun u => if Rle_dec u 0 then z else g u) 0 0 1); [lra| |].
    + intros y Hy. apply Rabs_def2 in Hy. unfold clamp01. destruct (Rle_dec y 0); [reflexivity|]. destruct (Rle_dec 1 y); [lra|reflexivity].
    + apply (glue_derive _ (fct_cte z) g).
      * intros x Hx. destruct (Rle_dec x 0); [reflexivity|lra].
      * intros x Hx. destruct (Rle_dec x 0); [replace x with 0 by lra; auto|reflexivity].
      * apply derivable_pt_lim_const.
      * pose proof (D 0) as Q. rewrite D0 in Q. exact Q.
  - destruct (Rtotal_order u 1) as [L1|[->|L1]].
    + rewrite clamp_mid by (try assumption; lra).
      apply (local_derive _ g u (g' u) (Rmin u (1 - u))); [apply Rmin_pos; lra| |apply D].
      intros y Hy. apply clamp_mid; try assumption.
      pose proof (Rmin_l u (1 - u)). pose proof (Rmin_r u (1 - u)). apply Rabs_def2 in Hy. lra.
    + rewrite clamp_hi by lra. apply (local_derive _ (fun u => if Rle_dec 1 u then o else g u) 1 0 1); [lra| |].
      * intros y Hy. apply Rabs_def2 in Hy. unfold clamp01. destruct (Rle_dec y 0); [lra|]. reflexivity.
      * apply (glue_derive _ g (fct_cte o)).
        -- intros x Hx. destruct (Rle_dec 1 x); [replace x with 1 by lra; auto|reflexivity].
        -- intros x Hx. destruct (Rle_dec 1 x); [reflexivity|lra].
        -- pose proof (D 1) as Q. rewrite D1 in Q. exact Q.
        -- apply derivable_pt_lim_const.
    + rewrite clamp_hi by lra. apply (local_derive _ (fct_cte o) u 0 (u - 1)); [lra| |apply derivable_pt_lim_const].
      intros y Hy. apply clamp_hi. apply Rabs_def2 in Hy. lra.
Qed.

(** Lipschitz functions are continuous. *)
Lemma lipschitz_cont f K : 0 < K -> (forall x y, Rabs (f x - f y) <= K * Rabs (x - y)) -> continuity f.
Proof.
  intros HK H x eps He. exists (eps / K). split; [apply Rdiv_lt_0_compat; lra|].
  intros y [_ Hy]. simpl in *. unfold R_dist in *. eapply Rle_lt_trans; [apply H|].
  apply (Rmult_lt_compat_l K) in Hy; [|lra]. replace (K * (eps / K)) with eps in Hy by (field; lra). exact Hy.
Qed.

(** clamp to [0,1] is 1-Lipschitz *)
Definition cl (u : R) : R := clamp01 (fun u => u) 0 1 u.
Lemma cl_lip x y : Rabs (cl x - cl y) <= 1 * Rabs (x - y).
Proof.
  unfold cl, clamp01. destruct (Rle_dec x 0), (Rle_dec 1 x), (Rle_dec y 0), (Rle_dec 1 y);
    try lra; unfold Rabs; repeat destruct Rcase_abs; lra.
Qed.
Lemma cl_cont : continuity cl.
Proof. apply (lipschitz_cont cl 1); [lra|apply cl_lip]. Qed.
Lemma cl_range u : 0 <= cl u <= 1.
Proof. unfold cl, clamp01. destruct (Rle_dec u 0), (Rle_dec 1 u); lra. Qed.
Lemma clamp_cl g z o u : g 0 = z -> g 1 = o -> clamp01 g z o u = g (cl u).
Proof.
  intros H0 H1. unfold cl, clamp01. destruct (Rle_dec u 0); [auto|]. destruct (Rle_dec 1 u); auto.
Qed.

(** ** From a profile on [0,1] to a transition *)
Section Profile.
  Context (g : R -> R).
  Context (g0 : g 0 = 0) (g1 : g 1 = 1).
  Context (gmono : forall u v, 0 <= u -> u < v -> v <= 1 -> g u < g v).
  Context (gsym : forall u, g (1 - u) = 1 - g u).
  Context (gcont : continuity g).
  Context (a b fa fb : R) (Hab : a < b).

  Definition trans (x : R) : R := fa + (fb - fa) * clamp01 g 0 1 ((x - a) / (b - a)).

  Lemma g_range u : 0 <= u <= 1 -> 0 <= g u <= 1.
  Proof.
    intros H. split.
    - destruct (Req_dec u 0) as [->|N]; [lra|]. rewrite <- g0. left. apply gmono; lra.
    - destruct (Req_dec u 1) as [->|N]; [lra|]. rewrite <- g1. left. apply gmono; lra.
  Qed.

  Lemma u_le0 x : x <= a -> (x - a) / (b - a) <= 0.
  Proof. intros H. apply Rmult_le_reg_r with (b - a); [lra|]. unfold Rdiv. rewrite Rmult_assoc, Rinv_l by lra. lra. Qed.
  Lemma u_ge1 x : b <= x -> 1 <= (x - a) / (b - a).
  Proof. intros H. apply Rmult_le_reg_r with (b - a); [lra|]. unfold Rdiv. rewrite Rmult_assoc, Rinv_l by lra. lra. Qed.
  Lemma u_in x : a <= x <= b -> 0 <= (x - a) / (b - a) <= 1.
  Proof. intros H. split; (apply Rmult_le_reg_r with (b - a); [lra|]); unfold Rdiv; rewrite Rmult_assoc, Rinv_l by lra; lra. Qed.

  Lemma trans_mid x : a <= x <= b -> trans x = fa + (fb - fa) * g ((x - a) / (b - a)).
  Proof. intros H. unfold trans. rewrite clamp_mid; [reflexivity|assumption|assumption|apply u_in; exact H]. Qed.

  Lemma trans_ok : transition trans a b fa fb.
  Proof.
    split.
    - intros x H. unfold trans. rewrite clamp_lo by (apply u_le0; exact H). ring.
    - intros x H. unfold trans. rewrite clamp_hi by (apply u_ge1; exact H). ring.
    - intros Hf x y H1 H2 H3. rewrite !trans_mid by lra. apply Rplus_lt_compat_l, Rmult_lt_compat_l; [lra|].
      destruct (u_in x) as [U1 U2]; [lra|]. destruct (u_in y) as [V1 V2]; [lra|].
      apply gmono; try assumption. apply Rmult_lt_compat_r; [apply Rinv_0_lt_compat; lra|lra].
    - intros Hf x y H1 H2 H3. rewrite !trans_mid by lra.
      destruct (u_in x) as [U1 U2]; [lra|]. destruct (u_in y) as [V1 V2]; [lra|].
      assert (g ((x - a) / (b - a)) < g ((y - a) / (b - a))).
      { apply gmono; try assumption. apply Rmult_lt_compat_r; [apply Rinv_0_lt_compat; lra|lra]. }
      nra.
    - intros E x. unfold trans. rewrite E. ring.
    - intros x. unfold trans. rewrite clamp_cl by assumption.
      pose proof (g_range _ (cl_range ((x - a) / (b - a)))) as [G1 G2].
      unfold Rmin, Rmax. destruct (Rle_dec fa fb); split; nra.
    - intros x. unfold trans. replace ((a + b - x - a) / (b - a)) with (1 - (x - a) / (b - a)) by (field; lra).
      set (u := (x - a) / (b - a)). clearbody u.
      replace (clamp01 g 0 1 (1 - u)) with (1 - clamp01 g 0 1 u); [ring|].
      destruct (Rle_or_lt u 0); [rewrite clamp_lo, clamp_hi by lra; lra|].
      destruct (Rle_or_lt 1 u); [rewrite clamp_hi, clamp_lo by lra; lra|].
      rewrite !clamp_mid by (try assumption; lra). rewrite gsym. reflexivity.
    - intros x. unfold trans.
      apply (continuity_pt_plus (fct_cte fa)); [apply continuity_pt_const; intros ? ?; reflexivity|].
      apply (continuity_pt_mult (fct_cte (fb - fa))); [apply continuity_pt_const; intros ? ?; reflexivity|].
      apply continuity_pt_ext with (fun x => g (cl ((x - a) / (b - a)))).
      { intros y. symmetry. apply clamp_cl; assumption. }
      apply (continuity_pt_comp (fun x => cl ((x - a) / (b - a))) g); [|apply gcont].
      apply (continuity_pt_comp (fun x => (x - a) / (b - a)) cl); [|apply cl_cont].
      apply derivable_continuous_pt. auto_derive. exact I.
  Qed.

  Lemma affine_derive x : derivable_pt_lim (fun x => (x - a) / (b - a)) x (/ (b - a)).
  Proof. apply is_derive_Reals. auto_derive; [exact I|field; lra]. Qed.

  Lemma trans_derive (g' : R -> R) : g' 0 = 0 -> g' 1 = 0 -> (forall u, derivable_pt_lim g u (g' u)) ->
    forall x, derivable_pt_lim trans x ((fb - fa) / (b - a) * clamp01 g' 0 0 ((x - a) / (b - a))).
  Proof.
    intros H0 H1 D x. unfold trans.
    replace ((fb - fa) / (b - a) * clamp01 g' 0 0 ((x - a) / (b - a)))
      with (0 + (0 * clamp01 g 0 1 ((x - a) / (b - a)) + (fb - fa) * (clamp01 g' 0 0 ((x - a) / (b - a)) * / (b - a))))
      by (field; lra).
    apply (derivable_pt_lim_plus (fct_cte fa) (fun x => (fb - fa) * clamp01 g 0 1 ((x - a) / (b - a)))); [apply derivable_pt_lim_const|].
    apply (derivable_pt_lim_mult (fct_cte (fb - fa)) (fun x => clamp01 g 0 1 ((x - a) / (b - a)))); [apply derivable_pt_lim_const|].
    apply (derivable_pt_lim_comp (fun x => (x - a) / (b - a)) (clamp01 g 0 1)); [apply affine_derive|].
    apply clamp_derive; assumption.
  Qed.

  Lemma clamp_comp_cont (h : R -> R) k : h 0 = 0 -> h 1 = 0 -> continuity h ->
    continuity (fun x => k * clamp01 h 0 0 ((x - a) / (b - a))).
  Proof.
    intros H0 H1 Ch x.
    apply (continuity_pt_mult (fct_cte k)); [apply continuity_pt_const; intros ? ?; reflexivity|].
    apply continuity_pt_ext with (fun x => h (cl ((x - a) / (b - a)))).
    { intros y. symmetry. apply clamp_cl; assumption. }
    apply (continuity_pt_comp (fun x => cl ((x - a) / (b - a))) h); [|apply Ch].
    apply (continuity_pt_comp (fun x => (x - a) / (b - a)) cl); [|apply cl_cont].
    apply derivable_continuous_pt. auto_derive. exact I.
  Qed.

  Lemma trans_C1 (g' : R -> R) : g' 0 = 0 -> g' 1 = 0 -> (forall u, derivable_pt_lim g u (g' u)) -> continuity g' ->
    C1_flat trans a b.
  Proof.
    intros H0 H1 D C. exists (fun x => (fb - fa) / (b - a) * clamp01 g' 0 0 ((x - a) / (b - a))).
    split; [apply trans_derive; assumption|]. split; [apply clamp_comp_cont; assumption|].
    intros x [H|H]; [rewrite clamp_lo by (apply u_le0; exact H)|rewrite clamp_hi by (apply u_ge1; exact H)]; ring.
  Qed.

  Lemma trans_C2 (g' g'' : R -> R) : g' 0 = 0 -> g' 1 = 0 -> g'' 0 = 0 -> g'' 1 = 0 ->
    (forall u, derivable_pt_lim g u (g' u)) -> (forall u, derivable_pt_lim g' u (g'' u)) -> continuity g'' ->
    C2_flat trans a b.
  Proof.
    intros H0 H1 H2 H3 D D' C. exists (fun x => (fb - fa) / (b - a) * clamp01 g' 0 0 ((x - a) / (b - a))).
    exists (fun x => (fb - fa) / (b - a) / (b - a) * clamp01 g'' 0 0 ((x - a) / (b - a))).
    split; [apply trans_derive; assumption|]. split; [|split; [apply clamp_comp_cont; assumption|]].
    - intros x. set (k := (fb - fa) / (b - a)).
      replace (k / (b - a) * clamp01 g'' 0 0 ((x - a) / (b - a)))
        with (0 * clamp01 g' 0 0 ((x - a) / (b - a)) + k * (clamp01 g'' 0 0 ((x - a) / (b - a)) * / (b - a)))
        by (field; lra).
      apply (derivable_pt_lim_mult (fct_cte k) (fun x => clamp01 g' 0 0 ((x - a) / (b - a)))); [apply derivable_pt_lim_const|].
      apply (derivable_pt_lim_comp (fun x => (x - a) / (b - a)) (clamp01 g' 0 0)); [apply affine_derive|].
      apply clamp_derive; assumption.
    - intros x [H|H]; [rewrite !clamp_lo by (apply u_le0; exact H)|rewrite !clamp_hi by (apply u_ge1; exact H)]; split; ring.
  Qed.
End Profile.

(** ** The profiles *)
Definition p1 (u : R) : R := u.
Definition p3 (u : R) : R := u * u * (3 - 2 * u).
Definition p5 (u : R) : R := u * u * u * (u * (6 * u - 15) + 10).

Ltac poly_cont := let z := fresh in intros z; apply derivable_continuous_pt; unfold p1, p3, p5; auto_derive; exact I.

Lemma p3_mono u v : 0 <= u -> u < v -> v <= 1 -> p3 u < p3 v.
Proof.
  intros H1 H2 H3. unfold p3.
  assert (E : v * v * (3 - 2 * v) - u * u * (3 - 2 * u)
              = (v - u) * (3 * (u + v) - 2 * (u * u + u * v + v * v))) by ring.
  assert (0 < 3 * (u + v) - 2 * (u * u + u * v + v * v)).
  { assert (0 < v) by lra.
    assert (u * u <= u) by nra. assert (v * v <= v) by nra. assert (u * v <= u) by nra. assert (0 <= u * v) by nra.
    assert (u * v < v) by nra. assert (2 * (u*v) < u + v) by lra. lra. }
  nra.
Qed.

Lemma p5_mono u v : 0 <= u -> u < v -> v <= 1 -> p5 u < p5 v.
Proof.
  intros H1 H2 H3.
  (* p5' = 30 u^2 (1-u)^2 *)
  destruct (MVT_gen p5 u v (fun t => 30 * (t * (1 - t)) * (t * (1 - t)))) as (c & Hc & E).
  - intros x _. unfold p5. auto_derive; [exact I|ring].
  - intros x _. apply derivable_continuous_pt. unfold p5. auto_derive. exact I.
  - (* strictness: the mean value point may be an endpoint; use the factorisation instead *)
    clear c Hc E. unfold p5.
    assert (E : v * v * v * (v * (6 * v - 15) + 10) - u * u * u * (u * (6 * u - 15) + 10)
      = (v - u) * (10 * (u*u + u*v + v*v) - 15 * (u*u*u + u*u*v + u*v*v + v*v*v)
                   + 6 * (u*u*u*u + u*u*u*v + u*u*v*v + u*v*v*v + v*v*v*v))) by ring.
    assert (P : 0 < 10 * (u*u + u*v + v*v) - 15 * (u*u*u + u*u*v + u*v*v + v*v*v)
                   + 6 * (u*u*u*u + u*u*u*v + u*u*v*v + u*v*v*v + v*v*v*v)).
    { clear E. set (m := (u + v) / 2). set (d := (v - u) / 2).
      replace u with (m - d) by (unfold m, d; lra). replace v with (m + d) by (unfold m, d; lra).
      assert (Hd : 0 < d) by (unfold d; lra). assert (Hm1 : d <= m) by (unfold m, d; lra).
      assert (Hm2 : m + d <= 1) by (unfold m, d; lra).
      match goal with |- 0 < ?e => replace e with
        (30 * (m * (1 - m)) * (m * (1 - m)) + 10 * (d*d) * (6 * (m*m) - 6 * m + 1) + 6 * (d*d*d*d)) by ring end.
      clearbody m d. clear u v H1 H2 H3.
      assert (Q1 : d * d <= m * m) by nra. assert (Q2 : d * d <= (1 - m) * (1 - m)) by nra.
      assert (Q3 : d * d <= m * (1 - m)) by nra.
      assert (0 < m * (1 - m)) by nra.
      set (w := m * (1 - m)) in *.
      replace (6 * (m*m) - 6 * m + 1) with (1 - 6 * w) by (unfold w; ring).
      assert (Hw : 4 * w <= 1) by (unfold w; pose proof (Rle_0_sqr (1 - 2 * m)) as Sq; unfold Rsqr in Sq; lra). assert (0 < d * d) by nra.
      replace (d * d * d * d) with ((d*d) * (d*d)) by ring. set (e := d * d) in *.
      clearbody e w.
      replace (30 * w * w + 10 * e * (1 - 6 * w) + 6 * (e * e)) with (30 * ((w - e) * (w - e)) + e * (10 - 24 * e)) by ring.
      pose proof (Rle_0_sqr (w - e)) as Sq. unfold Rsqr in Sq. assert (0 < e * (10 - 24 * e)) by (apply Rmult_lt_0_compat; lra). lra. }
    nra.
Qed.

(** ** The model on real arguments *)
Ltac esimp := cbn [earith a_cmp a_add a_sub a_mul a_div a_opp a_ofZ a_nan a_inf a_sqrt a_isinf eadd esub emul eopp].

Lemma linearstep_val x a b fa fb : a < b ->
  linearstep earith (Fin x) (Fin a) (Fin b) (Fin fa) (Fin fb) = Fin (trans p1 a b fa fb x).
Proof.
  intros H. unfold linearstep. esimp. rewrite (proj2 (gtb_Fin_false _ _)) by lra.
  destruct (leb ecmp (Fin x) (Fin a)) eqn:E1.
  - apply leb_Fin in E1. f_equal. symmetry. unfold trans. rewrite clamp_lo by (apply u_le0; assumption). ring.
  - apply leb_Fin_false in E1. destruct (geb ecmp (Fin x) (Fin b)) eqn:E2.
    + apply geb_Fin in E2. f_equal. symmetry. unfold trans. rewrite clamp_hi by (apply u_ge1; lra). ring.
    + apply geb_Fin_false in E2. rewrite (proj2 (eqb_Fin_false _ _)) by lra.
      esimp. rewrite !ediv_Fin by lra. esimp. f_equal. rewrite trans_mid; [|reflexivity|reflexivity|exact H|lra].
      unfold p1, Rminus. rewrite <- ?Ropp_mult_distr_l. ring.
Qed.

Lemma smoothstep3_val x a b fa fb : a < b ->
  smoothstep3 earith (Fin x) (Fin a) (Fin b) (Fin fa) (Fin fb) = Fin (trans p3 a b fa fb x).
Proof.
  intros H. unfold smoothstep3. esimp. rewrite (proj2 (gtb_Fin_false _ _)) by lra.
  destruct (leb ecmp (Fin x) (Fin a)) eqn:E1.
  - apply leb_Fin in E1. f_equal. symmetry. unfold trans. rewrite clamp_lo by (apply u_le0; assumption). ring.
  - apply leb_Fin_false in E1. destruct (geb ecmp (Fin x) (Fin b)) eqn:E2.
    + apply geb_Fin in E2. f_equal. symmetry. unfold trans. rewrite clamp_hi by (apply u_ge1; lra). ring.
    + apply geb_Fin_false in E2. rewrite (proj2 (eqb_Fin_false _ _)) by lra.
      esimp. rewrite !ediv_Fin by lra. esimp. f_equal. rewrite trans_mid; [|unfold p3; ring|unfold p3; ring|exact H|lra].
      unfold p3, Rminus. ring.
Qed.

Lemma smoothstep5_val x a b fa fb : a < b ->
  smoothstep5 earith (Fin x) (Fin a) (Fin b) (Fin fa) (Fin fb) = Fin (trans p5 a b fa fb x).
Proof.
  intros H. unfold smoothstep5. esimp. rewrite (proj2 (gtb_Fin_false _ _)) by lra.
  destruct (leb ecmp (Fin x) (Fin a)) eqn:E1.
  - apply leb_Fin in E1. f_equal. symmetry. unfold trans. rewrite clamp_lo by (apply u_le0; assumption). ring.
  - apply leb_Fin_false in E1. destruct (geb ecmp (Fin x) (Fin b)) eqn:E2.
    + apply geb_Fin in E2. f_equal. symmetry. unfold trans. rewrite clamp_hi by (apply u_ge1; lra). ring.
    + apply geb_Fin_false in E2. rewrite (proj2 (eqb_Fin_false _ _)) by lra.
      esimp. rewrite !ediv_Fin by lra. esimp. f_equal. rewrite trans_mid; [|unfold p5; ring|unfold p5; ring|exact H|lra].
      unfold p5, Rminus. ring.
Qed.

Lemma linearstep_shape a b fa fb : a < b ->
  exists f, computes (fun x => linearstep earith x (Fin a) (Fin b) (Fin fa) (Fin fb)) f /\
    transition f a b fa fb /\
    (forall x, a <= x <= b -> f x = fa + (fb - fa) * ((x - a) / (b - a))).
Proof.
  intros H. exists (trans p1 a b fa fb). split; [intros x; apply linearstep_val; exact H|]. split.
  - apply trans_ok; try (unfold p1; intros; lra); poly_cont.
  - intros x Hx. apply trans_mid; try reflexivity; assumption.
Qed.

Lemma smoothstep3_shape a b fa fb : a < b ->
  exists f, computes (fun x => smoothstep3 earith x (Fin a) (Fin b) (Fin fa) (Fin fb)) f /\
    transition f a b fa fb /\ C1_flat f a b /\
    (forall x, a <= x <= b -> exists u, u * (b - a) = x - a /\ f x = fa + (fb - fa) * (3 * u ^ 2 - 2 * u ^ 3)).
Proof.
  intros H. exists (trans p3 a b fa fb). split; [intros x; apply smoothstep3_val; exact H|]. split; [|split].
  - apply trans_ok; try (unfold p3; intros; ring); [apply p3_mono|poly_cont|exact H].
  - apply (trans_C1 p3 ltac:(unfold p3; ring) ltac:(unfold p3; ring) a b fa fb H (fun u => 6 * u * (1 - u))); try ring.
    + intros u. apply is_derive_Reals. unfold p3. auto_derive; [exact I|ring].
    + poly_cont.
  - intros x Hx. exists ((x - a) / (b - a)). split; [field; lra|].
    rewrite trans_mid; [unfold p3; ring|unfold p3; ring|unfold p3; ring|exact H|exact Hx].
Qed.

Lemma smoothstep5_shape a b fa fb : a < b ->
  exists f, computes (fun x => smoothstep5 earith x (Fin a) (Fin b) (Fin fa) (Fin fb)) f /\
    transition f a b fa fb /\ C2_flat f a b /\
    (forall x, a <= x <= b -> exists u, u * (b - a) = x - a /\ f x = fa + (fb - fa) * (6 * u ^ 5 - 15 * u ^ 4 + 10 * u ^ 3)).
Proof.
  intros H. exists (trans p5 a b fa fb). split; [intros x; apply smoothstep5_val; exact H|]. split; [|split].
  - apply trans_ok; try (unfold p5; intros; ring); [apply p5_mono|poly_cont|exact H].
  - apply (trans_C2 p5 ltac:(unfold p5; ring) ltac:(unfold p5; ring) a b fa fb H (fun u => 30 * (u * (1 - u)) * (u * (1 - u)))
             (fun u => 60 * (u * (1 - u)) * (1 - 2 * u))); try ring.
    + intros u. apply is_derive_Reals. unfold p5. auto_derive; [exact I|ring].
    + intros u. apply is_derive_Reals. auto_derive; [exact I|ring].
    + poly_cont.
  - intros x Hx. exists ((x - a) / (b - a)). split; [field; lra|].
    rewrite trans_mid; [unfold p5; ring|unfold p5; ring|unfold p5; ring|exact H|exact Hx].
Qed.

(** a = b: a jump with the mid value at a *)
Lemma steps_jump x a fa fb :
  let v := Fin (if Rlt_dec x a then fa else if Rlt_dec a x then fb else fa) in
  linearstep earith (Fin x) (Fin a) (Fin a) (Fin fa) (Fin fb) = v /\
  smoothstep3 earith (Fin x) (Fin a) (Fin a) (Fin fa) (Fin fb) = v /\
  smoothstep5 earith (Fin x) (Fin a) (Fin a) (Fin fa) (Fin fb) = v.
Proof.
  cbv zeta. unfold linearstep, smoothstep3, smoothstep5. esimp. rewrite (proj2 (gtb_Fin_false _ _)) by lra.
  destruct (leb ecmp (Fin x) (Fin a)) eqn:E1.
  - apply leb_Fin in E1. destruct (Rlt_dec x a); [auto|]. destruct (Rlt_dec a x); [lra|auto].
  - apply leb_Fin_false in E1. rewrite (proj2 (geb_Fin _ _)) by lra.
    destruct (Rlt_dec x a); [lra|]. destruct (Rlt_dec a x); [auto|lra].
Qed.

(** ** invsmoothstep3 *)
Lemma sin3 t : sin (3 * t) = 3 * sin t - 4 * sin t ^ 3.
Proof.
  replace (3 * t) with (2 * t + t) by ring. rewrite sin_plus, sin_2a, cos_2a.
  pose proof (sin2_cos2 t) as H. unfold Rsqr in H.
  replace (cos t * cos t) with (1 - sin t * sin t) by lra.
  transitivity (2 * sin t * (cos t * cos t) + (1 - 2 * (sin t * sin t)) * sin t); [ring|].
  replace (cos t * cos t) with (1 - sin t * sin t) by lra. ring.
Qed.

Definition sval (t : R) : R := / 2 - sin (asin (1 - 2 * t) / 3).

Lemma sval_range t : 0 <= t <= 1 -> 0 <= sval t <= 1.
Proof.
  intros H. unfold sval. pose proof (asin_bound (1 - 2 * t)) as B. pose proof PI_RGT_0.
  set (th := asin (1 - 2 * t)) in *.
  assert (S6 : sin (PI / 6) = 1 / 2) by apply sin_PI6.
  assert (sin (th / 3) <= sin (PI / 6)) by (apply sin_incr_1; lra).
  assert (sin (- (PI / 6)) <= sin (th / 3)) by (apply sin_incr_1; lra).
  rewrite sin_neg, S6 in *. lra.
Qed.

Lemma p3_sval t : 0 <= t <= 1 -> p3 (sval t) = t.
Proof.
  intros H. unfold sval, p3. set (th := asin (1 - 2 * t) / 3).
  assert (E : sin (3 * th) = 1 - 2 * t).
  { unfold th. replace (3 * (asin (1 - 2 * t) / 3)) with (asin (1 - 2 * t)) by field. apply sin_asin. lra. }
  rewrite sin3 in E. set (v := sin th) in *. clearbody v. simpl in E. nra.
Qed.

Lemma p3_inj u v : 0 <= u <= 1 -> 0 <= v <= 1 -> p3 u = p3 v -> u = v.
Proof.
  intros Hu Hv E. destruct (Rtotal_order u v) as [L|[L|L]]; [|exact L|].
  - pose proof (p3_mono u v ltac:(lra) L ltac:(lra)). lra.
  - pose proof (p3_mono v u ltac:(lra) L ltac:(lra)). lra.
Qed.

Lemma sval_p3 u : 0 <= u <= 1 -> sval (p3 u) = u.
Proof.
  intros H.
  assert (R : 0 <= p3 u <= 1) by (apply (g_range p3); [unfold p3; ring|unfold p3; ring|apply p3_mono|exact H]).
  apply p3_inj; [apply sval_range; exact R|exact H|]. apply p3_sval. exact R.
Qed.

Lemma sval_0 : sval 0 = 0.
Proof. replace 0 with (p3 0) at 1 by (unfold p3; ring). apply sval_p3. lra. Qed.
Lemma sval_1 : sval 1 = 1.
Proof. replace 1 with (p3 1) at 1 by (unfold p3; ring). apply sval_p3. lra. Qed.

Lemma inv_val y a b fa fb : fa <> fb -> Rmin fa fb <= y <= Rmax fa fb ->
  invsmoothstep3 earith esin easin (Fin y) (Fin a) (Fin b) (Fin fa) (Fin fb)
  = Fin (a + (b - a) * sval ((y - fa) / (fb - fa))).
Proof.
  intros N Hy. unfold invsmoothstep3. esimp. rewrite (proj2 (eqb_Fin_false _ _)) by exact N.
  destruct (eqb ecmp (Fin y) (Fin fa)) eqn:E1.
  { apply eqb_Fin in E1. subst y. f_equal. replace ((fa - fa) / (fb - fa)) with 0 by (field; lra). rewrite sval_0. ring. }
  apply eqb_Fin_false in E1. destruct (eqb ecmp (Fin y) (Fin fb)) eqn:E2.
  { apply eqb_Fin in E2. subst y. f_equal. replace ((fb - fa) / (fb - fa)) with 1 by (field; lra). rewrite sval_1. ring. }
  apply eqb_Fin_false in E2.
  assert (Ht : 0 <= (y - fa) / (fb - fa) <= 1).
  { unfold Rmin, Rmax in Hy. destruct (Rle_dec fa fb).
    - apply u_in; lra.
    - replace ((y - fa) / (fb - fa)) with (1 - (y - fb) / (fa - fb)) by (field; lra).
      pose proof (u_in fb fa ltac:(lra) y ltac:(lra)). lra. }
  destruct (if ltb ecmp (Fin fa) (Fin fb) then (Fin fb, Fin fa) else (Fin fa, Fin fb)) as [up lo] eqn:E.
  assert (up = Fin (Rmax fa fb) /\ lo = Fin (Rmin fa fb)) as [-> ->].
  { destruct (ltb ecmp (Fin fa) (Fin fb)) eqn:L; injection E as <- <-.
    - apply ltb_Fin in L. rewrite Rmax_right, Rmin_left by lra. auto.
    - apply ltb_Fin_false in L. rewrite Rmax_left, Rmin_right by lra. auto. }
  rewrite (proj2 (gtb_Fin_false _ _)) by lra. rewrite (proj2 (ltb_Fin_false _ _)) by lra. cbn [orb].
  rewrite !ediv_Fin by lra. esimp. unfold easin.
  change (fb + - fa) with (fb - fa). change (y + - fa) with (y - fa).
  set (t := (y - fa) / (fb - fa)) in *. cbn [emul eopp eadd].
  destruct (Rle_dec (-1) (1 + - (2 * t))) as [Q1|Q1]; [|exfalso; lra].
  destruct (Rle_dec (1 + - (2 * t)) 1) as [Q2|Q2]; [|exfalso; lra].
  rewrite !ediv_Fin by lra. cbn [esin esub eadd eopp emul].
  f_equal. unfold sval. change (1 - 2 * t) with (1 + - (2 * t)). unfold Rminus. field.
Qed.

Lemma inv_outside y a b fa fb : y < Rmin fa fb \/ Rmax fa fb < y ->
  invsmoothstep3 earith esin easin (Fin y) (Fin a) (Fin b) (Fin fa) (Fin fb) = ENaN.
Proof.
  intros Hy. unfold invsmoothstep3. esimp. destruct (eqb ecmp (Fin fa) (Fin fb)); [reflexivity|].
  pose proof (Rmin_l fa fb). pose proof (Rmin_r fa fb). pose proof (Rmax_l fa fb). pose proof (Rmax_r fa fb).
  rewrite !(proj2 (eqb_Fin_false _ _)) by (destruct Hy; lra).
  destruct (if ltb ecmp (Fin fa) (Fin fb) then (Fin fb, Fin fa) else (Fin fa, Fin fb)) as [up lo] eqn:E.
  assert (up = Fin (Rmax fa fb) /\ lo = Fin (Rmin fa fb)) as [-> ->].
  { destruct (ltb ecmp (Fin fa) (Fin fb)) eqn:L; injection E as <- <-.
    - apply ltb_Fin in L. rewrite Rmax_right, Rmin_left by lra. auto.
    - apply ltb_Fin_false in L. rewrite Rmax_left, Rmin_right by lra. auto. }
  destruct Hy as [Hy|Hy].
  - rewrite (proj2 (ltb_Fin _ _)) by exact Hy. rewrite orb_true_r. reflexivity.
  - rewrite (proj2 (gtb_Fin _ _)) by exact Hy. reflexivity.
Qed.

(** both compositions *)
Lemma inv_left x a b fa fb : a < b -> fa <> fb -> a <= x <= b ->
  exists y, smoothstep3 earith (Fin x) (Fin a) (Fin b) (Fin fa) (Fin fb) = Fin y /\
    invsmoothstep3 earith esin easin (Fin y) (Fin a) (Fin b) (Fin fa) (Fin fb) = Fin x.
Proof.
  intros H N Hx. exists (trans p3 a b fa fb x). split; [apply smoothstep3_val; exact H|].
  assert (Tr : transition (trans p3 a b fa fb) a b fa fb)
    by (apply trans_ok; try (unfold p3; intros; ring); [apply p3_mono|poly_cont|exact H]).
  rewrite inv_val; [|exact N|apply (tr_bounds _ _ _ _ _ Tr)].
  rewrite trans_mid; [|unfold p3; ring|unfold p3; ring|exact H|exact Hx].
  replace ((fa + (fb - fa) * p3 ((x - a) / (b - a)) - fa) / (fb - fa)) with (p3 ((x - a) / (b - a))) by (field; lra).
  rewrite sval_p3 by (apply u_in; assumption). f_equal. field. lra.
Qed.

Lemma inv_right y a b fa fb : a < b -> fa <> fb -> Rmin fa fb <= y <= Rmax fa fb ->
  exists x, a <= x <= b /\
    invsmoothstep3 earith esin easin (Fin y) (Fin a) (Fin b) (Fin fa) (Fin fb) = Fin x /\
    smoothstep3 earith (Fin x) (Fin a) (Fin b) (Fin fa) (Fin fb) = Fin y.
Proof.
  intros H N Hy. set (t := (y - fa) / (fb - fa)).
  assert (Ht : 0 <= t <= 1).
  { unfold t. unfold Rmin, Rmax in Hy. destruct (Rle_dec fa fb).
    - apply u_in; lra.
    - replace ((y - fa) / (fb - fa)) with (1 - (y - fb) / (fa - fb)) by (field; lra).
      pose proof (u_in fb fa ltac:(lra) y ltac:(lra)). lra. }
  pose proof (sval_range t Ht) as Hs.
  exists (a + (b - a) * sval t). split; [split; nra|]. split; [apply inv_val; assumption|].
  rewrite smoothstep3_val by exact H. f_equal.
  rewrite trans_mid; [|unfold p3; ring|unfold p3; ring|exact H|split; nra].
  replace ((a + (b - a) * sval t - a) / (b - a)) with (sval t) by (field; lra).
  rewrite p3_sval by exact Ht. unfold t. field. lra.
Qed.

(** the inverse does not check a <= b: smoothstep3 is NaN everywhere but the
    inverse returns a number *)
Lemma inv_no_check :
  exists y a b fa fb r, b < a /\
    (forall x, smoothstep3 earith (Fin x) (Fin a) (Fin b) (Fin fa) (Fin fb) = ENaN) /\
    invsmoothstep3 earith esin easin (Fin y) (Fin a) (Fin b) (Fin fa) (Fin fb) = Fin r.
Proof.
  exists 0, 1, 0, 0, 1, 1. split; [lra|]. split.
  - intros x. unfold smoothstep3. esimp. rewrite (proj2 (gtb_Fin _ _)) by lra. reflexivity.
  - rewrite inv_val; [|lra|rewrite Rmin_left, Rmax_right by lra; lra].
    replace ((0 - 0) / (1 - 0)) with 0 by field. rewrite sval_0. f_equal. ring.
Qed.

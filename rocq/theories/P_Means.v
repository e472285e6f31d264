(** Proofs about the means. *)
From Coq Require Import ZArith Reals List Bool Lia Lra Permutation.
From Flocq Require Import Core BinarySingleNaN.
From Verif Require Import CSem CSemP FoldP Num NumP M_Means S_Stat S_Means P_Kbn P_MeanVar P_Vnorm P_Corr.
Import ListNotations.
Open Scope R_scope.

(** ** real lemmas *)
Lemma rsum_le (f g : R -> R) l : (forall a, In a l -> f a <= g a) -> rsum (map f l) <= rsum (map g l).
Proof. induction l as [|a l IH]; intros H; cbn [map rsum]; [lra|]. pose proof (H a (or_introl eq_refl)). pose proof (IH (fun b Hb => H b (or_intror Hb))). lra. Qed.
Lemma rsum_le2 {T} (f g : T -> R) l : (forall a, In a l -> f a <= g a) -> rsum (map f l) <= rsum (map g l).
Proof. induction l as [|a l IH]; intros H; cbn [map rsum]; [lra|]. pose proof (H a (or_introl eq_refl)). pose proof (IH (fun b Hb => H b (or_intror Hb))). lra. Qed.
Lemma rsum_scal2 {T} (f : T -> R) c l : rsum (map (fun a => c * f a) l) = c * rsum (map f l).
Proof. induction l as [|a l IH]; cbn [map rsum]; [ring|]. rewrite IH. ring. Qed.
Lemma rsum_ext2 {T} (f g : T -> R) l : (forall a, In a l -> f a = g a) -> rsum (map f l) = rsum (map g l).
Proof. intros H. rewrite (map_ext_in f g l H). reflexivity. Qed.
Lemma rsum_add2 {T} (f g : T -> R) l : rsum (map (fun a => f a + g a) l) = rsum (map f l) + rsum (map g l).
Proof. induction l as [|a l IH]; cbn [map rsum]; [ring|]. rewrite IH. ring. Qed.

Lemma ln_mono a b : 0 < a -> a <= b -> ln a <= ln b.
Proof. intros Ha [H| ->]; [left; apply ln_increasing; assumption|right; reflexivity]. Qed.

Lemma ones_w x : rsum (map snd (ones x)) = INR (length x).
Proof. unfold ones. rewrite map_map. cbn. induction x as [|a x IH]; [reflexivity|]. cbn [map rsum length]. rewrite IH, S_INR. ring. Qed.
Lemma ravg_wavg f x : ravg f x = wavg f (ones x).
Proof.
  unfold ravg, wavg. rewrite ones_w. unfold ones. rewrite map_map. cbn. f_equal. apply rsum_ext2. intros; ring.
Qed.
Lemma wavg_bounds f q lo hi : (forall p, In p q -> 0 <= snd p) -> 0 < rsum (map snd q) ->
  (forall p, In p q -> lo <= f (fst p) <= hi) -> lo <= wavg f q <= hi.
Proof.
  intros Hw Sw H. unfold wavg. split.
  - apply (Rmult_le_reg_r (rsum (map snd q))); [exact Sw|]. unfold Rdiv. rewrite Rmult_assoc, Rinv_l by lra.
    rewrite Rmult_1_r, <- rsum_scal2. apply rsum_le2. intros p Hp. pose proof (Hw p Hp). pose proof (H p Hp). nra.
  - apply (Rmult_le_reg_r (rsum (map snd q))); [exact Sw|]. unfold Rdiv. rewrite Rmult_assoc, Rinv_l by lra.
    rewrite Rmult_1_r, <- rsum_scal2. apply rsum_le2. intros p Hp. pose proof (Hw p Hp). pose proof (H p Hp). nra.
Qed.
Lemma wavg_const f q c : rsum (map snd q) <> 0 -> (forall p, In p q -> f (fst p) = c) -> wavg f q = c.
Proof.
  intros Sw H. unfold wavg. rewrite (rsum_ext2 _ (fun p => c * snd p)) by (intros p Hp; rewrite (H p Hp); ring).
  rewrite rsum_scal2. field. exact Sw.
Qed.
Lemma wavg_pos f q : (forall p, In p q -> 0 <= snd p) -> 0 < rsum (map snd q) -> (forall p, In p q -> 0 < f (fst p)) -> 0 < wavg f q.
Proof.
  intros Hw Sw H. unfold wavg. apply Rdiv_lt_0_compat; [|exact Sw].
  assert (G : exists p, In p q /\ 0 < snd p).
  { clear H. induction q as [|p q IH]; [cbn in Sw; lra|]. cbn [map rsum] in Sw.
    destruct (Rlt_dec 0 (snd p)) as [L|L]; [exists p; split; [left; reflexivity|exact L]|].
    destruct IH as (p' & Hp' & L'); [intros r Hr; apply Hw; right; exact Hr|pose proof (Hw p (or_introl eq_refl)); lra|].
    exists p'. split; [right; exact Hp'|exact L']. }
  destruct G as (p & Hp & Lp). apply in_split in Hp. destruct Hp as (q1 & q2 & ->).
  rewrite map_app, rsum_app. cbn [map rsum].
  assert (N1 : 0 <= rsum (map (fun p0 => snd p0 * f (fst p0)) q1)).
  { apply rsum_nonneg. intros b Hb. apply in_map_iff in Hb. destruct Hb as (r & <- & Hr).
    pose proof (Hw r (in_or_app _ _ _ (or_introl Hr))). pose proof (H r (in_or_app _ _ _ (or_introl Hr))). nra. }
  assert (N2 : 0 <= rsum (map (fun p0 => snd p0 * f (fst p0)) q2)).
  { apply rsum_nonneg. intros b Hb. apply in_map_iff in Hb. destruct Hb as (r & <- & Hr).
    assert (Hr' : In r (q1 ++ p :: q2)) by (apply in_or_app; right; right; exact Hr).
    pose proof (Hw r Hr'). pose proof (H r Hr'). nra. }
  pose proof (H p ltac:(apply in_or_app; right; left; reflexivity)). nra.
Qed.

(** the three means of a weighted list lie between bounds of the data *)
Section Bounds.
  Context (q : list (R * R)) (lo hi : R).
  Context (Hw : forall p, In p q -> 0 <= snd p) (Sw : 0 < rsum (map snd q)).
  Lemma gm_bounds : 0 < lo -> (forall p, In p q -> lo <= fst p <= hi) -> lo <= exp (wavg ln q) <= hi.
  Proof.
    intros Hlo H. destruct (wavg_bounds ln q (ln lo) (ln hi) Hw Sw) as [L U].
    - intros p Hp. destruct (H p Hp). split; apply ln_mono; lra.
    - assert (0 < hi). { destruct q as [|p q']; [cbn in Sw; lra|]. destruct (H p (or_introl eq_refl)). lra. }
      rewrite <- (exp_ln lo) at 1 by lra. rewrite <- (exp_ln hi) at 1 by lra.
      split; [destruct L as [L| ->]; [left; apply exp_increasing, L|right; reflexivity]|destruct U as [U| ->]; [left; apply exp_increasing, U|right; reflexivity]].
  Qed.
  Lemma hm_bounds : 0 < lo -> (forall p, In p q -> lo <= fst p <= hi) -> lo <= / wavg Rinv q <= hi.
  Proof.
    intros Hlo H. assert (0 < hi). { destruct q as [|p q']; [cbn in Sw; lra|]. destruct (H p (or_introl eq_refl)). lra. }
    destruct (wavg_bounds Rinv q (/ hi) (/ lo) Hw Sw) as [L U].
    - intros p Hp. destruct (H p Hp). split; apply Rinv_le_contravar; lra.
    - assert (0 < / hi) by (apply Rinv_0_lt_compat; lra).
      rewrite <- (Rinv_inv lo), <- (Rinv_inv hi). split; apply Rinv_le_contravar; lra.
  Qed.
  Lemma rpow_le_pos p a b : 0 < p -> 0 <= a <= b -> rpow a p <= rpow b p.
  Proof.
    intros Hp [Ha Hb]. destruct (Req_dec a 0) as [->|Na]; [rewrite rpow_0; apply rpow_nonneg|].
    rewrite !rpow_pos by lra. apply Rle_Rpower_l; lra.
  Qed.
  Lemma rpow_le_neg p a b : p < 0 -> 0 < a <= b -> rpow b p <= rpow a p.
  Proof.
    intros Hp [Ha Hb]. rewrite !rpow_pos by lra.
    replace p with (- (- p)) by ring. rewrite !(Rpower_Ropp _ (- p)).
    apply Rinv_le_contravar; [apply exp_pos|]. apply Rle_Rpower_l; lra.
  Qed.
  Lemma pm_bounds p : (0 < p /\ 0 <= lo) \/ (p < 0 /\ 0 < lo) -> (forall r, In r q -> lo <= fst r <= hi) ->
    lo <= rpow (wavg (fun a => rpow a p) q) (/ p) <= hi.
  Proof.
    intros Hp H. assert (Hh : lo <= hi). { destruct q as [|r q']; [cbn in Sw; lra|]. destruct (H r (or_introl eq_refl)). lra. }
    destruct Hp as [[Hp Hlo]|[Hp Hlo]].
    - destruct (wavg_bounds (fun a => rpow a p) q (rpow lo p) (rpow hi p) Hw Sw) as [L U].
      + intros r Hr. destruct (H r Hr). split; apply rpow_le_pos; lra.
      + rewrite <- (rpow_inv lo p) at 1 by lra. rewrite <- (rpow_inv hi p) by lra.
        assert (IP : 0 < / p) by (apply Rinv_0_lt_compat, Hp). pose proof (rpow_nonneg lo p).
        split; apply rpow_le_pos; try exact IP; lra.
    - destruct (wavg_bounds (fun a => rpow a p) q (rpow hi p) (rpow lo p) Hw Sw) as [L U].
      + intros r Hr. destruct (H r Hr). split; apply rpow_le_neg; lra.
      + rewrite <- (rpow_inv lo p) at 1 by lra. rewrite <- (rpow_inv hi p) by lra.
        assert (IP : / p < 0) by (apply Rinv_lt_0_compat, Hp).
        assert (0 < rpow hi p) by (rewrite rpow_pos by lra; apply exp_pos).
        split; apply rpow_le_neg; try exact IP; lra.
  Qed.
  (** the geometric mean is at most the arithmetic mean *)
  Lemma gm_am : (forall p, In p q -> 0 < fst p) -> exp (wavg ln q) <= wavg (fun a => a) q.
  Proof.
    intros H. pose proof (wavg_pos (fun a => a) q Hw Sw H) as AP. set (A := wavg (fun a => a) q) in *.
    rewrite <- (exp_ln A) at 1 by exact AP.
    assert (G : wavg ln q <= ln A).
    { assert (E : wavg (fun a => ln A + (a / A - 1)) q = ln A).
      { unfold wavg. rewrite (rsum_ext2 _ (fun p => (ln A - 1) * snd p + / A * (snd p * fst p))) by (intros p Hp; unfold Rdiv; ring).
        rewrite rsum_add2, !rsum_scal2.
        assert (E2 : rsum (map (fun p => snd p * fst p) q) = A * rsum (map snd q)) by (unfold A, wavg; field; lra).
        rewrite E2. field. split; lra. }
      rewrite <- E. unfold wavg. apply Rmult_le_compat_r; [left; apply Rinv_0_lt_compat, Sw|]. apply rsum_le2.
      intros p Hp. apply Rmult_le_compat_l; [apply Hw, Hp|]. pose proof (H p Hp) as P.
      assert (K : ln (fst p / A) <= fst p / A - 1).
      { assert (0 < fst p / A) by (apply Rdiv_lt_0_compat; lra).
        pose proof (exp_ineq1_le (ln (fst p / A))) as X. rewrite exp_ln in X by lra. lra. }
      unfold Rdiv in K at 1. rewrite ln_mult, ln_Rinv in K by (try apply Rinv_0_lt_compat; lra). lra. }
    destruct G as [G|G]; [left; apply exp_increasing, G|right; rewrite G; reflexivity].
  Qed.
End Bounds.

(** ** loops over two arrays *)
Lemma for_loop_two {T T' S R} (m : mem T) p st l (m' : mem T') p' st' l' (body : Z -> S -> M (ctl S R)) f s :
  view m p st l -> view m' p' st' l' -> length l' = length l ->
  (forall k s x y, get m p st k = Some x -> get m' p' st' k = Some y -> body k s = f k (x, y) s) ->
  for_loop 0 (Z.of_nat (length l)) body s = lloop 0 (combine l l') f s.
Proof.
  intros V V' E H.
  assert (EL : length (combine l l') = length l) by (rewrite combine_length, E; apply Nat.min_id).
  unfold for_loop. replace (Z.to_nat (Z.of_nat (length l) - 0)) with (length (combine l l')) by lia.
  assert (G : forall c j s, (forall i q, nth_error c i = Some q ->
       get m p st (j + Z.of_nat i) = Some (fst q) /\ get m' p' st' (j + Z.of_nat i) = Some (snd q)) ->
     loop_from (length c) j body s = lloop j c f s).
  { induction c as [|[x y] c IH]; intros j s0 Hc; [reflexivity|]. cbn [length loop_from lloop].
    destruct (Hc 0%nat (x, y) eq_refl) as [E1 E2]. rewrite Z.add_0_r in E1, E2. cbn [fst snd] in *.
    rewrite (H j s0 x y E1 E2). destruct (f j (x, y) s0) as [[s'|s'|r]|]; try reflexivity.
    apply IH. intros i q Hq. replace (j + 1 + Z.of_nat i)%Z with (j + Z.of_nat (Datatypes.S i))%Z by lia. apply Hc. exact Hq. }
  apply G. intros i [x y] Hi. destruct (nth_error_combine l l' i x y Hi) as [Ea Eb]. cbn [fst snd].
  split; [exact (view_get m p st l i x V Ea)|exact (view_get m' p' st' l' i y V' Eb)].
Qed.

(** ** gmean: flags, in any arithmetic *)
Section GAny.
  Context {T : Type} (A : arith T) (L : cmp_laws (a_cmp A)) (TR : transc T).
  Notation zero := (a_ofZ A 0).
  Notation eq := (eqb (a_cmp A)).
  Definition gzero (x : T) : bool := negb (a_isinf A x) && eq x zero.
  Definition gpos (x : T) : bool := negb (a_isinf A x) && negb (eq x zero).

  Lemma g_step_good add k x st : gbad A x = false ->
    g_step A TR add k x st = Next (mkG (g_zero st || gzero x) (g_neg st) (g_nan st) (g_inf st || a_isinf A x)
      (g_same st && eq (if (k =? 0)%Z then x else g_prev st) x) x (if gpos x then add (g_sumlog st) (t_log TR x) else g_sumlog st)).
  Proof.
    unfold gbad, g_step, gzero, gpos. destruct st as [z ng nn inf same prev sl]. cbn [g_zero g_neg g_nan g_inf g_same g_prev g_sumlog].
    intros H. apply orb_false_elim in H. destruct H as [H1 H2]. rewrite H1.
    destruct (a_isinf A x); cbn [negb andb] in *; [rewrite orb_true_r, orb_false_r; reflexivity|].
    destruct (eq x zero); cbn [negb]; [rewrite orb_true_r, orb_false_r; reflexivity|]. rewrite H2, !orb_false_r. reflexivity.
  Qed.
  Lemma g_step_bad add k x st : gbad A x = true ->
    exists st', g_step A TR add k x st = Brk st' /\ g_neg st' || g_nan st' = true.
  Proof.
    unfold gbad, g_step. destruct st as [z ng nn inf same prev sl]. cbn [g_prev g_same].
    intros H. destruct (isnanb (a_cmp A) x); [eexists; split; [reflexivity|]; cbn; apply orb_true_r|]. cbn [orb] in H.
    apply andb_prop in H. destruct H as [H1 H2]. destruct (a_isinf A x); [discriminate|].
    rewrite H2. assert (E : eq x zero = false).
    { destruct (eq x zero) eqn:E; [|reflexivity]. rewrite eqb_sym in E by exact L. apply eqb_leb in E.
      apply (le_not_lt _ L) in E. congruence. }
    rewrite E. eexists. split; [reflexivity|reflexivity].
  Qed.

  (** a loop whose element q holds the value [fst q]; [add q] accumulates; the second
      component of the state is carried along by [h] *)
  Section Loop.
    Context {E S : Type} (xv : E -> T) (add : E -> T -> T -> T) (h : S -> E -> S).
    Definition gl (k : Z) (q : E) (st : gstate * S) : M (ctl (gstate * S) T) :=
      Some (match g_step A TR (add q) k (xv q) (fst st) with
            | Next g' => Next (g', h (snd st) q) | Brk g' => Brk (g', h (snd st) q) | Ret v => Ret v end).
    Lemma gl_bad : forall l k st, (exists q, In q l /\ gbad A (xv q) = true) ->
      exists st', lloop k l gl st = Some (inl st') /\ g_neg (fst st') || g_nan (fst st') = true.
    Proof.
      induction l as [|q l IH]; intros k st (q0 & Hq & B); [destruct Hq|]. cbn [lloop]. unfold gl at 1.
      destruct (gbad A (xv q)) eqn:Bq.
      - destruct (g_step_bad (add q) k (xv q) (fst st) Bq) as (st' & -> & F). eexists. split; [reflexivity|exact F].
      - rewrite g_step_good by exact Bq. apply IH. destruct Hq as [->|Hq]; [congruence|]. exists q0. split; assumption.
    Qed.
    Lemma gl_good : forall l k g s, (forall q, In q l -> gbad A (xv q) = false) ->
      exists g', lloop k l gl (g, s) = Some (inl (g', fold_left h l s)) /\
        g_zero g' = g_zero g || existsb (fun q => gzero (xv q)) l /\ g_neg g' = g_neg g /\ g_nan g' = g_nan g /\
        g_inf g' = g_inf g || existsb (fun q => a_isinf A (xv q)) l.
    Proof.
      induction l as [|q l IH]; intros k g s H; cbn [lloop existsb fold_left].
      - exists g. rewrite !orb_false_r. repeat split.
      - unfold gl at 1. cbn [fst snd]. rewrite g_step_good by (apply H; left; reflexivity).
        edestruct IH as (g' & E1 & E2 & E3 & E4 & E5); [intros q' Hq'; apply H; right; exact Hq'|].
        exists g'. split; [exact E1|]. cbn [g_zero g_neg g_nan g_inf] in *. rewrite !orb_assoc. repeat split; assumption.
    Qed.
  End Loop.

  Lemma gl_unit (x : list T) : forall k g,
    lloop k x (fun k x st => Some (g_step A TR (fun sl lx => a_add A sl lx) k x st)) g
    = bind (lloop k x (gl (fun t => t) (fun _ => a_add A) (fun (_ : unit) _ => tt)) (g, tt))
        (fun r => Some (match r with inl st => inl (fst st) | inr v => inr v end)).
  Proof.
    induction x as [|t x IH]; intros k g; [reflexivity|].
    cbn [lloop]. unfold gl at 1. cbn [fst snd]. destruct (g_step _ _ _ k t g) as [g'|g'|v]; try reflexivity. apply IH.
  Qed.
  Definition gfin (st : gstate) (last : T) : T :=
    if g_neg st || g_nan st || (g_zero st && g_inf st) then a_nan A
    else if g_inf st then a_inf A else if g_zero st then zero
    else if g_same st then g_prev st else last.
  Lemma gmean_eq mx px sx x : view mx px sx x ->
    gmean_1d A TR (Z.of_nat (length x)) mx px sx
    = bind (lloop 0 x (gl (fun t => t) (fun _ => a_add A) (fun (_ : unit) _ => tt)) (g0 A, tt))
        (fun r => match r with inr v => Some v
                  | inl st => Some (gfin (fst st) (t_exp TR (a_div A (g_sumlog (fst st)) (a_ofZ A (Z.of_nat (length x)))))) end).
  Proof.
    intros V. unfold gmean_1d.
    rewrite (for_loop_view mx px sx x _ (fun k x st => Some (g_step A TR (fun sl lx => a_add A sl lx) k x st)) _ V)
      by (intros k st t Hk Hg; rewrite Hg; reflexivity).
    rewrite gl_unit. destruct (lloop 0 x _ (g0 A, tt)) as [[st|v]|]; reflexivity.
  Qed.
  Lemma gmeanw_eq mx px sx x mw pw sw w : view mx px sx x -> view mw pw sw w -> length w = length x ->
    gmeanw_1d A TR (Z.of_nat (length x)) mx px sx mw pw sw
    = bind (lloop 0 (combine x w) (gl fst (fun q sl lx => a_add A sl (a_mul A (snd q) lx)) (fun s q => a_add A s (snd q))) (g0 A, zero))
        (fun r => match r with inr v => Some v
                  | inl st => Some (gfin (fst st) (if eq (snd st) zero then a_nan A
                       else t_exp TR (a_div A (g_sumlog (fst st)) (snd st)))) end).
  Proof.
    intros V W E. unfold gmeanw_1d.
    erewrite (for_loop_two mx px sx x mw pw sw w); [|exact V|exact W|exact E|].
    2: { intros k [g s] a b Ha Hb. rewrite Ha, Hb. cbn [bind].
         instantiate (1 := gl fst (fun q sl lx => a_add A sl (a_mul A (snd q) lx)) (fun s q => a_add A s (snd q))).
         unfold gl. cbn [fst snd]. reflexivity. }
    destruct (lloop 0 _ _ (g0 A, zero)) as [[[st s]|v]|]; reflexivity.
  Qed.

  (** special values, in any arithmetic *)
  Theorem gmean_nan mx px sx x : view mx px sx x -> (exists v, In v x /\ gbad A v = true) ->
    gmean_1d A TR (Z.of_nat (length x)) mx px sx = Some (a_nan A).
  Proof.
    intros V B. rewrite (gmean_eq _ _ _ _ V).
    destruct (gl_bad (fun t => t) (fun _ => a_add A) (fun (_ : unit) _ => tt) x 0 (g0 A, tt) B) as (st & -> & F).
    cbn [bind]. unfold gfin. rewrite F. reflexivity.
  Qed.
  Theorem gmean_special mx px sx x : view mx px sx x -> (forall v, In v x -> gbad A v = false) ->
    gmean_1d A TR (Z.of_nat (length x)) mx px sx =
      (if existsb (gzero) x && existsb (a_isinf A) x then Some (a_nan A)
       else if existsb (a_isinf A) x then Some (a_inf A)
       else if existsb gzero x then Some zero
       else gmean_1d A TR (Z.of_nat (length x)) mx px sx).
  Proof.
    intros V B. rewrite (gmean_eq _ _ _ _ V).
    destruct (gl_good (fun t => t) (fun _ => a_add A) (fun (_ : unit) _ => tt) x 0 (g0 A) tt B) as (g & -> & E1 & E2 & E3 & E4).
    cbn [bind fst snd]. unfold gfin. rewrite E1, E2, E3, E4. cbn [g0 g_zero g_neg g_nan g_inf orb].
    change (existsb (fun q => gzero q) x) with (existsb gzero x). change (existsb (fun q => a_isinf A q) x) with (existsb (a_isinf A) x).
    destruct (existsb gzero x), (existsb (a_isinf A) x); reflexivity.
  Qed.
  Theorem gmeanw_nan mx px sx x mw pw sw w : view mx px sx x -> view mw pw sw w -> length w = length x ->
    (exists v, In v x /\ gbad A v = true) ->
    gmeanw_1d A TR (Z.of_nat (length x)) mx px sx mw pw sw = Some (a_nan A).
  Proof.
    intros V W E (v & Hv & B). rewrite (gmeanw_eq _ _ _ _ _ _ _ _ V W E).
    destruct (gl_bad fst (fun q sl lx => a_add A sl (a_mul A (snd q) lx)) (fun s q => a_add A s (snd q)) (combine x w) 0 (g0 A, zero)) as (st & -> & F).
    { apply In_nth_error in Hv. destruct Hv as [i Hi]. assert (Hl : (i < length x)%nat) by (apply nth_error_Some; congruence).
      destruct (nth_error w i) as [b|] eqn:Eb; [|apply nth_error_None in Eb; lia].
      exists (v, b). split; [|exact B]. apply (nth_error_In _ i). revert x w Hi Eb Hl E V W. clear.
      intros x w Hi Eb _ _ _ _. revert w i Hi Eb. induction x as [|a x IH]; intros [|c w] [|i] H1 H2; cbn in *; try discriminate.
      - injection H1 as ->. injection H2 as ->. reflexivity.
      - apply IH; assumption. }
    cbn [bind]. unfold gfin. rewrite F. reflexivity.
  Qed.
End GAny.

(** Lemmas about [CSem]: reducing memory loops to list recursion, frame facts. *)
From Coq Require Import ZArith List Bool Lia.
From Verif Require Import CSem.
Import ListNotations.
Open Scope Z_scope.

(** *** list versions of the loops *)
Fixpoint lloop {T S R} (k : Z) (l : list T) (f : Z -> T -> S -> M (ctl S R)) (s : S) : M (S + R) :=
  match l with
  | [] => Some (inl s)
  | x :: l' =>
      match f k x s with
      | None => None
      | Some (Next s') => lloop (k + 1) l' f s'
      | Some (Brk s') => Some (inl s')
      | Some (Ret r) => Some (inr r)
      end
  end.

Fixpoint liter {T S} (k : Z) (l : list T) (f : Z -> T -> S -> M S) (s : S) : M S :=
  match l with
  | [] => Some s
  | x :: l' => bind (f k x s) (fun s' => liter (k + 1) l' f s')
  end.

Lemma skipn_nth_cons {T} (l : list T) j x :
  nth_error l j = Some x -> skipn j l = x :: skipn (S j) l.
Proof.
  revert j; induction l as [|y l IH]; intros [|j] H; simpl in *; try discriminate.
  - injection H as ->. destruct l; reflexivity.
  - rewrite (IH _ H). destruct l; reflexivity.
Qed.

Lemma view_get {T} (m : mem T) p s l k x :
  view m p s l -> nth_error l k = Some x -> get m p s (Z.of_nat k) = Some x.
Proof.
  intros V H. unfold get, load. rewrite V, H; [reflexivity|].
  apply nth_error_Some. congruence.
Qed.

Lemma loop_from_view {T S R} (m : mem T) p st l (body : Z -> S -> M (ctl S R)) f n j s :
  view m p st l ->
  (forall k s x, (k < length l)%nat -> get m p st (Z.of_nat k) = Some x ->
      body (Z.of_nat k) s = f (Z.of_nat k) x s) ->
  (j + n = length l)%nat ->
  loop_from n (Z.of_nat j) body s = lloop (Z.of_nat j) (skipn j l) f s.
Proof.
  intros V HB. revert j s. induction n as [|n IH]; intros j s E; simpl.
  - rewrite skipn_all2 by lia. reflexivity.
  - destruct (nth_error l j) as [x|] eqn:Hx.
    2:{ apply nth_error_None in Hx. lia. }
    rewrite (skipn_nth_cons _ _ _ Hx). simpl.
    rewrite (HB j s x) by (try lia; eapply view_get; eauto).
    destruct (f (Z.of_nat j) x s) as [[s'|s'|r]|]; try reflexivity.
    replace (Z.of_nat j + 1) with (Z.of_nat (Datatypes.S j)) by lia.
    apply IH. lia.
Qed.

Lemma for_loop_view {T S R} (m : mem T) p st l (body : Z -> S -> M (ctl S R)) f s :
  view m p st l ->
  (forall k s x, (k < length l)%nat -> get m p st (Z.of_nat k) = Some x ->
      body (Z.of_nat k) s = f (Z.of_nat k) x s) ->
  for_loop 0 (Z.of_nat (length l)) body s = lloop 0 l f s.
Proof.
  intros V HB. unfold for_loop.
  replace (Z.to_nat (Z.of_nat (length l) - 0)) with (length l) by lia.
  apply (loop_from_view m p st l body f (length l) 0 s V HB). lia.
Qed.

(** Starting at index [lo] (for loops that treat element 0 separately). *)
Lemma for_loop_view_from {T S R} (m : mem T) p st l (lo : nat) (body : Z -> S -> M (ctl S R)) f s :
  view m p st l ->
  (forall k s x, (k < length l)%nat -> get m p st (Z.of_nat k) = Some x ->
      body (Z.of_nat k) s = f (Z.of_nat k) x s) ->
  (lo <= length l)%nat ->
  for_loop (Z.of_nat lo) (Z.of_nat (length l)) body s = lloop (Z.of_nat lo) (skipn lo l) f s.
Proof.
  intros V HB Hlo. unfold for_loop.
  replace (Z.to_nat (Z.of_nat (length l) - Z.of_nat lo)) with (length l - lo)%nat by lia.
  apply (loop_from_view m p st l body f (length l - lo) lo s V HB). lia.
Qed.

Lemma iter_from_view {T S} (m : mem T) p st l (body : Z -> S -> M S) f n j s :
  view m p st l ->
  (forall k s x, (k < length l)%nat -> get m p st (Z.of_nat k) = Some x ->
      body (Z.of_nat k) s = f (Z.of_nat k) x s) ->
  (j + n = length l)%nat ->
  iter_from n (Z.of_nat j) body s = liter (Z.of_nat j) (skipn j l) f s.
Proof.
  intros V HB. revert j s. induction n as [|n IH]; intros j s E; simpl.
  - rewrite skipn_all2 by lia. reflexivity.
  - destruct (nth_error l j) as [x|] eqn:Hx.
    2:{ apply nth_error_None in Hx. lia. }
    rewrite (skipn_nth_cons _ _ _ Hx). simpl.
    rewrite (HB j s x) by (try lia; eapply view_get; eauto).
    destruct (f (Z.of_nat j) x s) as [s'|]; simpl; [|reflexivity].
    replace (Z.of_nat j + 1) with (Z.of_nat (Datatypes.S j)) by lia.
    apply IH. lia.
Qed.

Lemma for_each_view {T S} (m : mem T) p st l (body : Z -> S -> M S) f s :
  view m p st l ->
  (forall k s x, (k < length l)%nat -> get m p st (Z.of_nat k) = Some x ->
      body (Z.of_nat k) s = f (Z.of_nat k) x s) ->
  for_each 0 (Z.of_nat (length l)) body s = liter 0 l f s.
Proof.
  intros V HB. unfold for_each.
  replace (Z.to_nat (Z.of_nat (length l) - 0)) with (length l) by lia.
  apply (iter_from_view m p st l body f (length l) 0 s V HB). lia.
Qed.

Lemma for_each_view_from {T S} (m : mem T) p st l (lo : nat) (body : Z -> S -> M S) f s :
  view m p st l ->
  (forall k s x, (k < length l)%nat -> get m p st (Z.of_nat k) = Some x ->
      body (Z.of_nat k) s = f (Z.of_nat k) x s) ->
  (lo <= length l)%nat ->
  for_each (Z.of_nat lo) (Z.of_nat (length l)) body s = liter (Z.of_nat lo) (skipn lo l) f s.
Proof.
  intros V HB Hlo. unfold for_each.
  replace (Z.to_nat (Z.of_nat (length l) - Z.of_nat lo)) with (length l - lo)%nat by lia.
  apply (iter_from_view m p st l body f (length l - lo) lo s V HB). lia.
Qed.

Lemma for_each_ext {S} lo hi (b1 b2 : Z -> S -> M S) s :
  (forall k s, lo <= k < hi -> b1 k s = b2 k s) ->
  for_each lo hi b1 s = for_each lo hi b2 s.
Proof.
  unfold for_each. remember (Z.to_nat (hi - lo)) as n eqn:En.
  revert lo s En. induction n as [|n IH]; intros lo s En H; simpl; [reflexivity|].
  rewrite H by lia. destruct (b2 lo s); simpl; [|reflexivity].
  apply IH; [lia|]. intros; apply H; lia.
Qed.

(** *** writing *)
Definition upd {T} (m : mem T) (a : Z) (v : T) : mem T :=
  fun b => if b =? a then Some v else m b.

Fixpoint upds {T} (m : mem T) (p s k : Z) (l : list T) : mem T :=
  match l with
  | [] => m
  | x :: l' => upds (upd m (p + k * s) x) p s (k + 1) l'
  end.

Lemma upd_same {T} (m : mem T) a v : upd m a v a = Some v.
Proof. unfold upd. rewrite Z.eqb_refl. reflexivity. Qed.

Lemma upd_other {T} (m : mem T) a v b : b <> a -> upd m a v b = m b.
Proof. intros H. unfold upd. destruct (Z.eqb_spec b a); congruence. Qed.

Lemma set_upd {T} (m : mem T) p s k v :
  m (p + k * s) <> None -> set m p s k v = Some (upd m (p + k * s) v).
Proof.
  unfold set, store. destruct (m (p + k * s)) eqn:E; [reflexivity|congruence].
Qed.

Lemma upds_frame {T} (l : list T) m p s k a :
  (forall i, 0 <= i < Z.of_nat (length l) -> a <> p + (k + i) * s) ->
  upds m p s k l a = m a.
Proof.
  revert m k. induction l as [|x l IH]; intros m k H; simpl; [reflexivity|].
  rewrite IH.
  - apply upd_other. specialize (H 0). rewrite Z.add_0_r in H. apply H. simpl; lia.
  - intros i Hi. replace (k + 1 + i) with (k + (i + 1)) by lia.
    apply H. cbn [length]. lia.
Qed.

Lemma upds_view {T} (l : list T) m p s k j :
  (s <> 0 \/ (length l <= 1)%nat) ->
  (j < length l)%nat ->
  upds m p s k l (p + (k + Z.of_nat j) * s) = nth_error l j.
Proof.
  revert m k j. induction l as [|x l IH]; intros m k j Hs Hj; cbn [length] in *; [lia|].
  destruct j as [|j].
  - cbn [upds nth_error]. rewrite Z.add_0_r. rewrite upds_frame; [apply upd_same|].
    intros i Hi. destruct Hs as [Hs|Hs]; [|lia]. nia.
  - cbn [upds nth_error].
    replace (k + Z.of_nat (S j)) with (k + 1 + Z.of_nat j) by lia.
    apply IH; [|lia]. destruct Hs; [left; assumption|right; lia].
Qed.

Lemma upds_wrote {T} (l : list T) m p s :
  (s <> 0 \/ (length l <= 1)%nat) ->
  wrote m (upds m p s 0 l) p s l.
Proof.
  intros Hs. split.
  - intros k Hk. apply (upds_view l m p s 0 k Hs Hk).
  - intros a Ha. apply upds_frame. intros i Hi E.
    apply (Ha (Z.to_nat i)); [lia|]. rewrite Z2Nat.id by lia. lia.
Qed.

Lemma upds_app {T} (l1 l2 : list T) m p s k :
  upds m p s k (l1 ++ l2) = upds (upds m p s k l1) p s (k + Z.of_nat (length l1)) l2.
Proof.
  revert m k. induction l1 as [|x l1 IH]; intros m k; simpl.
  - rewrite Z.add_0_r. reflexivity.
  - rewrite IH. f_equal. lia.
Qed.

Lemma upds_owned {T} (l : list T) m p s k a :
  m a <> None -> upds m p s k l a <> None.
Proof.
  revert m k. induction l as [|x l IH]; intros m k H; simpl; [assumption|].
  apply IH. unfold upd. destruct (a =? p + k * s); [discriminate|assumption].
Qed.

(** *** accumulate-and-emit over a list *)
Fixpoint mapacc {X Y S} (g : S -> X -> Y * S) (s : S) (l : list X) : list Y * S :=
  match l with
  | [] => ([], s)
  | x :: l' => let '(y, s1) := g s x in
               let '(ys, s2) := mapacc g s1 l' in (y :: ys, s2)
  end.

Lemma mapacc_length {X Y S} (g : S -> X -> Y * S) s l :
  length (fst (mapacc g s l)) = length l.
Proof.
  revert s. induction l as [|x l IH]; intros s; simpl; [reflexivity|].
  destruct (g s x) as [y s1]. specialize (IH s1). destruct (mapacc g s1 l). simpl in *. lia.
Qed.

Lemma mapacc_app {X Y S} (g : S -> X -> Y * S) s l1 l2 :
  mapacc g s (l1 ++ l2) =
  let '(y1, s1) := mapacc g s l1 in
  let '(y2, s2) := mapacc g s1 l2 in (y1 ++ y2, s2).
Proof.
  revert s. induction l1 as [|x l1 IH]; intros s; simpl.
  - destruct (mapacc g s l2). reflexivity.
  - destruct (g s x) as [y s1]. rewrite IH.
    destruct (mapacc g s1 l1) as [y1 s1']. destruct (mapacc g s1' l2). reflexivity.
Qed.

(** A loop that reads x[k], emits one output at k and carries a state. *)
Lemma liter_emit {X Y S} (g : S -> X -> Y * S) (po so : Z) (l : list X) k0
      (f : Z -> X -> mem Y * S -> M (mem Y * S)) (m : mem Y) (s : S) :
  (forall k x m s, f k x (m, s) =
     bind (set m po so k (fst (g s x))) (fun m' => Some (m', snd (g s x)))) ->
  (forall k, (k < length l)%nat -> m (po + (k0 + Z.of_nat k) * so) <> None) ->
  liter k0 l f (m, s) =
  Some (upds m po so k0 (fst (mapacc g s l)), snd (mapacc g s l)).
Proof.
  intros Hf. revert k0 m s. induction l as [|x l IH]; intros k0 m s Ho; simpl; [reflexivity|].
  rewrite Hf. rewrite set_upd.
  2:{ specialize (Ho O). simpl in Ho. rewrite Z.add_0_r in Ho. apply Ho. lia. }
  simpl. destruct (g s x) as [y s1] eqn:G. simpl.
  rewrite IH.
  - destruct (mapacc g s1 l) as [ys s2]. reflexivity.
  - intros k Hk. specialize (Ho (Datatypes.S k)).
    replace (k0 + 1 + Z.of_nat k) with (k0 + Z.of_nat (Datatypes.S k)) by lia.
    unfold upd. destruct (_ =? _); [discriminate|]. apply Ho. simpl; lia.
Qed.

(** layouts *)
Lemma view_mem_of {T} p sz (l : list T) :
  0 < sz -> view (mem_of p sz l) p sz l.
Proof.
  intros Hsz k Hk. unfold mem_of.
  replace (p + Z.of_nat k * sz - p) with (Z.of_nat k * sz) by lia.
  rewrite Z.mod_mul, Z.div_mul by lia. simpl.
  assert (E : (p + Z.of_nat k * sz <? p) = false) by (apply Z.ltb_ge; nia).
  rewrite E. simpl. rewrite Nat2Z.id. reflexivity.
Qed.

Lemma view_cons_nth {T} (m : mem T) p s l k :
  view m p s l -> (k < length l)%nat ->
  exists x, nth_error l k = Some x /\ get m p s (Z.of_nat k) = Some x.
Proof.
  intros V Hk. destruct (nth_error l k) as [x|] eqn:E.
  - exists x. split; [reflexivity|]. eapply view_get; eauto.
  - apply nth_error_None in E. lia.
Qed.

Lemma view_app {T} (m : mem T) p s l1 l2 :
  view m p s (l1 ++ l2) ->
  view m p s l1 /\ view m (p + Z.of_nat (length l1) * s) s l2.
Proof.
  intros V. split; intros k Hk.
  - rewrite V by (rewrite app_length; lia). apply nth_error_app1. assumption.
  - replace (p + Z.of_nat (length l1) * s + Z.of_nat k * s)
      with (p + Z.of_nat (length l1 + k) * s) by lia.
    rewrite V by (rewrite app_length; lia).
    rewrite nth_error_app2 by lia. f_equal. lia.
Qed.

Lemma view_ext {T} (m m' : mem T) p s l :
  (forall a, m' a = m a) -> view m p s l -> view m' p s l.
Proof. intros E V k Hk. rewrite E. apply V; assumption. Qed.

(** *** invariant rules *)
Lemma liter_app {T S} (l1 l2 : list T) k (f : Z -> T -> S -> M S) s :
  liter k (l1 ++ l2) f s =
  bind (liter k l1 f s) (fun s' => liter (k + Z.of_nat (length l1)) l2 f s').
Proof.
  revert k s. induction l1 as [|x l1 IH]; intros k s; cbn [app liter length bind].
  - rewrite Z.add_0_r. reflexivity.
  - destruct (f k x s) as [s'|]; cbn [bind]; [|reflexivity].
    rewrite IH. replace (k + 1 + Z.of_nat (length l1)) with (k + Z.of_nat (Datatypes.S (length l1))) by lia.
    reflexivity.
Qed.

Lemma liter_inv {T S} (I : list T -> S -> Prop) (f : Z -> T -> S -> M S) pre l s :
  I pre s ->
  (forall pre x s, I pre s ->
     exists s', f (Z.of_nat (length pre)) x s = Some s' /\ I (pre ++ [x]) s') ->
  exists s', liter (Z.of_nat (length pre)) l f s = Some s' /\ I (pre ++ l) s'.
Proof.
  intros H0 Hs. revert pre s H0. induction l as [|x l IH]; intros pre s H0; cbn [liter].
  - exists s. rewrite app_nil_r. auto.
  - destruct (Hs pre x s H0) as (s1 & E1 & I1). rewrite E1. cbn [bind].
    destruct (IH (pre ++ [x]) s1 I1) as (s2 & E2 & I2).
    exists s2. rewrite app_length in E2. cbn [length] in E2.
    replace (Z.of_nat (length pre) + 1) with (Z.of_nat (length pre + 1)) by lia.
    rewrite E2. rewrite <- app_assoc in I2. auto.
Qed.

(** [for_each] from the second element on, the first one read separately. *)
Lemma for_each_tail {T S} (m : mem T) p st x0 l (body : Z -> S -> M S) f s :
  view m p st (x0 :: l) ->
  (forall k s x, get m p st k = Some x -> body k s = f k x s) ->
  for_each 1 (Z.of_nat (length (x0 :: l))) body s = liter 1 l f s.
Proof.
  intros V HB.
  apply (for_each_view_from m p st (x0 :: l) 1 body f s V).
  - intros; apply HB; assumption.
  - cbn [length]; lia.
Qed.

Lemma for_loop_tail {T S R} (m : mem T) p st x0 l (body : Z -> S -> M (ctl S R)) f s :
  view m p st (x0 :: l) ->
  (forall k s x, get m p st k = Some x -> body k s = f k x s) ->
  for_loop 1 (Z.of_nat (length (x0 :: l))) body s = lloop 1 l f s.
Proof.
  intros V HB.
  apply (for_loop_view_from m p st (x0 :: l) 1 body f s V).
  - intros; apply HB; assumption.
  - cbn [length]; lia.
Qed.

Lemma view_load {T} (m : mem T) p st x0 l : view m p st (x0 :: l) -> load m p = Some x0.
Proof.
  intros V. specialize (V O ltac:(cbn; lia)). cbn in V. rewrite Z.add_0_r in V. exact V.
Qed.

Lemma nth_error_firstn' {T} (l : list T) n k :
  (k < n)%nat -> nth_error (firstn n l) k = nth_error l k.
Proof.
  revert l k. induction n as [|n IH]; intros l k H; [lia|].
  destruct l as [|x l]; [reflexivity|]. destruct k as [|k]; [reflexivity|].
  simpl. apply IH. lia.
Qed.

Lemma view_firstn {T} (m : mem T) p st l n : view m p st l -> view m p st (firstn n l).
Proof.
  intros V k Hk. rewrite firstn_length in Hk. rewrite V by lia.
  symmetry. apply nth_error_firstn'. lia.
Qed.

(** loops whose body is described by the k-th element of a list *)
Lemma for_each_list {T S} (l : list T) (body : Z -> S -> M S) f s :
  (forall k s x, nth_error l k = Some x -> body (Z.of_nat k) s = f (Z.of_nat k) x s) ->
  for_each 0 (Z.of_nat (length l)) body s = liter 0 l f s.
Proof.
  intros HB. set (m := fun a => if a <? 0 then None else nth_error l (Z.to_nat a)).
  assert (V : view m 0 1 l).
  { intros k Hk. unfold m. replace (0 + Z.of_nat k * 1) with (Z.of_nat k) by lia.
    replace (Z.of_nat k <? 0) with false by (symmetry; apply Z.ltb_ge; lia). rewrite Nat2Z.id. reflexivity. }
  apply (for_each_view m 0 1 l body f s V).
  intros k s' x Hk Hg. apply HB. unfold get, load in Hg. rewrite (V k Hk) in Hg. exact Hg.
Qed.

Lemma for_loop_list {T S R} (l : list T) (body : Z -> S -> M (ctl S R)) f s :
  (forall k s x, nth_error l k = Some x -> body (Z.of_nat k) s = f (Z.of_nat k) x s) ->
  for_loop 0 (Z.of_nat (length l)) body s = lloop 0 l f s.
Proof.
  intros HB. set (m := fun a => if a <? 0 then None else nth_error l (Z.to_nat a)).
  assert (V : view m 0 1 l).
  { intros k Hk. unfold m. replace (0 + Z.of_nat k * 1) with (Z.of_nat k) by lia.
    replace (Z.of_nat k <? 0) with false by (symmetry; apply Z.ltb_ge; lia). rewrite Nat2Z.id. reflexivity. }
  apply (for_loop_view m 0 1 l body f s V).
  intros k s' x Hk Hg. apply HB. unfold get, load in Hg. rewrite (V k Hk) in Hg. exact Hg.
Qed.

Lemma liter_ext {T S} (l : list T) k (f g : Z -> T -> S -> M S) s :
  (forall k x s, In x l -> f k x s = g k x s) -> liter k l f s = liter k l g s.
Proof.
  revert k s. induction l as [|x l IH]; intros k s H; cbn [liter]; [reflexivity|].
  rewrite H by (left; reflexivity). destruct (g k x s); cbn [bind]; [|reflexivity].
  apply IH. intros; apply H; right; assumption.
Qed.

Lemma nth_error_combine {A B} (l1 : list A) (l2 : list B) k a b :
  nth_error (combine l1 l2) k = Some (a, b) -> nth_error l1 k = Some a /\ nth_error l2 k = Some b.
Proof.
  revert l2 k. induction l1 as [|x l1 IH]; intros [|y l2] [|k] H; cbn in *; try discriminate.
  - injection H as -> ->. auto.
  - apply IH. exact H.
Qed.

Lemma writable_neq {T} (m : mem T) p s n i j :
  writable m p s n -> (i < n)%nat -> (j < n)%nat -> i <> j -> p + Z.of_nat i * s <> p + Z.of_nat j * s.
Proof. intros [_ [H|H]] Hi Hj Hn; [nia|lia]. Qed.

Lemma nth_error_ext' {T} (l1 l2 : list T) : (forall i, nth_error l1 i = nth_error l2 i) -> l1 = l2.
Proof.
  revert l2. induction l1 as [|a l1 IH]; intros [|b l2] E.
  - reflexivity.
  - specialize (E O). discriminate.
  - specialize (E O). discriminate.
  - f_equal; [specialize (E O); cbn in E; congruence|]. apply IH. intros i. exact (E (S i)).
Qed.

Lemma view_uniq {T} (m : mem T) p s l1 l2 :
  length l1 = length l2 -> view m p s l1 -> view m p s l2 -> l1 = l2.
Proof.
  intros HL H1 H2. apply nth_error_ext'. intros i. destruct (le_lt_dec (length l1) i) as [H|H].
  - rewrite (proj2 (nth_error_None l1 i)) by lia. symmetry. apply nth_error_None. lia.
  - rewrite <- H1, <- H2 by lia. reflexivity.
Qed.

Lemma writes_upds {T} (m : mem T) p s l n :
  writable m p s n -> length l = n -> writes (Some (upds m p s 0 l)) m p s l.
Proof. intros [_ W] <-. eexists. split; [reflexivity|]. apply upds_wrote. exact W. Qed.

(** a loop that reads cell j of an array, updates it in place and carries a state *)
Lemma liter_inplace {X Y S} (g : S -> X -> Y -> Y * S) (pf sf : Z) (xs : list X) :
  forall (ys : list Y) (j0 : Z) (f : Z -> X -> mem Y * S -> M (mem Y * S)) (m : mem Y) (s : S),
  length ys = length xs ->
  (forall k x m s y, get m pf sf k = Some y ->
     f k x (m, s) = bind (set m pf sf k (fst (g s x y))) (fun m' => Some (m', snd (g s x y)))) ->
  (forall j, (j < length ys)%nat -> m (pf + (j0 + Z.of_nat j) * sf) = nth_error ys j) ->
  (sf <> 0 \/ (length ys <= 1)%nat) ->
  liter j0 xs f (m, s) =
  Some (upds m pf sf j0 (fst (mapacc (fun s '(x, y) => g s x y) s (combine xs ys))),
        snd (mapacc (fun s '(x, y) => g s x y) s (combine xs ys))).
Proof.
  induction xs as [|x xs IH]; intros [|y ys] j0 f m s HL Hf Hm Hs; cbn [length] in HL; try lia; [reflexivity|].
  cbn [liter combine mapacc].
  assert (H0 : get m pf sf j0 = Some y).
  { specialize (Hm O ltac:(cbn; lia)). cbn in Hm. rewrite Z.add_0_r in Hm. exact Hm. }
  rewrite (Hf j0 x m s y H0). rewrite set_upd by (unfold get, load in H0; congruence). cbn [bind].
  destruct (g s x y) as [y1 s1] eqn:Eg. cbn [fst snd].
  rewrite (IH ys (j0 + 1) f _ s1).
  - destruct (mapacc (fun s '(x, y) => g s x y) s1 (combine xs ys)) as [ys' s2]. reflexivity.
  - lia.
  - exact Hf.
  - intros j Hj. rewrite upd_other.
    + specialize (Hm (Datatypes.S j) ltac:(cbn [length]; lia)). cbn [nth_error] in Hm.
      replace (j0 + 1 + Z.of_nat j) with (j0 + Z.of_nat (Datatypes.S j)) by lia. exact Hm.
    + destruct Hs as [Hs|Hs]; [nia|cbn [length] in Hs; lia].
  - destruct Hs as [Hs|Hs]; [left; exact Hs|right; cbn [length] in Hs; lia].
Qed.

Lemma iter_from_ext {S} n k (b1 b2 : Z -> S -> M S) s :
  (forall k s, b1 k s = b2 k s) -> iter_from n k b1 s = iter_from n k b2 s.
Proof.
  intros H. revert k s. induction n as [|n IH]; intros k s; [reflexivity|]. cbn [iter_from]. rewrite H.
  destruct (b2 k s); cbn [bind]; [apply IH|reflexivity].
Qed.

Lemma writable_mem_of {T} p sz (l : list T) : 0 < sz -> writable (mem_of p sz l) p sz (length l).
Proof.
  intros H. split; [|left; lia]. intros k Hk. rewrite (view_mem_of p sz l H k Hk). apply nth_error_Some. exact Hk.
Qed.

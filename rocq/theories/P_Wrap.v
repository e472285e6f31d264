(** * P_Wrap: proofs about the Python wrappers (C52) *)
From Coq Require Import ZArith List Bool Lia.
From Flocq Require Import BinarySingleNaN.
From Verif Require Import CSem CSemP Num M_Select S_Select M_Int S_Int P_Int M_Elem S_Elem P_Next M_Wrap S_Wrap.
Import ListNotations.
Open Scope Z_scope.

Lemma fdg_floating d : floating_dtype d -> is_fdg_dtype d = true.
Proof. intros [-> |[-> | ->]]; reflexivity. Qed.
Lemma fdg_not_floating d : ~ floating_dtype d -> is_fdg_dtype d = false.
Proof. destruct d; intros H; try reflexivity; exfalso; apply H; unfold floating_dtype; tauto. Qed.
Lemma not_integer d : ~ (exists t, d = DInt t) -> is_integer_dtype d = false.
Proof. destruct d; intros H; try reflexivity. exfalso. apply H. eexists; reflexivity. Qed.

(** ** lists *)

Lemma shape_eqb_spec a b : reflect (a = b) (shape_eqb a b).
Proof.
  revert b. induction a as [|x a IH]; destruct b as [|y b]; cbn; try (constructor; congruence).
  destruct (Z.eqb_spec x y) as [->|N]; cbn.
  - destruct (IH b) as [->|N]; constructor; congruence.
  - constructor; congruence.
Qed.
Lemma shape_eqb_refl a : shape_eqb a a = true.
Proof. destruct (shape_eqb_spec a a); congruence. Qed.

Lemma upto_app s1 s2 (p : nat) : length s1 = p -> upto_ (Z.of_nat p) (s1 ++ s2) = s1.
Proof. intros <-. unfold upto_. rewrite Nat2Z.id, firstn_app, Nat.sub_diag, firstn_all. cbn. now rewrite app_nil_r. Qed.
Lemma from_app s1 s2 (p : nat) : length s1 = p -> from_ (Z.of_nat p) (s1 ++ s2) = s2.
Proof. intros <-. unfold from_. rewrite Nat2Z.id, skipn_app, Nat.sub_diag, skipn_all. reflexivity. Qed.
Lemma from_app_cons s1 x s2 (p : nat) : length s1 = p -> from_ (Z.of_nat p + 1) (s1 ++ x :: s2) = s2.
Proof.
  intros <-. replace (Z.of_nat (length s1) + 1) with (Z.of_nat (length (s1 ++ [x]))).
  2:{ rewrite app_length. cbn. lia. }
  replace (s1 ++ x :: s2) with ((s1 ++ [x]) ++ s2) by (now rewrite <- app_assoc).
  now apply from_app.
Qed.
Lemma del_axis_app s1 x s2 (p : nat) : length s1 = p -> del_axis (Z.of_nat p) (s1 ++ x :: s2) = s1 ++ s2.
Proof. intros H. unfold del_axis. now rewrite upto_app, from_app_cons. Qed.
Lemma put_axis_app s1 x s2 (p : nat) : length s1 = p -> put_axis (Z.of_nat p) x (s1 ++ s2) = s1 ++ x :: s2.
Proof. intros H. unfold put_axis. now rewrite upto_app, from_app. Qed.
Lemma at_axis_app s1 x s2 (p : nat) : length s1 = p -> at_axis (Z.of_nat p) (s1 ++ x :: s2) = x.
Proof. intros <-. unfold at_axis. rewrite Nat2Z.id, app_nth2, Nat.sub_diag by lia. reflexivity. Qed.

Lemma range_length n : length (range n) = Z.to_nat n.
Proof. unfold range. now rewrite map_length, seq_length. Qed.
Lemma range_nth n j : 0 <= j < n -> nth_error (range n) (Z.to_nat j) = Some j.
Proof.
  intros H. unfold range. rewrite nth_error_map.
  replace (nth_error (seq 0 (Z.to_nat n)) (Z.to_nat j)) with (Some (Z.to_nat j)).
  - cbn. f_equal. lia.
  - symmetry. rewrite nth_error_nth' with (d := 0%nat).
    + f_equal. rewrite seq_nth; lia.
    + rewrite seq_length. lia.
Qed.
Lemma range_in n j : In j (range n) <-> 0 <= j < n.
Proof.
  unfold range. rewrite in_map_iff. split.
  - intros (k & <- & H). apply in_seq in H. lia.
  - intros H. exists (Z.to_nat j). split; [lia|]. apply in_seq. lia.
Qed.

Lemma in_shape_length i s : in_shape i s -> length i = length s.
Proof. induction 1; cbn; congruence. Qed.

(** an index of an array designates itself when the array is not broadcast *)
Lemma bc_index_self i s : in_shape i s -> bc_index s i = i.
Proof.
  intros H. unfold bc_index. rewrite (in_shape_length _ _ H), Nat.sub_diag. cbn [skipn].
  induction H as [|x n i s Hx H IH]; cbn [combine map fst snd]; [reflexivity|].
  rewrite IH. destruct (Z.eqb_spec n 1); f_equal. lia.
Qed.

(** ** axes *)

Lemma axis_pos_lt nd axis p : axis_pos nd axis p -> Z.of_nat p < nd.
Proof. unfold axis_pos. lia. Qed.

Lemma np_axis_ok nd axis p : axis_pos nd axis p -> np_axis nd axis = Ok (Z.of_nat p).
Proof.
  unfold axis_pos, np_axis. intros H.
  destruct (Z.ltb_spec axis (- nd)), (Z.geb_spec axis nd), (Z.ltb_spec axis 0); cbn; try lia; f_equal; lia.
Qed.
Lemma normalize_axis_ok nd axis p : axis_pos nd axis p -> normalize_axis nd axis = Ok (Z.of_nat p).
Proof.
  unfold axis_pos, normalize_axis, guard. intros H.
  destruct (Z.ltb_spec axis (- nd)), (Z.geb_spec axis nd), (Z.ltb_spec axis 0); cbn; try lia; f_equal; lia.
Qed.
Lemma np_axis_bad nd axis : axis_out_of_bounds nd axis -> np_axis nd axis = Raise AxisError.
Proof.
  unfold axis_out_of_bounds, np_axis. intros H.
  destruct (Z.ltb_spec axis (- nd)), (Z.geb_spec axis nd); cbn; try lia; reflexivity.
Qed.
Lemma normalize_axis_bad nd axis : axis_out_of_bounds nd axis -> normalize_axis nd axis = Raise AxisError.
Proof.
  unfold axis_out_of_bounds, normalize_axis, guard. intros H.
  destruct (Z.ltb_spec axis (- nd)), (Z.geb_spec axis nd); cbn; try lia; reflexivity.
Qed.
Lemma axis_pos_total nd axis : 0 <= nd -> axis_out_of_bounds nd axis \/ exists p, axis_pos nd axis p.
Proof.
  intros H. unfold axis_out_of_bounds, axis_pos.
  destruct (Z_lt_dec axis (- nd)); [auto|]. destruct (Z_le_dec nd axis); [auto|].
  right. destruct (Z_lt_dec axis 0).
  - exists (Z.to_nat (axis + nd)). right. lia.
  - exists (Z.to_nat axis). left. lia.
Qed.

Lemma new_axis_shape_ok s1 s2 n axis p : length s1 = p -> axis_pos (len (s1 ++ s2) + 1) axis p ->
  new_axis_shape (s1 ++ s2) n axis = Ok (s1 ++ n :: s2).
Proof.
  intros Hp Ha. unfold new_axis_shape, guard.
  replace (if axis <? 0 then axis + (1 + len (s1 ++ s2)) else axis) with (Z.of_nat p).
  2:{ unfold axis_pos in Ha. destruct (Z.ltb_spec axis 0); lia. }
  pose proof (axis_pos_lt _ _ _ Ha).
  destruct (Z.ltb_spec (Z.of_nat p) 0), (Z.gtb_spec (Z.of_nat p) (1 + len (s1 ++ s2))); cbn; try lia.
  now rewrite upto_app, from_app.
Qed.

(** the check of the wrappers lets exactly one out-of-bounds axis pass: [ndim + 1] *)
Lemma new_axis_shape_bad s n axis : axis_out_of_bounds (len s + 1) axis ->
  new_axis_shape s n axis = if axis =? len s + 1 then Ok (s ++ [n]) else Raise AxisError.
Proof.
  intros H. unfold axis_out_of_bounds in H. unfold new_axis_shape, guard. unfold len in *.
  destruct (Z.eqb_spec axis (Z.of_nat (length s) + 1)) as [->|N].
  - destruct (Z.ltb_spec (Z.of_nat (length s) + 1) 0); [lia|].
    destruct (Z.ltb_spec (Z.of_nat (length s) + 1) 0); [lia|].
    destruct (Z.gtb_spec (Z.of_nat (length s) + 1) (1 + Z.of_nat (length s))); [lia|]. cbn.
    unfold upto_, from_. rewrite firstn_all2, skipn_all2 by lia. reflexivity.
  - destruct (Z.ltb_spec axis 0) as [A|A].
    + destruct (Z.ltb_spec (axis + (1 + Z.of_nat (length s))) 0); [reflexivity|lia].
    + destruct (Z.ltb_spec axis 0); [lia|].
      destruct (Z.gtb_spec axis (1 + Z.of_nat (length s))); [reflexivity|lia].
Qed.

(** ** broadcasting *)

Lemma bc_rev_nil_r a : bc_rev a [] = Some a.
Proof. destruct a; reflexivity. Qed.

Lemma bc_dim_iff x y z : bc_dim x y z <-> (if x =? y then z = x else if x =? 1 then z = y else if y =? 1 then z = x else False).
Proof.
  split.
  - destruct 1.
    + now rewrite Z.eqb_refl.
    + destruct (Z.eqb_spec 1 y); cbn; auto.
    + destruct (Z.eqb_spec x 1); cbn; auto.
  - destruct (Z.eqb_spec x y) as [->|]; [intros ->; constructor|].
    destruct (Z.eqb_spec x 1) as [->|]; [intros ->; constructor|].
    destruct (Z.eqb_spec y 1) as [->|]; [intros ->; constructor|contradiction].
Qed.

Lemma bc_rev_sound : forall a b c, bc_rev a b = Some c -> broadcast (rev a) (rev b) (rev c).
Proof.
  induction a as [|x a IH]; intros b c H.
  - cbn in H. injection H as <-. constructor.
  - destruct b as [|y b]; [cbn in H; injection H as <-; constructor|].
    cbn in H. destruct (bc_rev a b) as [c'|] eqn:E; [|discriminate].
    specialize (IH _ _ E). cbn [rev].
    assert (D : exists z, c = z :: c' /\ bc_dim x y z).
    { destruct (Z.eqb_spec x y) as [->|]; [injection H as <-; eexists; split; [reflexivity|constructor]|].
      destruct (Z.eqb_spec x 1) as [->|]; [injection H as <-; eexists; split; [reflexivity|constructor]|].
      destruct (Z.eqb_spec y 1) as [->|]; [injection H as <-; eexists; split; [reflexivity|constructor]|].
      discriminate. }
    destruct D as (z & -> & D). cbn [rev]. now constructor.
Qed.

Lemma bc_rev_complete : forall a b c, broadcast a b c -> bc_rev (rev a) (rev b) = Some (rev c).
Proof.
  induction 1 as [b|a|a b c x y z H IH D].
  - reflexivity.
  - apply bc_rev_nil_r.
  - rewrite !rev_app_distr. cbn. rewrite IH. apply bc_dim_iff in D.
    destruct (x =? y); [now subst|]. destruct (x =? 1); [now subst|]. destruct (y =? 1); [now subst|contradiction].
Qed.

Lemma np_broadcast_ok a b c : broadcast a b c -> np_broadcast_shapes a b = Ok c.
Proof. intros H. unfold np_broadcast_shapes. rewrite (bc_rev_complete _ _ _ H), rev_involutive. reflexivity. Qed.
Lemma np_broadcast_bad a b : (forall c, ~ broadcast a b c) -> np_broadcast_shapes a b = Raise ValueError.
Proof.
  intros H. unfold np_broadcast_shapes. destruct (bc_rev (rev a) (rev b)) as [c|] eqn:E; [|reflexivity].
  apply bc_rev_sound in E. rewrite !rev_involutive in E. now apply H in E.
Qed.

Lemma designates_length s i i' : designates s i i' -> length i' = length s /\ (length s <= length i)%nat.
Proof. induction 1; [cbn; lia|]. rewrite !app_length. cbn. lia. Qed.

Lemma bc_index_designates s i i' : designates s i i' -> bc_index s i = i'.
Proof.
  induction 1 as [i|s i i' n x H IH]; [reflexivity|].
  destruct (designates_length _ _ _ H) as [L1 L2].
  unfold bc_index in *. rewrite !app_length. cbn [length].
  replace (length i + 1 - (length s + 1))%nat with (length i - length s)%nat by lia.
  rewrite skipn_app. replace (length i - length s - length i)%nat with 0%nat by lia. cbn [skipn].
  assert (L3 : length s = length (skipn (length i - length s) i)) by (rewrite skipn_length; lia).
  revert L3 IH. generalize (skipn (length i - length s) i) as t. intros t L3 IH.
  rewrite <- IH. clear - L3. revert t L3. induction s as [|a s IHs]; destruct t as [|b t]; cbn; intros L; try discriminate; [reflexivity|].
  injection L as L. now rewrite (IHs t L).
Qed.

Lemma designates_ex s : forall i, (length s <= length i)%nat -> exists i', designates s i i'.
Proof.
  induction s as [|n s IH] using rev_ind; intros i L; [eexists; constructor|].
  rewrite app_length in L. cbn in L. destruct i as [|x i _] using rev_ind; [cbn in L; lia|].
  rewrite app_length in L. cbn in L. destruct (IH i ltac:(lia)) as [i' H]. eexists. constructor. exact H.
Qed.

(** ** the gufunc call *)

Lemma np_gufunc_ok {A T} (core : A -> list T -> M (list T)) loop read (out : ndarray T) axis s1 n s2 p :
  shp out = s1 ++ n :: s2 -> length s1 = p -> loop = s1 ++ s2 -> axis_pos (len (s1 ++ s2) + 1) axis p ->
  exists r, np_gufunc core loop read out axis = Ok r /\ shp r = s1 ++ n :: s2 /\
    forall i1 j i2, length i1 = length s1 -> 0 <= j < n ->
      elt r (i1 ++ j :: i2) =
      bind (core (read (i1 ++ i2)) (map (fun j => elt out (i1 ++ j :: i2)) (range n)))
           (fun l => nth_error l (Z.to_nat j)).
Proof.
  intros Hs Hp -> Ha. unfold np_gufunc.
  assert (Hn : ndim out = len (s1 ++ s2) + 1).
  { unfold ndim, len. rewrite Hs, !app_length. cbn. lia. }
  rewrite Hn, (np_axis_ok _ _ _ Ha). cbn [rbind].
  rewrite Hs, del_axis_app by exact Hp. rewrite shape_eqb_refl. cbn [negb guard rbind].
  eexists. split; [reflexivity|]. split; [reflexivity|]. cbn [elt].
  intros i1 j i2 Hi Hj. assert (Hi' : length i1 = p) by congruence.
  rewrite del_axis_app, at_axis_app by exact Hi'.
  replace (slice out (Z.of_nat p) (i1 ++ i2)) with (map (fun j => elt out (i1 ++ j :: i2)) (range n)).
  2:{ unfold slice. rewrite Hs, at_axis_app by exact Hp. apply map_ext. intros j'. now rewrite put_axis_app. }
  reflexivity.
Qed.

Lemma np_gufunc_bad {A T} (core : A -> list T -> M (list T)) loop read (out : ndarray T) axis :
  axis_out_of_bounds (ndim out) axis -> np_gufunc core loop read out axis = Raise AxisError.
Proof. intros H. unfold np_gufunc. now rewrite np_axis_bad. Qed.

Lemma existsb_neg s : valid_shape s -> existsb (fun d => d <? 0) s = false.
Proof.
  induction 1 as [|x s Hx H IH]; cbn; [reflexivity|].
  destruct (Z.ltb_spec x 0); [lia|]. exact IH.
Qed.
Lemma valid_insert s1 n s2 : valid_shape (s1 ++ s2) -> 0 <= n -> valid_shape (s1 ++ n :: s2).
Proof.
  unfold valid_shape. rewrite !Forall_app. intros [H1 H2] Hn. split; [exact H1|]. now constructor.
Qed.
Lemma get_out_ok {T} (out : option (ndarray T)) s init : valid_shape s -> out_ok out s ->
  exists o, get_out out s init = Ok o /\ shp o = s /\ (out = None -> elt o = init) /\ (forall o', out = Some o' -> o = o').
Proof.
  intros V H. destruct out as [o|]; cbn in *.
  - subst s. rewrite shape_eqb_refl. cbn. exists o. repeat split; [discriminate|congruence].
  - unfold np_alloc. rewrite existsb_neg by exact V. cbn. eexists. repeat split; discriminate.
Qed.
Lemma get_out_bad {T} (o : ndarray T) s init : shp o <> s -> get_out (Some o) s init = Raise ValueError.
Proof. intros H. cbn. destruct (shape_eqb_spec (shp o) s); [contradiction|reflexivity]. Qed.
Lemma get_out_neg {T} s1 n s2 (init : list Z -> T) : n < 0 -> get_out None (s1 ++ n :: s2) init = Raise ValueError.
Proof.
  intros H. cbn. unfold np_alloc. replace (existsb _ _) with true; [reflexivity|].
  symmetry. apply existsb_exists. exists n. split; [apply in_or_app; right; now left|]. now apply Z.ltb_lt.
Qed.

(** ** running the cores *)

Lemma mapM_some {A B} (f : A -> M B) l r : length l = length r ->
  (forall k x, nth_error l k = Some x -> f x = nth_error r k) -> mapM f l = Some r.
Proof.
  revert r. induction l as [|x l IH]; destruct r as [|y r]; intros L H; try discriminate; [reflexivity|].
  cbn. rewrite (H 0%nat x eq_refl). cbn. rewrite (IH r); [reflexivity| |].
  - now injection L.
  - intros k z Hk. exact (H (S k) z Hk).
Qed.

Lemma run_core_view {T} (core : mem T -> Z -> Z -> M (mem T)) old mo' d :
  core (mem_of 0 8 old) 0 8 = Some mo' -> view mo' 0 8 d -> length d = length old -> run_core core old = Some d.
Proof.
  intros E V L. unfold run_core. rewrite E. cbn [bind]. apply mapM_some.
  - rewrite range_length. lia.
  - intros k x Hk. assert (Hlt : (k < length d)%nat).
    { rewrite L. assert (nth_error (range (Z.of_nat (length old))) k <> None) as N by congruence;
        apply nth_error_Some in N; rewrite range_length in N; lia. }
    assert (Hx : x = Z.of_nat k).
    { replace k with (Z.to_nat (Z.of_nat k)) in Hk by lia. rewrite range_nth in Hk by lia. congruence. }
    subst x. rewrite <- (V k Hlt). f_equal.
Qed.

Lemma list_of_fun {T} (f : nat -> T) n : exists d, length d = n /\ forall i, (i < n)%nat -> nth_error d i = Some (f i).
Proof.
  exists (map f (seq 0 n)). split; [now rewrite map_length, seq_length|].
  intros i Hi. rewrite nth_error_map, (nth_error_nth' _ 0%nat) by (now rewrite seq_length).
  rewrite seq_nth by lia. reflexivity.
Qed.

Lemma k_one_hot_ok k old j : 0 <= j < len old ->
  bind (k_one_hot k old) (fun l => nth_error l (Z.to_nat j)) = Some (if j =? k then 1 else 0).
Proof.
  intros Hj. unfold k_one_hot.
  destruct (one_hot_correct (length old) k (mem_of 0 8 old) 0 8 (writable_mem_of 0 8 old ltac:(lia))) as (mo' & E & V & _).
  destruct (list_of_fun (fun i => if Z.of_nat i =? k then 1 else 0) (length old)) as (d & Ld & Hd).
  erewrite run_core_view; [|exact E| |exact Ld].
  - cbn [bind]. unfold len in Hj. rewrite Hd by lia. rewrite Z2Nat.id by lia. reflexivity.
  - intros i Hi. rewrite V by lia. symmetry. apply Hd. lia.
Qed.

Lemma k_convert_ok t k b old : 1 <= iwid t -> fits (isgn t) (iwid t) k -> fits (isgn t) (iwid t) b -> 0 <= k -> 2 <= b ->
  exists d, k_convert t (k, b) old = Some d /\ length d = length old /\ (forall x, In x d -> 0 <= x < b) /\
    digits_value b d = k mod b ^ len old.
Proof.
  intros Hw Hk Hb K B. unfold k_convert.
  destruct (convert_to_base_nonneg t (length old) k b (mem_of 0 8 old) 0 8 Hw Hk Hb K B
              (writable_mem_of 0 8 old ltac:(lia))) as (mo' & d & E & (V & _) & L & R & D & _).
  exists d. split; [|auto]. cbn [fst snd]. eapply run_core_view; eauto.
Qed.

Lemma k_bincount_ok x old j : (forall k, In k x -> -2 ^ 63 <= k < 2 ^ 63) ->
  (forall o, In o old -> 0 <= o < 2 ^ 63 - len x) -> 0 <= j < len old ->
  forall o c, nth_error old (Z.to_nat j) = Some o -> occ (fun k => k = j) x c ->
  bind (k_bincount x old) (fun l => nth_error l (Z.to_nat j)) = Some (o + c).
Proof.
  intros Hx Ho Hj o c Eo Oc. unfold k_bincount.
  destruct (bincount_exact 8 8 (mem_of 0 8 x) 0 8 x (mem_of 0 8 old) 0 8 old
     ltac:(apply view_mem_of; lia) ltac:(apply view_mem_of; lia) (writable_mem_of 0 8 old ltac:(lia)) Hx Ho)
     as (mo' & E & V & _).
  assert (X : forall i, (i < length old)%nat -> exists v, mo' (0 + Z.of_nat i * 8) = Some v).
  { intros i Hi. destruct (nth_error old i) as [oi|] eqn:Ei; [|apply nth_error_None in Ei; lia].
    assert (Oi : exists c, occ (fun k => k = Z.of_nat i) x c).
    { clear. induction x as [|y x [c IH]]; [exists 0; constructor|].
      destruct (Z.eq_dec y (Z.of_nat i)); [exists (c + 1)|exists c]; now constructor. }
    destruct Oi as [ci Oi]. eexists. eapply V; eauto. }
  destruct (list_of_fun (fun i => match mo' (0 + Z.of_nat i * 8) with Some v => v | None => 0 end) (length old)) as (d & Ld & Hd).
  erewrite run_core_view; [|exact E| |exact Ld].
  - cbn [bind]. unfold len in Hj. rewrite Hd by lia.
    erewrite V; [reflexivity|exact Eo|]. rewrite Z2Nat.id by lia. exact Oc.
  - intros i Hi. rewrite Hd by lia. destruct (X i ltac:(lia)) as [v Hv]. now rewrite Hv.
Qed.

Lemma k_bincountw_ok {W} (add : W -> W -> W) x (w : list W) old j : length w = length x ->
  (forall k, In k x -> -2 ^ 63 <= k < 2 ^ 63) -> 0 <= j < len old ->
  forall o, nth_error old (Z.to_nat j) = Some o ->
  bind (k_bincountw add (x, w) old) (fun l => nth_error l (Z.to_nat j)) = Some (fold_left add (weights_of j x w) o).
Proof.
  intros Lw Hx Hj o Eo. unfold k_bincountw. cbn [fst snd].
  destruct (bincountw_correct add (mem_of 0 8 x) 0 8 (mem_of 0 8 w) 0 8 x w (mem_of 0 8 old) 0 8 old
     ltac:(apply view_mem_of; lia) ltac:(apply view_mem_of; lia) Lw ltac:(apply view_mem_of; lia)
     (writable_mem_of 0 8 old ltac:(lia)) Hx) as (mo' & E & V & _).
  destruct (list_of_fun (fun i => fold_left add (weights_of (Z.of_nat i) x w) (nth i old o)) (length old)) as (d & Ld & Hd).
  erewrite run_core_view; [|exact E| |exact Ld].
  - cbn [bind]. unfold len in Hj. rewrite Hd by lia. rewrite Z2Nat.id by lia. f_equal. f_equal.
    now apply nth_error_nth.
  - intros i Hi. rewrite Hd by lia. apply V. apply nth_error_nth'. lia.
Qed.

(** ** one_hot *)

Lemma in_shape_app i1 i2 s1 s2 : in_shape i1 s1 -> in_shape i2 s2 -> in_shape (i1 ++ i2) (s1 ++ s2).
Proof. apply Forall2_app. Qed.

Lemma map_range_len {T} (f : Z -> T) n : 0 <= n -> len (map f (range n)) = n.
Proof. intros H. unfold len. rewrite map_length, range_length. lia. Qed.
Lemma map_range_nth {T} (f : Z -> T) n j : 0 <= j < n -> nth_error (map f (range n)) (Z.to_nat j) = Some (f j).
Proof. intros H. now rewrite nth_error_map, range_nth. Qed.

Theorem one_hot_wrapper_ok t k n out axis junk s1 s2 :
  shp k = s1 ++ s2 -> valid_shape (shp k) -> 0 <= n -> axis_pos (Z.of_nat (length (shp k)) + 1) axis (length s1) ->
  out_ok out (s1 ++ n :: s2) ->
  exists r, one_hot (DInt t) k (PInt n) out axis junk = Ok r /\ shp r = s1 ++ n :: s2 /\
    forall i1 j i2, in_shape i1 s1 -> in_shape i2 s2 -> 0 <= j < n ->
      elt r (i1 ++ j :: i2) = Some (if j =? elt k (i1 ++ i2) then 1 else 0).
Proof.
  intros Hs Hv Hn Ha Ho. unfold one_hot. cbn [is_integer_dtype negb guard rbind index_or_error operator_index].
  rewrite Hs in *. rewrite (new_axis_shape_ok s1 s2 n axis (length s1) eq_refl Ha). cbn [rbind].
  destruct (get_out_ok out (s1 ++ n :: s2) junk (valid_insert _ _ _ Hv Hn) Ho) as (o & E & So & _). rewrite E. cbn [rbind].
  destruct (np_gufunc_ok k_one_hot (s1 ++ s2) (read0 k) o axis s1 n s2 (length s1) So eq_refl eq_refl Ha) as (r & Er & Sr & Vr).
  exists r. split; [exact Er|]. split; [exact Sr|]. intros i1 j i2 H1 H2 Hj.
  rewrite (Vr i1 j i2 (in_shape_length _ _ H1) Hj).
  rewrite k_one_hot_ok by (rewrite map_range_len by lia; exact Hj).
  unfold read0. rewrite Hs, bc_index_self by (now apply in_shape_app). reflexivity.
Qed.

Lemma broadcast_sym a b c : broadcast a b c -> broadcast b a c.
Proof.
  induction 1 as [b|a|a b c x y z H IH D]; [constructor|constructor|].
  apply bc_snoc; [exact IH|]. destruct D; constructor.
Qed.
Lemma designates_snoc s n j x0 i' : designates (s ++ [n]) (j ++ [x0]) i' ->
  exists i'', designates s j i'' /\ i' = i'' ++ [if n =? 1 then 0 else x0].
Proof.
  inversion 1 as [i E|s0 i0 i0' n0 y H0 E1 E2]; subst.
  - destruct s; discriminate.
  - apply app_inj_tail in E1, E2. destruct E1 as [-> ->], E2 as [-> ->]. eauto.
Qed.
Lemma designates_nil i i' : designates [] i i' -> i' = [].
Proof. intros H. pose proof (designates_length _ _ _ H) as [L _]. inversion H; subst; [reflexivity|]. destruct s; discriminate. Qed.
Lemma designates_in_shape a b c i i' : broadcast a b c -> in_shape i c -> designates a i i' -> in_shape i' a.
Proof.
  intros Hb. revert i i'. induction Hb as [b|a|a b c x y z H IH D]; intros i i' Hi Hd.
  - rewrite (designates_nil _ _ Hd). constructor.
  - rewrite <- (bc_index_designates _ _ _ Hd). now rewrite bc_index_self.
  - unfold in_shape in Hi. apply Forall2_app_inv_r in Hi. destruct Hi as (j & r & Hj & Hr & ->).
    inversion Hr as [|x0 ? r' ? Hx0 Hr']; subst. inversion Hr'; subst.
    destruct (designates_snoc _ _ _ _ _ Hd) as (i'' & Hd' & ->).
    apply Forall2_app; [exact (IH _ _ Hj Hd')|]. constructor; [|constructor].
    destruct (Z.eqb_spec x 1); [lia|]. destruct D; lia.
Qed.

(** ** convert_to_base *)

Theorem convert_to_base_wrapper_ok t k base n out axis junk s1 s2 :
  broadcast (shp k) (shp base) (s1 ++ s2) -> valid_shape (s1 ++ s2) -> 0 <= n ->
  axis_pos (Z.of_nat (length (s1 ++ s2)) + 1) axis (length s1) -> out_ok out (s1 ++ n :: s2) -> 1 <= iwid t ->
  (forall i, in_shape i (shp k) -> fits (isgn t) (iwid t) (elt k i) /\ 0 <= elt k i) ->
  (forall i, in_shape i (shp base) -> fits (isgn t) (iwid t) (elt base i) /\ 2 <= elt base i) ->
  exists r, convert_to_base t k base (PInt n) out axis junk = Ok r /\ shp r = s1 ++ n :: s2 /\
    forall i1 i2 ik ib, in_shape i1 s1 -> in_shape i2 s2 ->
      designates (shp k) (i1 ++ i2) ik -> designates (shp base) (i1 ++ i2) ib ->
      exists d, digits_value (elt base ib) d = elt k ik mod elt base ib ^ n /\
        (forall x, In x d -> 0 <= x < elt base ib) /\ Z.of_nat (length d) = n /\
        forall j, 0 <= j < n -> elt r (i1 ++ j :: i2) = nth_error d (Z.to_nat j).
Proof.
  intros Hb Hv Hn Ha Ho Hw Hk Hbase. unfold convert_to_base. cbn [rbind index_or_error operator_index].
  rewrite (np_broadcast_ok _ _ _ Hb). cbn [rbind].
  rewrite (new_axis_shape_ok s1 s2 n axis (length s1) eq_refl Ha). cbn [rbind].
  destruct (get_out_ok out (s1 ++ n :: s2) junk (valid_insert _ _ _ Hv Hn) Ho) as (o & E & So & _). rewrite E. cbn [rbind].
  destruct (np_gufunc_ok (k_convert t) (s1 ++ s2) (fun i => (read0 k i, read0 base i)) o axis s1 n s2 (length s1) So eq_refl eq_refl Ha)
    as (r & Er & Sr & Vr).
  exists r. split; [exact Er|]. split; [exact Sr|]. intros i1 i2 ik ib H1 H2 Dk Db.
  pose proof (Hk ik (designates_in_shape _ _ _ _ _ Hb (in_shape_app _ _ _ _ H1 H2) Dk)) as [Hk1 Hk2].
  pose proof (Hbase ib (designates_in_shape _ _ _ _ _ (broadcast_sym _ _ _ Hb) (in_shape_app _ _ _ _ H1 H2) Db)) as [Hb1 Hb2].
  destruct (k_convert_ok t (elt k ik) (elt base ib) (map (fun j => elt o (i1 ++ j :: i2)) (range n)) Hw
              Hk1 Hb1 Hk2 Hb2) as (d & Ed & Ld & Rd & Dd).
  rewrite map_range_len in Dd by exact Hn.
  assert (Ld' : Z.of_nat (length d) = n) by (rewrite Ld; apply map_range_len; exact Hn).
  exists d. split; [exact Dd|]. split; [exact Rd|]. split; [exact Ld'|].
  intros j Hj. rewrite (Vr i1 j i2 (in_shape_length _ _ H1) Hj).
  unfold read0. rewrite (bc_index_designates _ _ _ Dk), (bc_index_designates _ _ _ Db), Ed. reflexivity.
Qed.

(** ** nextn *)
Section Nextn.
  Context (prec emax : Z) {Hp : FLX.Prec_gt_0 prec} {He : Prec_lt_emax prec emax}.
  Notation F := (binary_float prec emax).

  Theorem nextn_wrapper_ok (core : F -> list F -> M (list F)) (P : F -> list F -> Prop) dx (x : ndarray F) n out axis junk s1 s2 :
    (forall v old, exists ys, core v old = Some ys /\ length ys = length old /\ P v ys) ->
    floating_dtype dx ->
    shp x = s1 ++ s2 -> valid_shape (shp x) -> 0 <= n -> axis_pos (Z.of_nat (length (shp x)) + 1) axis (length s1) ->
    out_ok out (s1 ++ n :: s2) ->
    exists r, nextn_wrapper prec emax core dx x (PInt n) out axis junk = Ok r /\ shp r = s1 ++ n :: s2 /\
      forall i1 i2, in_shape i1 s1 -> in_shape i2 s2 ->
        exists ys, P (elt x (i1 ++ i2)) ys /\ Z.of_nat (length ys) = n /\
          forall j, 0 <= j < n -> elt r (i1 ++ j :: i2) = nth_error ys (Z.to_nat j).
  Proof.
    intros Hc Hd Hs Hv Hn Ha Ho. unfold nextn_wrapper. rewrite (fdg_floating _ Hd). cbn [negb guard rbind index_or_error operator_index].
    rewrite Hs in *. rewrite (new_axis_shape_ok s1 s2 n axis (length s1) eq_refl Ha). cbn [rbind].
    destruct (get_out_ok out (s1 ++ n :: s2) junk (valid_insert _ _ _ Hv Hn) Ho) as (o & E & So & _). rewrite E. cbn [rbind].
    destruct (np_gufunc_ok core (s1 ++ s2) (read0 x) o axis s1 n s2 (length s1) So eq_refl eq_refl Ha) as (r & Er & Sr & Vr).
    exists r. split; [exact Er|]. split; [exact Sr|]. intros i1 i2 H1 H2.
    destruct (Hc (elt x (i1 ++ i2)) (map (fun j => elt o (i1 ++ j :: i2)) (range n))) as (ys & Ey & Ly & Py).
    assert (Ly' : Z.of_nat (length ys) = n) by (rewrite Ly; apply map_range_len; exact Hn).
    exists ys. split; [exact Py|]. split; [exact Ly'|]. intros j Hj.
    rewrite (Vr i1 j i2 (in_shape_length _ _ H1) Hj).
    unfold read0. rewrite Hs, bc_index_self by (now apply in_shape_app). now rewrite Ey.
  Qed.
End Nextn.

Lemma Forall2_app_split {A B} (R : A -> B -> Prop) l1 l2 r1 r2 : Forall2 R (l1 ++ l2) (r1 ++ r2) -> length l1 = length r1 ->
  Forall2 R l1 r1 /\ Forall2 R l2 r2.
Proof.
  revert r1. induction l1 as [|x l1 IH]; destruct r1 as [|y r1]; cbn; intros H L; try discriminate; [auto|].
  inversion H; subst. injection L as L. destruct (IH r1); [assumption..|]. auto.
Qed.

(** ** bincount *)

Lemma valid_replace s1 a n s2 : valid_shape (s1 ++ a :: s2) -> 0 <= n -> valid_shape (s1 ++ n :: s2).
Proof.
  unfold valid_shape. rewrite !Forall_app. intros [H1 H2] Hn. split; [exact H1|].
  constructor; [exact Hn|]. now inversion H2.
Qed.

Lemma read1_app {T} (a : ndarray T) s1 n s2 i1 i2 :
  shp a = s1 ++ n :: s2 -> in_shape i1 s1 -> in_shape i2 s2 ->
  read1 a (Z.of_nat (length s1)) (i1 ++ i2) = map (fun t => elt a (i1 ++ t :: i2)) (range n).
Proof.
  intros Hs H1 H2. unfold read1. rewrite Hs, del_axis_app by reflexivity.
  rewrite bc_index_self by (now apply in_shape_app). unfold slice. rewrite Hs, at_axis_app by reflexivity.
  apply map_ext. intros t. now rewrite put_axis_app by (exact (in_shape_length _ _ H1)).
Qed.

(** which [m] a call uses *)
Lemma bincount_m_given t x m : 0 <= m -> bincount_m t x (Some (PInt m)) = Ok m.
Proof. intros H. cbn. destruct (Z.ltb_spec m 0); [lia|reflexivity]. Qed.

Lemma bincount_wrapper_m t x m m' out axis s1 n s2 :
  bincount_m t x m' = Ok m -> 0 <= m ->
  shp x = s1 ++ n :: s2 -> valid_shape (shp x) -> axis_pos (Z.of_nat (length (shp x))) axis (length s1) ->
  out_ok out (s1 ++ m :: s2) ->
  (forall i, in_shape i (shp x) -> - 2 ^ 63 <= elt x i < 2 ^ 63) -> n < 2 ^ 63 ->
  (forall o i, out = Some o -> in_shape i (shp o) -> 0 <= elt o i < 2 ^ 63 - n) ->
  exists r, bincount (DInt t) x m' out axis = Ok r /\ shp r = s1 ++ m :: s2 /\
    forall i1 j i2 c, in_shape i1 s1 -> in_shape i2 s2 -> 0 <= j < m ->
      occ (fun v => v = j) (map (fun t => elt x (i1 ++ t :: i2)) (range n)) c ->
      elt r (i1 ++ j :: i2) =
        Some (match out with Some o => elt o (i1 ++ j :: i2) | None => 0 end + c).
Proof.
  intros Em Hm Hs Hv Ha Ho Hx Hn63 Hout. unfold bincount. rewrite Em. cbn [rbind].
  unfold ndim. rewrite (normalize_axis_ok _ _ _ Ha). cbn [rbind]. rewrite Hs in *.
  rewrite upto_app, from_app_cons by reflexivity. cbn [app].
  destruct (get_out_ok out (s1 ++ m :: s2) (fun _ => 0) (valid_replace _ _ _ _ Hv Hm) Ho) as (o & E & So & Eo1 & Eo2).
  rewrite E. cbn [rbind]. rewrite (np_axis_ok _ _ _ Ha). cbn [rbind]. rewrite del_axis_app by reflexivity.
  assert (Ha' : axis_pos (len (s1 ++ s2) + 1) axis (length s1)).
  { replace (len (s1 ++ s2) + 1) with (Z.of_nat (length (s1 ++ n :: s2))); [exact Ha|].
    unfold len. rewrite !app_length. cbn. lia. }
  destruct (np_gufunc_ok k_bincount (s1 ++ s2) (read1 x (Z.of_nat (length s1))) o axis s1 m s2 (length s1) So eq_refl eq_refl Ha')
    as (r & Er & Sr & Vr).
  exists r. split; [exact Er|]. split; [exact Sr|]. intros i1 j i2 c H1 H2 Hj Oc.
  rewrite (Vr i1 j i2 (in_shape_length _ _ H1) Hj). rewrite (read1_app x s1 n s2 i1 i2 Hs H1 H2).
  assert (Hn0 : 0 <= n). { unfold valid_shape in Hv. apply Forall_app in Hv. destruct Hv as [_ Hv]. now inversion Hv. }
  rewrite (k_bincount_ok _ _ j) with (o := elt o (i1 ++ j :: i2)) (c := c).
  - do 2 f_equal. destruct out as [o'|]; [now rewrite (Eo2 o' eq_refl)|now rewrite (Eo1 eq_refl)].
  - intros k Hk. apply in_map_iff in Hk. destruct Hk as (t' & <- & Ht). apply range_in in Ht. apply Hx.
    apply in_shape_app; [exact H1|]. constructor; assumption.
  - intros v Hv'. apply in_map_iff in Hv'. destruct Hv' as (t' & <- & Ht). apply range_in in Ht. rewrite map_range_len by exact Hn0.
    destruct out as [o'|]; [rewrite (Eo2 o' eq_refl); eapply Hout; [reflexivity|]|rewrite (Eo1 eq_refl); lia].
    cbn in Ho. rewrite Ho. apply in_shape_app; [exact H1|]. constructor; assumption.
  - rewrite map_range_len by lia. exact Hj.
  - exact (map_range_nth (fun j => elt o (i1 ++ j :: i2)) m j Hj).
  - exact Oc.
Qed.

Lemma bincount_weights_m {W} (add : W -> W -> W) zero t x (w : ndarray W) m m' out axis x1 n x2 w1 w2 s1 s2 :
  bincount_m t x m' = Ok m -> 0 <= m ->
  shp x = x1 ++ n :: x2 -> shp w = w1 ++ n :: w2 -> 0 <= n ->
  axis_pos (Z.of_nat (length (shp x))) axis (length x1) ->
  axis_pos (Z.of_nat (length (shp w))) axis (length w1) ->
  broadcast (x1 ++ x2) (w1 ++ w2) (s1 ++ s2) -> valid_shape (s1 ++ s2) ->
  axis_pos (Z.of_nat (length (s1 ++ s2)) + 1) axis (length s1) ->
  out_ok out (s1 ++ m :: s2) ->
  (forall i, in_shape i (shp x) -> - 2 ^ 63 <= elt x i < 2 ^ 63) ->
  exists r, bincount_weights add zero (DInt t) x m' w out axis = Ok r /\ shp r = s1 ++ m :: s2 /\
    forall i1 j i2 jx1 jx2 jw1 jw2, in_shape i1 s1 -> in_shape i2 s2 -> 0 <= j < m ->
      designates (x1 ++ x2) (i1 ++ i2) (jx1 ++ jx2) -> length jx1 = length x1 ->
      designates (w1 ++ w2) (i1 ++ i2) (jw1 ++ jw2) -> length jw1 = length w1 ->
      elt r (i1 ++ j :: i2) =
        Some (fold_left add (weights_of j (map (fun t => elt x (jx1 ++ t :: jx2)) (range n))
                                          (map (fun t => elt w (jw1 ++ t :: jw2)) (range n)))
                        (match out with Some o => elt o (i1 ++ j :: i2) | None => zero end)).
Proof.
  intros Em Hm Hsx Hsw Hn Hax Haw Hb Hv Ha Ho Hx. unfold bincount_weights. rewrite Em. cbn [rbind].
  unfold shape_remove_axis, shape_insert_axis. unfold len at 1 2. rewrite (normalize_axis_ok _ _ _ Hax). cbn [rbind].
  rewrite (normalize_axis_ok _ _ _ Haw). cbn [rbind]. rewrite Hsx, Hsw in *.
  rewrite !upto_app, !from_app_cons by reflexivity. rewrite (np_broadcast_ok _ _ _ Hb). cbn [rbind].
  unfold len at 1. rewrite (normalize_axis_ok _ _ _ Ha). cbn [rbind]. rewrite upto_app, from_app by reflexivity. cbn [app].
  destruct (get_out_ok out (s1 ++ m :: s2) (fun _ => zero) (valid_insert _ _ _ Hv Hm) Ho) as (o & E & So & Eo1 & Eo2).
  rewrite E. cbn [rbind]. unfold ndim at 1 2. rewrite Hsx, Hsw. rewrite (np_axis_ok _ _ _ Hax), (np_axis_ok _ _ _ Haw). cbn [rbind].
  rewrite !at_axis_app by reflexivity. rewrite Z.eqb_refl. cbn [negb guard rbind].
  rewrite !del_axis_app by reflexivity. rewrite (np_broadcast_ok _ _ _ Hb). cbn [rbind].
  destruct (np_gufunc_ok (k_bincountw add) (s1 ++ s2)
     (fun i => (read1 x (Z.of_nat (length x1)) i, read1 w (Z.of_nat (length w1)) i)) o axis s1 m s2 (length s1) So eq_refl eq_refl Ha)
    as (r & Er & Sr & Vr).
  exists r. split; [exact Er|]. split; [exact Sr|].
  intros i1 j i2 jx1 jx2 jw1 jw2 H1 H2 Hj Dx Lx Dw Lw.
  rewrite (Vr i1 j i2 (in_shape_length _ _ H1) Hj).
  assert (Rx : read1 x (Z.of_nat (length x1)) (i1 ++ i2) = map (fun t => elt x (jx1 ++ t :: jx2)) (range n)).
  { unfold read1. rewrite Hsx, del_axis_app by reflexivity. rewrite (bc_index_designates _ _ _ Dx).
    unfold slice. rewrite Hsx, at_axis_app by reflexivity. apply map_ext. intros u. now rewrite put_axis_app. }
  assert (Rw : read1 w (Z.of_nat (length w1)) (i1 ++ i2) = map (fun t => elt w (jw1 ++ t :: jw2)) (range n)).
  { unfold read1. rewrite Hsw, del_axis_app by reflexivity. rewrite (bc_index_designates _ _ _ Dw).
    unfold slice. rewrite Hsw, at_axis_app by reflexivity. apply map_ext. intros u. now rewrite put_axis_app. }
  rewrite Rx, Rw. rewrite (k_bincountw_ok add _ _ _ j) with (o := elt o (i1 ++ j :: i2)).
  - do 2 f_equal. destruct out as [o'|]; [now rewrite (Eo2 o' eq_refl)|now rewrite (Eo1 eq_refl)].
  - now rewrite !map_length.
  - intros k Hk. apply in_map_iff in Hk. destruct Hk as (t' & <- & Ht). apply range_in in Ht. apply Hx.
    pose proof (designates_in_shape _ _ _ _ _ Hb (in_shape_app _ _ _ _ H1 H2) Dx) as Hj'.
    apply Forall2_app_split in Hj'; [|exact Lx]. destruct Hj' as [J1 J2].
    apply in_shape_app; [exact J1|]. constructor; assumption.
  - rewrite map_range_len by lia. exact Hj.
  - exact (map_range_nth (fun j => elt o (i1 ++ j :: i2)) m j Hj).
Qed.


Lemma in_indices i s : In i (indices s) <-> in_shape i s.
Proof.
  revert i. induction s as [|n s IH]; intros i; cbn [indices].
  - split; [intros [<-|[]]; constructor|]. intros H. inversion H. now left.
  - rewrite in_flat_map. split.
    + intros (j & Hj & H). apply in_map_iff in H. destruct H as (i' & <- & Hi'). constructor; [now apply range_in|now apply IH].
    + intros H. inversion H as [|j ? i' ? Hj Hi']; subst. exists j. split; [now apply range_in|]. apply in_map. now apply IH.
Qed.
Lemma effective_m_ok t x m' m : effective_m t x m' m -> bincount_m t x m' = Ok m /\ 0 <= m.
Proof.
  intros [m0 H|mx Hw (i & Hi & E) Hmax F1 F2]; [split; [now apply bincount_m_given|exact H]|]. split; [|lia].
  unfold bincount_m. rewrite (bincount_default_m_ok t (elements x) mx Hw); [reflexivity| |exact F1|exact F2].
  unfold elements. split.
  - apply in_map_iff. exists i. split; [exact E|now apply in_indices].
  - intros v Hv. apply in_map_iff in Hv. destruct Hv as (j & <- & Hj). apply Hmax. now apply in_indices.
Qed.

Theorem bincount_wrapper_ok t x m m' out axis s1 n s2 :
  effective_m t x m' m ->
  shp x = s1 ++ n :: s2 -> valid_shape (shp x) -> axis_pos (Z.of_nat (length (shp x))) axis (length s1) ->
  out_ok out (s1 ++ m :: s2) ->
  (forall i, in_shape i (shp x) -> - 2 ^ 63 <= elt x i < 2 ^ 63) -> n < 2 ^ 63 ->
  (forall o i, out = Some o -> in_shape i (shp o) -> 0 <= elt o i < 2 ^ 63 - n) ->
  exists r, bincount (DInt t) x m' out axis = Ok r /\ shp r = s1 ++ m :: s2 /\
    forall i1 j i2 c, in_shape i1 s1 -> in_shape i2 s2 -> 0 <= j < m ->
      occ (fun v => v = j) (map (fun t => elt x (i1 ++ t :: i2)) (range n)) c ->
      elt r (i1 ++ j :: i2) =
        Some (match out with Some o => elt o (i1 ++ j :: i2) | None => 0 end + c).
Proof. intros H. destruct (effective_m_ok _ _ _ _ H). now apply bincount_wrapper_m. Qed.

Theorem bincount_weights_ok {W} (add : W -> W -> W) zero t x (w : ndarray W) m m' out axis x1 n x2 w1 w2 s1 s2 :
  effective_m t x m' m ->
  shp x = x1 ++ n :: x2 -> shp w = w1 ++ n :: w2 -> 0 <= n ->
  axis_pos (Z.of_nat (length (shp x))) axis (length x1) ->
  axis_pos (Z.of_nat (length (shp w))) axis (length w1) ->
  broadcast (x1 ++ x2) (w1 ++ w2) (s1 ++ s2) -> valid_shape (s1 ++ s2) ->
  axis_pos (Z.of_nat (length (s1 ++ s2)) + 1) axis (length s1) ->
  out_ok out (s1 ++ m :: s2) ->
  (forall i, in_shape i (shp x) -> - 2 ^ 63 <= elt x i < 2 ^ 63) ->
  exists r, bincount_weights add zero (DInt t) x m' w out axis = Ok r /\ shp r = s1 ++ m :: s2 /\
    forall i1 j i2 jx1 jx2 jw1 jw2, in_shape i1 s1 -> in_shape i2 s2 -> 0 <= j < m ->
      designates (x1 ++ x2) (i1 ++ i2) (jx1 ++ jx2) -> length jx1 = length x1 ->
      designates (w1 ++ w2) (i1 ++ i2) (jw1 ++ jw2) -> length jw1 = length w1 ->
      elt r (i1 ++ j :: i2) =
        Some (fold_left add (weights_of j (map (fun t => elt x (jx1 ++ t :: jx2)) (range n))
                                          (map (fun t => elt w (jw1 ++ t :: jw2)) (range n)))
                        (match out with Some o => elt o (i1 ++ j :: i2) | None => zero end)).
Proof. intros H. destruct (effective_m_ok _ _ _ _ H). now apply bincount_weights_m. Qed.

(** ** errors *)

(** the part shared by convert_to_base, one_hot and nextn: any loop shape [s], any core *)
Section NewAxis.
  Context {A T : Type} (core : A -> list T -> M (list T)) (read : list Z -> A) (s : shape) (junk : list Z -> T).
  Let call (n : pyarg) (out : option (ndarray T)) (axis : Z) : res (ndarray (M T)) :=
    n <~ index_or_error n ;;
    out_shape <~ new_axis_shape s n axis ;;
    out <~ get_out out out_shape junk ;;
    np_gufunc core s read out axis.

  Lemma call_axis_none n axis : valid_shape s -> 0 <= n -> axis_out_of_bounds (len s + 1) axis ->
    call (PInt n) None axis = Raise AxisError.
  Proof.
    intros Hv Hn H. unfold call. cbn [index_or_error operator_index rbind]. rewrite (new_axis_shape_bad _ _ _ H).
    destruct (axis =? len s + 1); [|reflexivity]. cbn [rbind].
    assert (V : valid_shape (s ++ [n])).
    { rewrite <- (app_nil_r s) in Hv. exact (valid_insert s n [] Hv Hn). }
    destruct (get_out_ok None (s ++ [n]) junk V I) as (o & E & So & _). rewrite E. cbn [rbind].
    apply np_gufunc_bad. unfold ndim. rewrite So, app_length. cbn [length].
    unfold axis_out_of_bounds, len in *. lia.
  Qed.

  Lemma call_axis_raises n out axis : axis_out_of_bounds (len s + 1) axis ->
    exists e, call n out axis = Raise e.
  Proof.
    intros H. unfold call. destruct (index_or_error n) as [z|e]; [|eexists; reflexivity]. cbn [rbind].
    rewrite (new_axis_shape_bad _ _ _ H). destruct (axis =? len s + 1); [|eexists; reflexivity]. cbn [rbind].
    destruct (get_out out (s ++ [z]) junk) as [o|e] eqn:E; [|eexists; reflexivity]. cbn [rbind].
    exists AxisError. apply np_gufunc_bad.
    assert (So : shp o = s ++ [z]).
    { destruct out as [o'|]; cbn in E.
      - destruct (shape_eqb_spec (shp o') (s ++ [z])); cbn in E; [congruence|discriminate].
      - unfold np_alloc in E. destruct (existsb _ _); cbn in E; [discriminate|]. injection E as <-. reflexivity. }
    unfold ndim. rewrite So, app_length. cbn [length]. unfold axis_out_of_bounds, len in *. lia.
  Qed.

  Lemma call_out_shape s1 s2 n o axis : s = s1 ++ s2 -> axis_pos (len s + 1) axis (length s1) ->
    shp o <> s1 ++ n :: s2 -> call (PInt n) (Some o) axis = Raise ValueError.
  Proof.
    intros -> Ha H. unfold call. cbn [index_or_error operator_index rbind].
    rewrite (new_axis_shape_ok s1 s2 n axis (length s1) eq_refl Ha). cbn [rbind]. now rewrite get_out_bad.
  Qed.

  Lemma split_at p : (p <= length s)%nat -> exists s1 s2, s = s1 ++ s2 /\ length s1 = p.
  Proof. intros H. exists (firstn p s), (skipn p s). split; [now rewrite firstn_skipn|]. rewrite firstn_length. lia. Qed.

  Lemma call_negative n out axis : n < 0 ->
    ~ axis_out_of_bounds (len s + 1) axis -> (forall o, out = Some o -> valid_shape (shp o)) ->
    call (PInt n) out axis = Raise ValueError.
  Proof.
    intros Hn Hb Hv. destruct (axis_pos_total (len s + 1) axis) as [B|[p Ha]]; [unfold len; lia|contradiction|].
    destruct (split_at p) as (s1 & s2 & Hs & L). { pose proof (axis_pos_lt _ _ _ Ha). unfold len in *. lia. }
    unfold call. cbn [index_or_error operator_index rbind]. rewrite Hs in *.
    rewrite (new_axis_shape_ok s1 s2 n axis p L Ha). cbn [rbind].
    destruct out as [o|].
    - rewrite get_out_bad; [reflexivity|]. intros E. specialize (Hv o eq_refl). rewrite E in Hv.
      unfold valid_shape in Hv. apply Forall_app in Hv. destruct Hv as [_ Hv]. inversion Hv; subst; lia.
    - now rewrite get_out_neg.
  Qed.

  Lemma call_bad_n out axis : call PBad out axis = Raise ValueError.
  Proof. reflexivity. Qed.
End NewAxis.

Section Errors.
  Context {prec emax : Z} {Hp : FLX.Prec_gt_0 prec} {He : Prec_lt_emax prec emax}.
  Notation F := (binary_float prec emax).
  Context (t : ity) (k base : ndarray Z) (x : ndarray F) (s : shape) (dx : dtype).
  Hypothesis Hb : broadcast (shp k) (shp base) s.
  Hypothesis Hd : floating_dtype dx.

  Lemma convert_unfold n out axis junk :
    convert_to_base t k base n out axis junk =
    (n <~ index_or_error n ;; out_shape <~ new_axis_shape s n axis ;; out <~ get_out out out_shape junk ;;
     np_gufunc (k_convert t) s (fun i => (read0 k i, read0 base i)) out axis).
  Proof. unfold convert_to_base. rewrite (np_broadcast_ok _ _ _ Hb). reflexivity. Qed.
  Lemma one_hot_unfold n out axis junk :
    one_hot (DInt t) k n out axis junk =
    (n <~ index_or_error n ;; out_shape <~ new_axis_shape (shp k) n axis ;; out <~ get_out out out_shape junk ;;
     np_gufunc k_one_hot (shp k) (read0 k) out axis).
  Proof. reflexivity. Qed.
  Lemma nextn_unfold core n out axis junk :
    nextn_wrapper prec emax core dx x n out axis junk =
    (n <~ index_or_error n ;; out_shape <~ new_axis_shape (shp x) n axis ;; out <~ get_out out out_shape junk ;;
     np_gufunc core (shp x) (read0 x) out axis).
  Proof. unfold nextn_wrapper. now rewrite (fdg_floating _ Hd). Qed.

  Theorem axis_errors n axis junk junkf : 0 <= n ->
    (valid_shape s -> axis_out_of_bounds (len s + 1) axis ->
       convert_to_base t k base (PInt n) None axis junk = Raise AxisError) /\
    (valid_shape (shp k) -> axis_out_of_bounds (len (shp k) + 1) axis ->
       one_hot (DInt t) k (PInt n) None axis junk = Raise AxisError) /\
    (valid_shape (shp x) -> axis_out_of_bounds (len (shp x) + 1) axis ->
       nextn_greater prec emax dx x (PInt n) None axis junkf = Raise AxisError /\
       nextn_less prec emax dx x (PInt n) None axis junkf = Raise AxisError).
  Proof.
    intros Hn. unfold nextn_greater, nextn_less. rewrite convert_unfold, one_hot_unfold, !nextn_unfold.
    split; [|split]; intros V B; try split; now apply call_axis_none.
  Qed.

  Theorem axis_never_accepted n out outf axis junk junkf :
    (axis_out_of_bounds (len s + 1) axis -> exists e, convert_to_base t k base n out axis junk = Raise e) /\
    (axis_out_of_bounds (len (shp k) + 1) axis -> exists e, one_hot (DInt t) k n out axis junk = Raise e) /\
    (axis_out_of_bounds (len (shp x) + 1) axis ->
       (exists e, nextn_greater prec emax dx x n outf axis junkf = Raise e) /\
       (exists e, nextn_less prec emax dx x n outf axis junkf = Raise e)).
  Proof.
    unfold nextn_greater, nextn_less. rewrite convert_unfold, one_hot_unfold, !nextn_unfold.
    split; [|split]; intros B; try split; now apply call_axis_raises.
  Qed.

  Theorem out_shape_errors n o f axis junk junkf s1 s2 :
    (s = s1 ++ s2 -> axis_pos (len s + 1) axis (length s1) -> shp o <> s1 ++ n :: s2 ->
       convert_to_base t k base (PInt n) (Some o) axis junk = Raise ValueError) /\
    (shp k = s1 ++ s2 -> axis_pos (len (shp k) + 1) axis (length s1) -> shp o <> s1 ++ n :: s2 ->
       one_hot (DInt t) k (PInt n) (Some o) axis junk = Raise ValueError) /\
    (shp x = s1 ++ s2 -> axis_pos (len (shp x) + 1) axis (length s1) -> shp f <> s1 ++ n :: s2 ->
       nextn_greater prec emax dx x (PInt n) (Some f) axis junkf = Raise ValueError /\
       nextn_less prec emax dx x (PInt n) (Some f) axis junkf = Raise ValueError).
  Proof.
    unfold nextn_greater, nextn_less. rewrite convert_unfold, one_hot_unfold, !nextn_unfold.
    split; [|split]; intros; try split; eapply call_out_shape; eauto.
  Qed.

  Theorem negative_n_errors n axis junk junkf out outf : n < 0 ->
    (forall o, out = Some o -> valid_shape (shp o)) -> (forall o, outf = Some o -> valid_shape (shp o)) ->
    (~ axis_out_of_bounds (len s + 1) axis -> convert_to_base t k base (PInt n) out axis junk = Raise ValueError) /\
    (~ axis_out_of_bounds (len (shp k) + 1) axis -> one_hot (DInt t) k (PInt n) out axis junk = Raise ValueError) /\
    (~ axis_out_of_bounds (len (shp x) + 1) axis ->
       nextn_greater prec emax dx x (PInt n) outf axis junkf = Raise ValueError /\
       nextn_less prec emax dx x (PInt n) outf axis junkf = Raise ValueError).
  Proof.
    intros Hn V1 V2. unfold nextn_greater, nextn_less. rewrite convert_unfold, one_hot_unfold, !nextn_unfold.
    split; [|split]; intros B; try split; apply call_negative; auto.
  Qed.
End Errors.

(** argument types, and shapes that do not broadcast *)
Theorem argument_errors {prec emax : Z} {Hp : FLX.Prec_gt_0 prec} {He : Prec_lt_emax prec emax}
        t k base (x : ndarray (binary_float prec emax)) n out outf axis junk junkf dk dx :
  (~ (exists t, dk = DInt t) -> one_hot dk k n out axis junk = Raise ValueError /\
     (forall m, bincount dk k m out axis = Raise ValueError)) /\
  (~ floating_dtype dx -> nextn_greater prec emax dx x n outf axis junkf = Raise ValueError /\
                             nextn_less prec emax dx x n outf axis junkf = Raise ValueError) /\
  one_hot dk k PBad out axis junk = Raise ValueError /\
  convert_to_base t k base PBad out axis junk = Raise ValueError /\
  bincount dk k (Some PBad) out axis = Raise ValueError /\
  nextn_greater prec emax dx x PBad outf axis junkf = Raise ValueError /\
  nextn_less prec emax dx x PBad outf axis junkf = Raise ValueError /\
  ((forall c, ~ broadcast (shp k) (shp base) c) -> convert_to_base t k base n out axis junk = Raise ValueError).
Proof.
  repeat split; intros.
  - unfold one_hot. now rewrite (not_integer _ H).
  - apply not_integer in H. destruct dk; try reflexivity. discriminate.
  - unfold nextn_greater, nextn_wrapper. now rewrite (fdg_not_floating _ H).
  - unfold nextn_less, nextn_wrapper. now rewrite (fdg_not_floating _ H).
  - unfold one_hot. destruct (is_integer_dtype dk); reflexivity.
  - destruct dk; reflexivity.
  - unfold nextn_greater, nextn_wrapper. destruct (is_fdg_dtype dx); reflexivity.
  - unfold nextn_less, nextn_wrapper. destruct (is_fdg_dtype dx); reflexivity.
  - unfold convert_to_base. destruct n; [|reflexivity]. cbn [index_or_error operator_index rbind].
    now rewrite np_broadcast_bad.
Qed.

(** bincount *)
Theorem bincount_errors t x axis out m :
  (m < 0 -> bincount (DInt t) x (Some (PInt m)) out axis = Raise ValueError) /\
  (0 <= m -> axis_out_of_bounds (len (shp x)) axis ->
     bincount (DInt t) x (Some (PInt m)) out axis = Raise AxisError) /\
  (forall s1 n s2 o, 0 <= m -> shp x = s1 ++ n :: s2 -> axis_pos (len (shp x)) axis (length s1) ->
     shp o <> s1 ++ m :: s2 -> bincount (DInt t) x (Some (PInt m)) (Some o) axis = Raise ValueError) /\
  (In 0 (shp x) -> bincount (DInt t) x None out axis = Raise ValueError).
Proof.
  split; [|split; [|split]].
  - intros H. cbn. destruct (Z.ltb_spec m 0); [reflexivity|lia].
  - intros H B. unfold bincount. rewrite bincount_m_given by exact H. cbn [rbind]. unfold ndim.
    rewrite normalize_axis_bad by exact B. reflexivity.
  - intros s1 n s2 o H Hs Ha Ho. unfold bincount. rewrite bincount_m_given by exact H. cbn [rbind]. unfold ndim.
    unfold len in Ha. rewrite (normalize_axis_ok _ _ _ Ha). cbn [rbind]. rewrite Hs.
    rewrite upto_app, from_app_cons by reflexivity. cbn [app]. now rewrite get_out_bad.
  - intros H. unfold bincount, bincount_m, elements.
    replace (indices (shp x)) with (@nil (list Z)); [reflexivity|]. symmetry.
    clear -H. induction (shp x) as [|n s IH]; [contradiction|]. cbn [indices].
    destruct H as [->|H]; [reflexivity|]. rewrite (IH H). cbn [map].
    induction (range n); [reflexivity|exact IHl].
Qed.

Theorem bincount_weights_errors {W} (add : W -> W -> W) zero t x (w : ndarray W) axis out m :
  (m < 0 -> bincount_weights add zero (DInt t) x (Some (PInt m)) w out axis = Raise ValueError) /\
  (0 <= m -> axis_out_of_bounds (len (shp x)) axis \/ axis_out_of_bounds (len (shp w)) axis ->
     bincount_weights add zero (DInt t) x (Some (PInt m)) w out axis = Raise AxisError) /\
  (forall x1 n x2 w1 n' w2, 0 <= m -> shp x = x1 ++ n :: x2 -> shp w = w1 ++ n' :: w2 ->
     axis_pos (len (shp x)) axis (length x1) -> axis_pos (len (shp w)) axis (length w1) ->
     ((forall c, ~ broadcast (x1 ++ x2) (w1 ++ w2) c) ->
        bincount_weights add zero (DInt t) x (Some (PInt m)) w out axis = Raise ValueError) /\
     (forall s1 s2 o, broadcast (x1 ++ x2) (w1 ++ w2) (s1 ++ s2) -> axis_pos (len (s1 ++ s2) + 1) axis (length s1) ->
        shp o <> s1 ++ m :: s2 ->
        bincount_weights add zero (DInt t) x (Some (PInt m)) w (Some o) axis = Raise ValueError) /\
     (forall s1 s2, n <> n' -> broadcast (x1 ++ x2) (w1 ++ w2) (s1 ++ s2) -> axis_pos (len (s1 ++ s2) + 1) axis (length s1) ->
        valid_shape (s1 ++ s2) -> out_ok out (s1 ++ m :: s2) ->
        bincount_weights add zero (DInt t) x (Some (PInt m)) w out axis = Raise ValueError)).
Proof.
  split; [|split].
  - intros H. cbn. destruct (Z.ltb_spec m 0); [reflexivity|lia].
  - intros H B. unfold bincount_weights. rewrite bincount_m_given by exact H. cbn [rbind].
    unfold shape_remove_axis.
    destruct (axis_pos_total (len (shp x)) axis) as [Bx|[p Hx]]; [unfold len; lia|now rewrite normalize_axis_bad|].
    rewrite (normalize_axis_ok _ _ _ Hx). cbn [rbind].
    destruct B as [B|B]; [exfalso; unfold axis_pos, axis_out_of_bounds in *; lia|]. now rewrite normalize_axis_bad.
  - intros x1 n x2 w1 n' w2 H Hsx Hsw Hax Haw. unfold bincount_weights. rewrite bincount_m_given by exact H. cbn [rbind].
    unfold shape_remove_axis. rewrite (normalize_axis_ok _ _ _ Hax), (normalize_axis_ok _ _ _ Haw). cbn [rbind].
    rewrite Hsx, Hsw in *. rewrite !upto_app, !from_app_cons by reflexivity.
    split; [|split].
    + intros B. rewrite np_broadcast_bad by exact B. reflexivity.
    + intros s1 s2 o Hb Ha Ho. rewrite (np_broadcast_ok _ _ _ Hb). cbn [rbind]. unfold shape_insert_axis.
      rewrite (normalize_axis_ok _ _ _ Ha). cbn [rbind]. rewrite upto_app, from_app by reflexivity. cbn [app].
      now rewrite get_out_bad.
    + intros s1 s2 Hnn Hb Ha Hv Ho. rewrite (np_broadcast_ok _ _ _ Hb). cbn [rbind]. unfold shape_insert_axis.
      rewrite (normalize_axis_ok _ _ _ Ha). cbn [rbind]. rewrite upto_app, from_app by reflexivity. cbn [app].
      destruct (get_out_ok out (s1 ++ m :: s2) (fun _ => zero) (valid_insert _ _ _ Hv H) Ho) as (o & E & So & _).
      rewrite E. cbn [rbind]. unfold ndim at 1 2. rewrite Hsx, Hsw.
      unfold len in Hax, Haw. rewrite (np_axis_ok _ _ _ Hax), (np_axis_ok _ _ _ Haw). cbn [rbind].
      rewrite !at_axis_app by reflexivity. destruct (Z.eqb_spec n n'); [contradiction|reflexivity].
Qed.

(** off by one: with an [out] of another shape, the axis [ndim + 1] is not reported as an axis error *)
Theorem axis_error_refuted :
  exists (k o : ndarray Z) n axis, 0 <= n /\ valid_shape (shp k) /\ valid_shape (shp o) /\
    axis_out_of_bounds (len (shp k) + 1) axis /\
    one_hot (DInt int64) k (PInt n) (Some o) axis (fun _ => 0) = Raise ValueError.
Proof.
  exists (mkA [2] (fun _ => 0)), (mkA [2; 4] (fun _ => 0)), 3, 2.
  split; [lia|]. split; [repeat constructor; lia|]. split; [repeat constructor; lia|].
  split; [right; cbn; lia|]. reflexivity.
Qed.

(** nextn, for the two cores *)
Section NextnCores.
  Context {prec emax : Z} {Hp : FLX.Prec_gt_0 prec} {He : Prec_lt_emax prec emax}.
  Lemma k_nextn_greater_ok v old :
    exists ys, k_nextn_greater prec emax v old = Some ys /\ length ys = length old /\ run_up v ys.
  Proof.
    destruct (@nextn_greater_ok prec emax Hp He v (length old) (mem_of 0 8 old) 0 8 (writable_mem_of 0 8 old ltac:(lia)))
      as (ys & (mo' & E & V & _) & L & R).
    exists ys. split; [|auto]. unfold k_nextn_greater. eapply run_core_view; eauto.
  Qed.
  Lemma k_nextn_less_ok v old :
    exists ys, k_nextn_less prec emax v old = Some ys /\ length ys = length old /\ run_down v ys.
  Proof.
    destruct (@nextn_less_ok prec emax Hp He v (length old) (mem_of 0 8 old) 0 8 (writable_mem_of 0 8 old ltac:(lia)))
      as (ys & (mo' & E & V & _) & L & R).
    exists ys. split; [|auto]. unfold k_nextn_less. eapply run_core_view; eauto.
  Qed.

  Theorem nextn_greater_wrapper_ok dx (x : ndarray (binary_float prec emax)) n out axis junk s1 s2 :
    floating_dtype dx ->
    shp x = s1 ++ s2 -> valid_shape (shp x) -> 0 <= n -> axis_pos (Z.of_nat (length (shp x)) + 1) axis (length s1) ->
    out_ok out (s1 ++ n :: s2) ->
    exists r, nextn_greater prec emax dx x (PInt n) out axis junk = Ok r /\ shp r = s1 ++ n :: s2 /\
      forall i1 i2, in_shape i1 s1 -> in_shape i2 s2 ->
        exists ys, run_up (elt x (i1 ++ i2)) ys /\ Z.of_nat (length ys) = n /\
          forall j, 0 <= j < n -> elt r (i1 ++ j :: i2) = nth_error ys (Z.to_nat j).
  Proof. apply nextn_wrapper_ok. apply k_nextn_greater_ok. Qed.
  Theorem nextn_less_wrapper_ok dx (x : ndarray (binary_float prec emax)) n out axis junk s1 s2 :
    floating_dtype dx ->
    shp x = s1 ++ s2 -> valid_shape (shp x) -> 0 <= n -> axis_pos (Z.of_nat (length (shp x)) + 1) axis (length s1) ->
    out_ok out (s1 ++ n :: s2) ->
    exists r, nextn_less prec emax dx x (PInt n) out axis junk = Ok r /\ shp r = s1 ++ n :: s2 /\
      forall i1 i2, in_shape i1 s1 -> in_shape i2 s2 ->
        exists ys, run_down (elt x (i1 ++ i2)) ys /\ Z.of_nat (length ys) = n /\
          forall j, 0 <= j < n -> elt r (i1 ++ j :: i2) = nth_error ys (Z.to_nat j).
  Proof. apply nextn_wrapper_ok. apply k_nextn_less_ok. Qed.
End NextnCores.

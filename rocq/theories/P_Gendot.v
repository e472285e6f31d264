(** * P_Gendot: proofs about gendot (C48) *)
From Coq Require Import ZArith Bool Ascii String List Lia.
From Verif Require Import CSem CSemP M_Stat M_Gen S_Gen P_Gen M_Types S_Types M_Gendot S_Gendot.
Import ListNotations.
Open Scope Z_scope.
Open Scope list_scope.

(** ** loops by invariant *)
Lemma iter_inv {S} (P : Z -> S -> Prop) (body : Z -> S -> M S) : forall n k s,
  P k s ->
  (forall i s, k <= i < k + Z.of_nat n -> P i s -> exists s', body i s = Some s' /\ P (i + 1) s') ->
  exists s', iter_from n k body s = Some s' /\ P (k + Z.of_nat n) s'.
Proof.
  induction n as [|n IH]; intros k s H0 Hs; cbn [iter_from].
  - exists s. split; [reflexivity|]. now replace (k + Z.of_nat 0) with k by lia.
  - destruct (Hs k s ltac:(lia) H0) as (s1 & E & H1). rewrite E. cbn [bind].
    destruct (IH (k + 1) s1 H1) as (s' & E' & H').
    + intros i t Hi Ht. apply Hs; [lia|exact Ht].
    + exists s'. split; [exact E'|]. now replace (k + Z.of_nat (Datatypes.S n)) with (k + 1 + Z.of_nat n) by lia.
Qed.
Lemma for_each_inv {S} (P : Z -> S -> Prop) lo hi (body : Z -> S -> M S) s : lo <= hi ->
  P lo s -> (forall i s, lo <= i < hi -> P i s -> exists s', body i s = Some s' /\ P (i + 1) s') ->
  exists s', for_each lo hi body s = Some s' /\ P hi s'.
Proof.
  intros L H0 Hs. unfold for_each. destruct (iter_inv P body (Z.to_nat (hi - lo)) lo s H0) as (s' & E & H').
  - intros i t Hi. apply Hs. lia.
  - exists s'. split; [exact E|]. now replace hi with (lo + Z.of_nat (Z.to_nat (hi - lo))) by lia.
Qed.

Section Mem.
  Context {B : Type}.
  Implicit Types (m : mem B) (v : list B).

  Lemma stored_cons m a b v : stored m a (b :: v) -> m a = Some b /\ stored m (a + 1) v.
  Proof.
    intros H. split.
    - specialize (H 0%nat ltac:(cbn; lia)). now rewrite Z.add_0_r in H.
    - intros i Hi. specialize (H (S i) ltac:(cbn; lia)). cbn [nth_error] in H. rewrite <- H. f_equal. lia.
  Qed.
  Lemma read_stored m a v : stored m a v -> read_bytes m a (length v) = Some v.
  Proof.
    revert a. induction v as [|b v IH]; intros a H; [reflexivity|]. cbn [length read_bytes].
    apply stored_cons in H. destruct H as [H1 H2]. unfold load. rewrite H1. cbn [bind]. rewrite (IH _ H2). reflexivity.
  Qed.
  Lemma stored_ext m m' a v : (forall b, within a (length v) b -> m' b = m b) -> stored m a v -> stored m' a v.
  Proof. intros E H i Hi. rewrite E; [now apply H|]. unfold within. lia. Qed.
  Lemma stored_alloc m a v : stored m a v -> allocated m a (length v).
  Proof.
    intros H b Hb. unfold within in Hb. specialize (H (Z.to_nat (b - a)) ltac:(lia)).
    replace (a + Z.of_nat (Z.to_nat (b - a))) with b in H by lia. rewrite H. apply nth_error_Some. lia.
  Qed.
  Lemma write_ok m a v : allocated m a (length v) ->
    exists m', write_bytes m a v = Some m' /\ stored m' a v /\ (forall b, ~ within a (length v) b -> m' b = m b).
  Proof.
    revert m a. induction v as [|x v IH]; intros m a H; cbn [write_bytes].
    - exists m. split; [reflexivity|]. split; [intros i Hi; cbn in Hi; lia|reflexivity].
    - unfold store. assert (Ha : m a <> None) by (apply H; unfold within; cbn; lia).
      destruct (m a) as [old|] eqn:E; [|contradiction]. cbn [bind].
      destruct (IH (fun b => if b =? a then Some x else m b) (a + 1)) as (m' & W & St & Fr).
      { intros b Hb. destruct (b =? a); [discriminate|]. apply H. unfold within in *. cbn [length]. lia. }
      exists m'. split; [exact W|]. split.
      + intros [|i] Hi.
        * rewrite Z.add_0_r. rewrite Fr by (unfold within; lia). now rewrite Z.eqb_refl.
        * cbn [nth_error]. cbn in Hi. rewrite <- (St i) by lia. f_equal. lia.
      + intros b Hb. rewrite Fr by (unfold within in *; cbn [length] in *; lia).
        destruct (Z.eqb_spec b a); [|reflexivity]. exfalso. apply Hb. unfold within. cbn [length]. lia.
  Qed.
  Lemma write_dom m a v m' : write_bytes m a v = Some m' ->
    allocated m a (length v) /\ forall b, m' b = None <-> m b = None.
  Proof.
    revert m a m'. induction v as [|x v IH]; intros m a m' H; cbn [write_bytes] in H.
    - injection H as <-. split; [intros b Hb; unfold within in Hb; cbn in Hb; lia|tauto].
    - unfold store in H. destruct (m a) as [old|] eqn:E; [|discriminate]. cbn [bind] in H.
      apply IH in H. destruct H as [H1 H2]. split.
      + intros b Hb. destruct (Z.eq_dec b a) as [->|N]; [congruence|].
        specialize (H1 b ltac:(unfold within in *; cbn [length] in *; lia)). cbv beta in H1.
        destruct (Z.eqb_spec b a); [contradiction|exact H1].
      + intros b. rewrite H2. destruct (Z.eqb_spec b a) as [->|]; [|tauto]. split; congruence.
  Qed.

  (** a row of items side by side *)
  Lemma slot_disjoint t k i i' b : (i < i' \/ i' < i) -> within (t + i * Z.of_nat k) k b -> ~ within (t + i' * Z.of_nat k) k b.
  Proof. unfold within. intros [H|H] Hb; nia. Qed.
  Lemma slot_in t k n i b : 0 <= i < n -> within (t + i * Z.of_nat k) k b -> t <= b < t + n * Z.of_nat k.
  Proof. unfold within. intros H Hb. nia. Qed.

  (** the product loop fills the buffer *)
  Lemma fill_tmp (L : loop2 B) m0 ax ay tmp n s3 s4 k (X Y : Z -> list B) :
    0 <= n -> out2 L = k ->
    (forall i, 0 <= i < n -> length (X i) = in1 L /\ stored m0 (ax + i * s3) (X i) /\
       forall b, within (ax + i * s3) (in1 L) b -> ~ (tmp <= b < tmp + n * Z.of_nat k)) ->
    (forall i, 0 <= i < n -> length (Y i) = in2 L /\ stored m0 (ay + i * s4) (Y i) /\
       forall b, within (ay + i * s4) (in2 L) b -> ~ (tmp <= b < tmp + n * Z.of_nat k)) ->
    (forall b, tmp <= b < tmp + n * Z.of_nat k -> m0 b <> None) ->
    (forall x y, length x = in1 L -> length y = in2 L -> length (fun2 L x y) = out2 L) ->
    exists m', call_loop2 L ax ay tmp n s3 s4 (Z.of_nat k) m0 = Some m' /\
      (forall i, 0 <= i < n -> stored m' (tmp + i * Z.of_nat k) (fun2 L (X i) (Y i))) /\
      (forall b, tmp <= b < tmp + n * Z.of_nat k -> m' b <> None) /\
      (forall b, ~ (tmp <= b < tmp + n * Z.of_nat k) -> m' b = m0 b).
  Proof.
    intros Hn Hk HX HY Ha HL. unfold call_loop2.
    apply (for_each_inv (fun q m => (forall i, 0 <= i < q -> stored m (tmp + i * Z.of_nat k) (fun2 L (X i) (Y i))) /\
      (forall b, tmp <= b < tmp + n * Z.of_nat k -> m b <> None) /\
      (forall b, ~ (tmp <= b < tmp + n * Z.of_nat k) -> m b = m0 b))); [exact Hn| |].
    - split; [intros i Hi; lia|]. split; [exact Ha|reflexivity].
    - intros i m Hi (I1 & I2 & I3).
      destruct (HX i Hi) as (LX & SX & DX), (HY i Hi) as (LY & SY & DY).
      rewrite <- LX. rewrite read_stored.
      2:{ eapply stored_ext; [|exact SX]. intros b Hb. apply I3. apply DX. now rewrite <- LX. }
      cbn [bind]. rewrite <- LY. rewrite read_stored.
      2:{ eapply stored_ext; [|exact SY]. intros b Hb. apply I3. apply DY. now rewrite <- LY. }
      cbn [bind]. set (v := fun2 L (X i) (Y i)).
      assert (Lv : length v = k) by (unfold v; rewrite HL; assumption).
      destruct (write_ok m (tmp + i * Z.of_nat k) v) as (m' & W & St & Fr).
      { intros b Hb. apply I2. rewrite Lv in Hb. eapply slot_in; [|exact Hb]. lia. }
      exists m'. split; [exact W|]. rewrite Lv in Fr. split; [|split].
      + intros i' Hi'. destruct (Z.eq_dec i' i) as [->|N]; [exact St|].
        eapply stored_ext; [|apply I1; lia]. intros b Hb. apply Fr. apply slot_disjoint with (i := i'); [lia|].
        rewrite HL in Hb by (apply HX || apply HY; lia). now rewrite Hk in Hb.
      + intros b Hb. destruct (Z_le_dec (tmp + i * Z.of_nat k) b); [destruct (Z_lt_dec b (tmp + i * Z.of_nat k + Z.of_nat k))|].
        * apply (stored_alloc _ _ _ St). unfold within. lia.
        * rewrite Fr by (unfold within; lia). now apply I2.
        * rewrite Fr by (unfold within; lia). now apply I2.
      + intros b Hb. rewrite Fr; [now apply I3|]. intros W'. apply Hb. eapply slot_in; [|exact W']. lia.
  Qed.

  (** folding a growing prefix *)
  Lemma fold_snoc {A C} (f : C -> A -> C) l x c : fold_left f (l ++ [x]) c = f (fold_left f l c) x.
  Proof. now rewrite fold_left_app. Qed.

  Lemma upto_snoc n : 0 <= n -> upto (n + 1) = upto n ++ [n].
  Proof.
    intros H. unfold upto. replace (Z.to_nat (n + 1)) with (S (Z.to_nat n)) by lia.
    rewrite seq_S, map_app. cbn. repeat f_equal. lia.
  Qed.
  Lemma upto_one : upto 1 = [0]. Proof. reflexivity. Qed.

  Definition pre (f : list B -> list B -> list B) (P : Z -> list B) (n : Z) : list B := reduction f (map P (upto n)).
  Lemma pre_one f P : pre f P 1 = P 0. Proof. reflexivity. Qed.
  Lemma pre_snoc f P n : 1 <= n -> pre f P (n + 1) = f (pre f P n) (P n).
  Proof.
    intros H. unfold pre. rewrite upto_snoc by lia. rewrite map_app. cbn [map].
    destruct (map P (upto n)) as [|v l] eqn:E.
    - exfalso. apply (f_equal (@length _)) in E. unfold upto in E. rewrite !map_length, seq_length in E. cbn in E. lia.
    - cbn [app reduction]. apply fold_snoc.
  Qed.

  Lemma reduce_ok (L : loop2 B) m0 tmp n k res (P : Z -> list B) :
    1 <= n <= INT_MAX -> in1 L = k -> in2 L = k -> out2 L = k ->
    (forall i, 0 <= i < n -> length (P i) = k /\ stored m0 (tmp + i * Z.of_nat k) (P i)) ->
    allocated m0 res k ->
    (forall b, within res k b -> ~ (tmp <= b < tmp + n * Z.of_nat k)) ->
    (forall x y, length x = k -> length y = k -> length (fun2 L x y) = k) ->
    exists m', reduce L tmp n (Z.of_nat k) k res m0 = Some m' /\
      length (pre (fun2 L) P n) = k /\ stored m' res (pre (fun2 L) P n) /\
      (forall b, ~ within res k b -> m' b = m0 b).
  Proof.
    intros Hn K1 K2 K3 HP Ha Hd HL. unfold reduce.
    destruct (Z.leb_spec n 0); [lia|].
    destruct (HP 0 ltac:(lia)) as [L0 S0]. rewrite Z.mul_0_l, Z.add_0_r in S0.
    assert (E0 : exists m1, memcpy m0 res tmp k = Some m1 /\ stored m1 res (P 0) /\ (forall b, ~ within res k b -> m1 b = m0 b)).
    { unfold memcpy. destruct (Nat.eq_dec k 0) as [Z0|NZ].
      - subst k. rewrite Z0 in *. destruct (P 0); [|discriminate]. destruct ((_ <? _) && (_ <? _)) eqn:X.
        + exfalso. apply andb_prop in X. rewrite !Z.ltb_lt in X. lia.
        + exists m0. split; [reflexivity|]. split; [intros i Hi; cbn in Hi; lia|reflexivity].
      - assert (X : (res <? tmp + Z.of_nat k) && (tmp <? res + Z.of_nat k) = false).
        { apply andb_false_iff. rewrite !Z.ltb_ge.
          destruct (Z_lt_dec res (tmp + Z.of_nat k)) as [A|A]; [|left; lia].
          destruct (Z_lt_dec tmp (res + Z.of_nat k)) as [C|C]; [|right; lia]. exfalso.
          apply (Hd (Z.max res tmp)); [unfold within; lia|]. nia. }
        rewrite X. replace (read_bytes m0 tmp k) with (Some (P 0)) by (symmetry; rewrite <- L0; now apply read_stored). cbn [bind].
        destruct (write_ok m0 res (P 0)) as (m1 & W & St & Fr); [now rewrite L0|]. rewrite L0 in Fr. exists m1. auto. }
    destruct E0 as (m1 & E1 & St1 & Fr1). rewrite E1. cbn [bind].
    destruct (Z.eqb_spec n 1) as [->|N1].
    { exists m1. split; [reflexivity|]. rewrite pre_one. auto. }
    destruct (Z.leb_spec n INT_MAX); [|lia].
    destruct (for_each_inv (fun q m => length (pre (fun2 L) P q) = k /\ stored m res (pre (fun2 L) P q) /\
        (forall b, ~ within res k b -> m b = m0 b)) 1 n
      (fun q m => call_loop2 L res (tmp + q * Z.of_nat k) res 1 (Z.of_nat k) (Z.of_nat k) (Z.of_nat k) m) m1) as (m' & E & I);
      [lia|rewrite pre_one; auto| |exists m'; tauto].
    intros q m Hq (I1 & I2 & I3). unfold call_loop2, for_each. change (Z.to_nat (1 - 0)) with 1%nat.
    cbn [iter_from]. rewrite !Z.mul_0_l, !Z.add_0_r.
    destruct (HP q ltac:(lia)) as [Lq Sq].
    replace (in1 L) with (length (pre (fun2 L) P q)) by lia. rewrite read_stored by exact I2. cbn [bind].
    replace (in2 L) with (length (P q)) by lia. rewrite read_stored.
    2:{ eapply stored_ext; [|exact Sq]. intros b Hb. apply I3. intros Hb'. apply (Hd b Hb'). rewrite Lq in Hb.
        eapply slot_in; [|exact Hb]. lia. }
    cbn [bind]. rewrite pre_snoc by lia. set (v := fun2 L (pre (fun2 L) P q) (P q)).
    assert (Lv : length v = k) by (unfold v; apply HL; assumption).
    destruct (write_ok m res v) as (m' & W & St & Fr).
    { rewrite Lv, <- I1. apply stored_alloc. exact I2. }
    rewrite W. cbn [bind]. exists m'. split; [reflexivity|]. split; [exact Lv|]. split; [exact St|].
    intros b Hb. rewrite Fr by (now rewrite Lv). now apply I3.
  Qed.

  Lemma read_items_ok m a s k n (P : Z -> list B) : 0 <= n ->
    (forall i, 0 <= i < n -> length (P i) = k /\ stored m (a + i * s) (P i)) ->
    read_items m a s k n = Some (map P (upto n)).
  Proof.
    intros Hn HP. unfold read_items.
    destruct (for_each_inv (fun q l => l = map P (upto q)) 0 n
      (fun i l => bind (read_bytes m (a + i * s) k) (fun x => ret (l ++ [x]))) []) as (l & E & ->); [exact Hn|reflexivity| |exact E].
    intros i l Hi ->. destruct (HP i Hi) as [Lk Sk]. rewrite <- Lk, read_stored by exact Sk. cbn [bind].
    eexists. split; [reflexivity|]. rewrite upto_snoc by lia. now rewrite map_app.
  Qed.

  Lemma gufunc_ok (L : loop1 B) m0 tmp n k res (P : Z -> list B) :
    0 <= n -> in_1 L = k ->
    (forall i, 0 <= i < n -> length (P i) = k /\ stored m0 (tmp + i * Z.of_nat k) (P i)) ->
    allocated m0 res (out1 L) ->
    (forall xs, Forall (fun x => length x = k) xs -> length (fun1 L xs) = out1 L) ->
    exists m', call_loop1 L tmp res 1 n 0 0 (Z.of_nat k) m0 = Some m' /\
      length (fun1 L (map P (upto n))) = out1 L /\ stored m' res (fun1 L (map P (upto n))) /\
      (forall b, ~ within res (out1 L) b -> m' b = m0 b).
  Proof.
    intros Hn K HP Ha HL. unfold call_loop1, for_each. change (Z.to_nat (1 - 0)) with 1%nat. cbn [iter_from].
    rewrite !Z.mul_0_l, !Z.add_0_r. rewrite (read_items_ok _ _ _ _ _ P Hn) by (rewrite K; exact HP). cbn [bind].
    assert (Lv : length (fun1 L (map P (upto n))) = out1 L).
    { apply HL. apply Forall_forall. intros x Hx. apply in_map_iff in Hx. destruct Hx as (i & <- & Hi).
      apply HP. unfold upto in Hi. apply in_map_iff in Hi. destruct Hi as (j & <- & Hj). apply in_seq in Hj. lia. }
    destruct (write_ok m0 res (fun1 L (map P (upto n)))) as (m' & W & St & Fr); [now rewrite Lv|].
    rewrite W. cbn [bind]. exists m'. rewrite Lv in Fr. auto.
  Qed.

  (** ** the whole loop *)
  Lemma malloc_in m tp size junk b : tp <= b < tp + size -> malloc m tp size junk b = Some (junk b).
  Proof. intros H. unfold malloc. destruct (Z.leb_spec tp b), (Z.ltb_spec b (tp + size)); try lia. reflexivity. Qed.
  Lemma malloc_out m tp size junk b : ~ (tp <= b < tp + size) -> malloc m tp size junk b = m b.
  Proof. intros H. unfold malloc. destruct (Z.leb_spec tp b), (Z.ltb_spec b (tp + size)); try lia; reflexivity. Qed.
  Lemma free_in m tp size b : tp <= b < tp + size -> free m tp size b = None.
  Proof. intros H. unfold free. destruct (Z.leb_spec tp b), (Z.ltb_spec b (tp + size)); try lia. reflexivity. Qed.
  Lemma free_out m tp size b : ~ (tp <= b < tp + size) -> free m tp size b = m b.
  Proof. intros H. unfold free. destruct (Z.leb_spec tp b), (Z.ltb_spec b (tp + size)); try lia; reflexivity. Qed.

  (** both branches: [step] computes the slot from the buffer *)
  Lemma rows_ok (Lp : loop2 B) (step : Z -> mem B -> M (mem B)) (res : Z -> list B)
        m0 (x y : operand) pout s2 nloops n tmp junk k ksize :
    0 <= nloops <= INT_MAX -> 1 <= n ->
    out2 Lp = k -> o_size x = in1 Lp -> o_size y = in2 Lp ->
    (forall u v, length u = in1 Lp -> length v = in2 Lp -> length (fun2 Lp u v) = out2 Lp) ->
    holds m0 x nloops n -> holds m0 y nloops n ->
    slots m0 pout s2 ksize nloops -> apart x pout s2 ksize nloops n -> apart y pout s2 ksize nloops n ->
    (forall b, tmp <= b < tmp + n * Z.of_nat k -> m0 b = None) ->
    (forall j m, 0 <= j < nloops ->
       (forall i, 0 <= i < n -> length (fun2 Lp (o_val x j i) (o_val y j i)) = k /\
          stored m (tmp + i * Z.of_nat k) (fun2 Lp (o_val x j i) (o_val y j i))) ->
       allocated m (pout + j * s2) ksize ->
       (forall b, within (pout + j * s2) ksize b -> ~ (tmp <= b < tmp + n * Z.of_nat k)) ->
       exists m', step j m = Some m' /\ length (res j) = ksize /\ stored m' (pout + j * s2) (res j) /\
         (forall b, ~ within (pout + j * s2) ksize b -> m' b = m b)) ->
    exists m', int_for_each nloops (fun j m =>
        bind (call_loop2 Lp (o_p x + j * o_row x) (o_p y + j * o_row y) tmp n (o_item x) (o_item y) (Z.of_nat k) m)
             (step j)) (malloc m0 tmp (n * Z.of_nat k) junk) = Some m' /\
      delivered m0 (free m' tmp (n * Z.of_nat k)) pout s2 ksize nloops res.
  Proof.
    intros HN Hn Hk Hx1 Hy1 HL Hx Hy [Hs1 Hs2] Ax Ay Hf Hstep.
    assert (Sout : forall j b, 0 <= j < nloops -> within (pout + j * s2) ksize b -> ~ (tmp <= b < tmp + n * Z.of_nat k)).
    { intros j b Hj Hb Ht. apply (Hs1 j Hj b Hb). now apply Hf. }
    unfold int_for_each. destruct (Z.leb_spec nloops INT_MAX); [|lia].
    destruct (for_each_inv (fun q m =>
       (forall j, 0 <= j < q -> length (res j) = ksize /\ stored m (pout + j * s2) (res j)) /\
       (forall b, tmp <= b < tmp + n * Z.of_nat k -> m b <> None) /\
       (forall b, (forall j, 0 <= j < q -> ~ within (pout + j * s2) ksize b) ->
          ~ (tmp <= b < tmp + n * Z.of_nat k) -> m b = m0 b)) 0 nloops
      (fun j m => bind (call_loop2 Lp (o_p x + j * o_row x) (o_p y + j * o_row y) tmp n (o_item x) (o_item y) (Z.of_nat k) m)
             (step j)) (malloc m0 tmp (n * Z.of_nat k) junk)) as (m' & E & I1 & I2 & I3); [lia| | |].
    - split; [intros j Hj; lia|]. split.
      + intros b Hb. rewrite malloc_in by exact Hb. discriminate.
      + intros b _ Hb. now apply malloc_out.
    - intros j m Hj (I1 & I2 & I3).
      assert (Keep : forall (o : operand) i, holds m0 o nloops n -> apart o pout s2 ksize nloops n -> 0 <= i < n ->
        length (o_val o j i) = o_size o /\ stored m (o_p o + j * o_row o + i * o_item o) (o_val o j i) /\
        (forall b, within (o_p o + j * o_row o + i * o_item o) (o_size o) b -> ~ (tmp <= b < tmp + n * Z.of_nat k))).
      { intros o i Ho Ao Hi. destruct (Ho j i Hj Hi) as [Lo So].
        assert (D : forall b, within (o_p o + j * o_row o + i * o_item o) (o_size o) b -> ~ (tmp <= b < tmp + n * Z.of_nat k)).
        { intros b Hb Ht. rewrite <- Lo in Hb. apply (stored_alloc _ _ _ So b Hb). now apply Hf. }
        split; [exact Lo|]. split; [|exact D].
        eapply stored_ext; [|exact So]. intros b Hb. rewrite Lo in Hb. apply I3; [|now apply D].
        intros j' Hj'. apply (Ao j i j' b Hj Hi); [lia|exact Hb]. }
      destruct (fill_tmp Lp m (o_p x + j * o_row x) (o_p y + j * o_row y) tmp n (o_item x) (o_item y) k
                  (o_val x j) (o_val y j)) as (m1 & E1 & F1 & F2 & F3); [lia|exact Hk| | |exact I2|exact HL|].
      { intros i Hi. rewrite <- Hx1. now apply Keep. }
      { intros i Hi. rewrite <- Hy1. now apply Keep. }
      rewrite E1. cbn [bind].
      assert (Dj : forall b, within (pout + j * s2) ksize b -> ~ (tmp <= b < tmp + n * Z.of_nat k)) by (intros b; now apply Sout).
      destruct (Hstep j m1 Hj) as (m2 & E2 & R1 & R2 & R3).
      + intros i Hi. split; [|now apply F1]. rewrite HL; [exact Hk| |].
        * rewrite <- Hx1. now apply (Keep x).
        * rewrite <- Hy1. now apply (Keep y).
      + intros b Hb. rewrite F3 by (now apply Dj). rewrite I3; [|intros j' Hj'; apply (Hs2 j j'); [lia|lia|lia|exact Hb]|now apply Dj].
        now apply (Hs1 j Hj).
      + exact Dj.
      + exists m2. split; [exact E2|]. split; [|split].
        * intros j' Hj'. destruct (Z.eq_dec j' j) as [->|N]; [auto|].
          destruct (I1 j' ltac:(lia)) as [Lr Sr]. split; [exact Lr|]. eapply stored_ext; [|exact Sr].
          intros b Hb. rewrite Lr in Hb. rewrite R3 by (apply (Hs2 j' j); [lia|lia|lia|exact Hb]).
          apply F3. apply (Sout j'); [lia|exact Hb].
        * intros b Hb. rewrite R3 by (intros W; now apply (Dj b W)). now apply F2.
        * intros b Hb Ht. rewrite R3 by (apply Hb; lia). rewrite F3 by exact Ht. apply I3; [|exact Ht].
          intros j' Hj'. apply Hb. lia.
    - exists m'. split; [exact E|]. split.
      + intros j Hj. destruct (I1 j Hj) as [Lr Sr]. split; [exact Lr|]. eapply stored_ext; [|exact Sr].
        intros b Hb. apply free_out. apply (Sout j); [exact Hj|]. now rewrite <- Lr.
      + intros b Hb. destruct (Z_le_dec tmp b); [destruct (Z_lt_dec b (tmp + n * Z.of_nat k))|].
        * rewrite free_in by lia. symmetry. apply Hf. lia.
        * rewrite free_out by lia. apply I3; [exact Hb|lia].
        * rewrite free_out by lia. apply I3; [exact Hb|lia].
  Qed.

  Theorem gendot_reduce_ok (d : gendot_data B) (Ls : loop2 B) m (x y : operand) pout s2 nloops n tmp junk :
    sum_loop d = Reduction Ls ->
    0 <= nloops <= INT_MAX -> 1 <= n <= INT_MAX ->
    (* the item sizes of the two loops agree *)
    out2 (prod_loop d) = itemsize d -> in1 Ls = itemsize d -> in2 Ls = itemsize d -> out2 Ls = itemsize d ->
    (forall u v, length u = in1 (prod_loop d) -> length v = in2 (prod_loop d) ->
       length (fun2 (prod_loop d) u v) = out2 (prod_loop d)) ->
    (forall u v, length u = in1 Ls -> length v = in2 Ls -> length (fun2 Ls u v) = out2 Ls) ->
    (* the operands *)
    o_size x = in1 (prod_loop d) -> o_size y = in2 (prod_loop d) ->
    holds m x nloops n -> holds m y nloops n -> slots m pout s2 (itemsize d) nloops ->
    apart x pout s2 (itemsize d) nloops n -> apart y pout s2 (itemsize d) nloops n ->
    (* malloc returns unused memory *)
    (forall b, tmp <= b < tmp + n * Z.of_nat (itemsize d) -> m b = None) ->
    exists m', gendot_loop d (o_p x) (o_p y) pout nloops n (o_row x) (o_row y) s2 (o_item x) (o_item y) (Some tmp) junk m
               = Some (Done m') /\
      delivered m m' pout s2 (itemsize d) nloops
        (fun j => reduction (fun2 Ls) (products (fun2 (prod_loop d)) x y n j)).
  Proof.
    intros Es HN Hn K0 K1 K2 K3 HLp HLs Hx1 Hy1 Hx Hy Hs Ax Ay Hf.
    unfold gendot_loop. destruct (Z.eqb_spec n 0); [lia|]. rewrite Es.
    destruct (rows_ok (prod_loop d)
      (fun j m => reduce Ls tmp n (Z.of_nat (itemsize d)) (itemsize d) (pout + j * s2) m)
      (fun j => reduction (fun2 Ls) (products (fun2 (prod_loop d)) x y n j))
      m x y pout s2 nloops n tmp junk (itemsize d) (itemsize d)) as (m' & E & D);
      [exact HN|lia|exact K0|exact Hx1|exact Hy1|exact HLp|exact Hx|exact Hy|exact Hs|exact Ax|exact Ay|exact Hf| |].
    - intros j m1 Hj HP Ha Hd.
      destruct (reduce_ok Ls m1 tmp n (itemsize d) (pout + j * s2) (fun i => fun2 (prod_loop d) (o_val x j i) (o_val y j i))
                  Hn K1 K2 K3 HP Ha Hd) as (m' & E & L & S & F).
      { intros u v Hu Hv. rewrite HLs by congruence. exact K3. }
      exists m'. unfold pre in *. auto.
    - rewrite E. cbn [bind]. eexists. split; [reflexivity|exact D].
  Qed.

  Theorem gendot_gufunc_ok (d : gendot_data B) (Ls : loop1 B) m (x y : operand) pout s2 nloops n tmp junk :
    sum_loop d = Gufunc Ls ->
    0 <= nloops <= INT_MAX -> 1 <= n ->
    out2 (prod_loop d) = itemsize d -> in_1 Ls = itemsize d -> out1 Ls = itemsize d ->
    (forall u v, length u = in1 (prod_loop d) -> length v = in2 (prod_loop d) ->
       length (fun2 (prod_loop d) u v) = out2 (prod_loop d)) ->
    (forall us, Forall (fun u => length u = in_1 Ls) us -> length (fun1 Ls us) = out1 Ls) ->
    o_size x = in1 (prod_loop d) -> o_size y = in2 (prod_loop d) ->
    holds m x nloops n -> holds m y nloops n -> slots m pout s2 (itemsize d) nloops ->
    apart x pout s2 (itemsize d) nloops n -> apart y pout s2 (itemsize d) nloops n ->
    (forall b, tmp <= b < tmp + n * Z.of_nat (itemsize d) -> m b = None) ->
    exists m', gendot_loop d (o_p x) (o_p y) pout nloops n (o_row x) (o_row y) s2 (o_item x) (o_item y) (Some tmp) junk m
               = Some (Done m') /\
      delivered m m' pout s2 (itemsize d) nloops (fun j => fun1 Ls (products (fun2 (prod_loop d)) x y n j)).
  Proof.
    intros Es HN Hn K0 K1 K3 HLp HLs Hx1 Hy1 Hx Hy Hs Ax Ay Hf.
    unfold gendot_loop. destruct (Z.eqb_spec n 0); [lia|]. rewrite Es.
    destruct (rows_ok (prod_loop d)
      (fun j m => call_loop1 Ls tmp (pout + j * s2) 1 n 0 0 (Z.of_nat (itemsize d)) m)
      (fun j => fun1 Ls (products (fun2 (prod_loop d)) x y n j))
      m x y pout s2 nloops n tmp junk (itemsize d) (itemsize d)) as (m' & E & D);
      [exact HN|lia|exact K0|exact Hx1|exact Hy1|exact HLp|exact Hx|exact Hy|exact Hs|exact Ax|exact Ay|exact Hf| |].
    - intros j m1 Hj HP Ha Hd. rewrite <- K3 in Ha at 1.
      destruct (gufunc_ok Ls m1 tmp n (itemsize d) (pout + j * s2) (fun i => fun2 (prod_loop d) (o_val x j i) (o_val y j i))
                  ltac:(lia) K1 HP Ha) as (m' & E & L & S & F).
      { intros us Hu. apply HLs. now rewrite K1. }
      rewrite K3 in *. exists m'. auto.
    - rewrite E. cbn [bind]. eexists. split; [reflexivity|exact D].
  Qed.

  Theorem gendot_empty (d : gendot_data B) m px py pout s0 s1 s2 s3 s4 nloops tp junk :
    0 <= nloops <= INT_MAX -> slots m pout s2 (itemsize d) nloops ->
    match identity_buffer d with
    | Some id => (itemsize d <= length id)%nat ->
        exists m', gendot_loop d px py pout nloops 0 s0 s1 s2 s3 s4 tp junk m = Some (Done m') /\
          delivered m m' pout s2 (itemsize d) nloops (fun _ => firstn (itemsize d) id)
    | None => gendot_loop d px py pout nloops 0 s0 s1 s2 s3 s4 tp junk m = Some (ValueErr m)
    end.
  Proof.
    intros HN [Hs1 Hs2]. unfold gendot_loop. cbn [Z.eqb]. destruct (identity_buffer d) as [id|]; [|reflexivity].
    intros Hid. assert (Lv : length (firstn (itemsize d) id) = itemsize d) by (rewrite firstn_length; lia).
    set (v := firstn (itemsize d) id) in *. unfold int_for_each. destruct (Z.leb_spec nloops INT_MAX); [|lia].
    destruct (for_each_inv (fun q m' =>
       (forall j, 0 <= j < q -> length v = itemsize d /\ stored m' (pout + j * s2) v) /\
       (forall b, (forall j, 0 <= j < q -> ~ within (pout + j * s2) (itemsize d) b) -> m' b = m b)) 0 nloops
       (fun j m => write_bytes m (pout + j * s2) v) m) as (m' & E & I1 & I2); [lia| | |].
    - split; [intros j Hj; lia|reflexivity].
    - intros j m1 Hj (I1 & I2).
      destruct (write_ok m1 (pout + j * s2) v) as (m' & W & St & Fr).
      { rewrite Lv. intros b Hb. rewrite I2; [now apply (Hs1 j Hj)|]. intros j' Hj'. apply (Hs2 j j'); [lia|lia|lia|exact Hb]. }
      rewrite Lv in Fr. exists m'. split; [exact W|]. split.
      + intros j' Hj'. split; [exact Lv|]. destruct (Z.eq_dec j' j) as [->|N]; [exact St|].
        eapply stored_ext; [|apply (I1 j'); lia]. intros b Hb. rewrite Lv in Hb. apply Fr. apply (Hs2 j' j); [lia|lia|lia|exact Hb].
      + intros b Hb. rewrite Fr by (apply Hb; lia). apply I2. intros j' Hj'. apply Hb. lia.
    - rewrite E. cbn [bind]. exists m'. split; [reflexivity|]. split; [exact I1|exact I2].
  Qed.

  (** ** the buffer is too small when the product's items are larger than the sum's results *)
  Lemma iter_none {S} (Q : S -> Prop) (body : Z -> S -> M S) : forall n k s,
    Q s -> (0 < n)%nat ->
    (forall i s s', Q s -> body i s = Some s' -> Q s') ->
    (forall s, Q s -> body (k + Z.of_nat n - 1) s = None) ->
    iter_from n k body s = None.
  Proof.
    induction n as [|n IH]; intros k s H0 Hn Hk Hl; [lia|]. cbn [iter_from].
    destruct n as [|n].
    - replace (k + Z.of_nat 1 - 1) with k in Hl by lia. now rewrite (Hl s H0).
    - destruct (body k s) as [s1|] eqn:E; [|reflexivity]. cbn [bind]. apply IH; [eapply Hk; eauto|lia|exact Hk|].
      intros t Ht. rewrite <- (Hl t Ht). f_equal. lia.
  Qed.

  Theorem gendot_overflow (d : gendot_data B) m px py pout s0 s1 s2 s3 s4 nloops n tmp junk :
    1 <= nloops <= INT_MAX -> 1 <= n ->
    (itemsize d < out2 (prod_loop d))%nat ->
    (forall u v, length (fun2 (prod_loop d) u v) = out2 (prod_loop d)) ->
    m (tmp + n * Z.of_nat (itemsize d)) = None ->
    gendot_loop d px py pout nloops n s0 s1 s2 s3 s4 (Some tmp) junk m = None.
  Proof.
    intros HN Hn Hsz HL Hm. unfold gendot_loop. destruct (Z.eqb_spec n 0); [lia|].
    set (k := itemsize d) in *. set (m1 := malloc m tmp (n * Z.of_nat k) junk).
    assert (H1 : m1 (tmp + n * Z.of_nat k) = None) by (unfold m1; rewrite malloc_out by lia; exact Hm).
    assert (C : forall mm a b, mm (tmp + n * Z.of_nat k) = None ->
      call_loop2 (prod_loop d) a b tmp n s3 s4 (Z.of_nat k) mm = None).
    { intros mm a b Hmm. unfold call_loop2, for_each.
      apply (iter_none (fun mm => mm (tmp + n * Z.of_nat k) = None)); [exact Hmm|lia| |].
      - intros i s s' Hs E. destruct (read_bytes s (a + i * s3) _) as [u|]; [|discriminate]. cbn [bind] in E.
        destruct (read_bytes s (b + i * s4) _) as [v|]; [|discriminate]. cbn [bind] in E.
        apply write_dom in E. now apply E.
      - intros s Hs. destruct (read_bytes s _ _) as [u|]; [|reflexivity]. cbn [bind].
        destruct (read_bytes s _ _) as [v|]; [|reflexivity]. cbn [bind].
        destruct (write_bytes s _ _) as [s'|] eqn:E; [|reflexivity]. apply write_dom in E. exfalso.
        apply (proj1 E (tmp + n * Z.of_nat k)); [|exact Hs]. rewrite HL. unfold within. nia. }
    assert (I : forall f : Z -> mem B -> M (mem B), int_for_each nloops (fun j mm =>
        bind (call_loop2 (prod_loop d) (px + j * s0) (py + j * s1) tmp n s3 s4 (Z.of_nat k) mm) (f j)) m1 = None).
    { intros f. unfold int_for_each, for_each. destruct (Z.leb_spec nloops INT_MAX); [|lia].
      replace (Z.to_nat (nloops - 0)) with (S (Z.to_nat (nloops - 1))) by lia. cbn [iter_from].
      rewrite C by exact H1. reflexivity. }
    destruct (sum_loop d) as [L|L]; rewrite I; reflexivity.
  Qed.
End Mem.

(** ** loop selection *)
Lemma remove_char_id c s : ~ In c s -> remove_char c s = s.
Proof.
  unfold remove_char. induction s as [|x s IH]; intros H; cbn; [reflexivity|].
  destruct (Ascii.eqb_spec x c) as [->|N]; [exfalso; apply H; now left|]. cbn. now rewrite IH by (intros Q; apply H; now right).
Qed.
Lemma letter_space ins o : Forall letter (o :: ins) -> remove_char (ch " ") (loop_type ins o) = loop_type ins o.
Proof.
  intros H. apply remove_char_id. unfold loop_type. rewrite Forall_forall in H. intros Hin.
  apply in_app_iff in Hin. destruct Hin as [Hin|Hin]; [destruct (H _ (or_intror Hin)) as [Q _]; now apply Q|].
  apply in_app_iff in Hin. destruct Hin as [Hin|Hin].
  - vm_compute in Hin. intuition discriminate.
  - destruct Hin as [E|[]]. destruct (H o (or_introl eq_refl)) as [Q _]. now apply Q.
Qed.
Lemma last_loop_type ins o : last_char (loop_type ins o) = o.
Proof. unfold last_char, loop_type. rewrite app_assoc. apply last_last. Qed.
Lemma input_loop_type ins o : Forall letter (o :: ins) -> input_part (loop_type ins o) = ins.
Proof.
  intros H. unfold input_part, loop_type. rewrite Forall_forall in H.
  change (ins ++ S_ "->" ++ [o]) with (join (S_ "->") [ins; [o]]).
  change (S_ "->") with (ch "-" :: S_ ">"). rewrite split_join; [reflexivity|discriminate|].
  repeat constructor.
  - intros Hin. destruct (H _ (or_intror Hin)) as (_ & Q & _). now apply Q.
  - intros [E|[]]. destruct (H o (or_introl eq_refl)) as (_ & Q & _). now apply Q.
Qed.
Lemma loop_type_inj ins o ins' o' : loop_type ins o = loop_type ins' o' -> ins = ins' /\ o = o'.
Proof.
  unfold loop_type. rewrite !app_assoc. intros H. apply app_inj_tail in H. destruct H as [H ->].
  split; [|reflexivity]. now apply app_inv_tail in H.
Qed.

Lemma enum_in {A} (l : list A) : forall k i x, In (i, x) (enum_from k l) <-> (k <= i)%nat /\ nth_error l (i - k) = Some x.
Proof.
  induction l as [|y l IH]; intros k i x; cbn [enum_from].
  - split; [contradiction|]. intros [_ H]. destruct (i - k)%nat; discriminate.
  - cbn [In]. rewrite IH. split.
    + intros [[= <- <-]|[H1 H2]]; [split; [lia|now rewrite Nat.sub_diag]|]. split; [lia|].
      replace (i - k)%nat with (S (i - S k)) by lia. exact H2.
    + intros [H1 H2]. destruct (Nat.eq_dec i k) as [->|N].
      * left. rewrite Nat.sub_diag in H2. cbn in H2. congruence.
      * right. split; [lia|]. replace (i - k)%nat with (S (i - S k)) in H2 by lia. exact H2.
Qed.

Lemma eqs_repeat c n l : eqs l (repeat c n) = true <-> l = repeat c n.
Proof. apply eqs_spec. Qed.
Lemma eqs_dec a b : reflect (a = b) (eqs a b).
Proof. apply Bool.iff_reflect. symmetry. apply eqs_spec. Qed.

Lemma select_iff pt st nin i j p s : types_ok 2 pt -> types_ok nin st ->
  In (i, j, p, s) (select_loops pt st (Z.of_nat nin)) <->
  nth_error pt i = Some p /\ nth_error st j = Some s /\ exists a b c d, composable nin p s a b c d.
Proof.
  intros Hp Hs. unfold select_loops. rewrite in_flat_map. split.
  - intros ([i' p'] & Hi & H). apply enum_in in Hi. destruct Hi as [_ Hi]. rewrite Nat.sub_0_r in Hi.
    destruct (existsb (Ascii.eqb (ch "O")) p') eqn:EO; [contradiction|].
    apply in_flat_map in H. destruct H as ([j' s'] & Hj & H). apply enum_in in Hj. destruct Hj as [_ Hj]. rewrite Nat.sub_0_r in Hj.
    destruct (eqs _ _) eqn:E in H; [|contradiction]. destruct H as [[= <- <- <- <-]|[]].
    split; [exact Hi|]. split; [exact Hj|].
    assert (Hp' := proj1 (Forall_forall _ _) Hp _ (nth_error_In _ _ Hi)). destruct Hp' as (ins & o & -> & Li & Ll).
    assert (Hs' := proj1 (Forall_forall _ _) Hs _ (nth_error_In _ _ Hj)). destruct Hs' as (ins' & o' & -> & Li' & Ll').
    rewrite !letter_space, input_loop_type, last_loop_type in E by assumption.
    rewrite Nat2Z.id in E. apply eqs_repeat in E. subst ins'.
    destruct ins as [|a [|b [|]]]; try discriminate. exists a, b, o, o'. split; [reflexivity|]. split; [|reflexivity].
    intros Hin. apply Bool.not_true_iff_false in EO. apply EO. apply existsb_exists. exists (ch "O").
    split; [|apply Ascii.eqb_refl]. unfold loop_type. cbn in Hin. cbn. tauto.
  - intros (Hi & Hj & a & b & c & d & -> & HO & ->). exists (i, loop_type [a; b] c).
    split; [apply enum_in; rewrite Nat.sub_0_r; split; [lia|exact Hi]|].
    replace (existsb (Ascii.eqb (ch "O")) (loop_type [a; b] c)) with false.
    2:{ symmetry. apply Bool.not_true_iff_false. intros E. apply existsb_exists in E. destruct E as (x & Hx & E).
        apply Ascii.eqb_eq in E. subst x. apply HO. unfold loop_type in Hx. cbn in Hx.
        destruct Hx as [Hx|[Hx|[Hx|[Hx|[Hx|[]]]]]]; try (vm_compute in Hx; discriminate); cbn; auto. }
    apply in_flat_map. exists (j, loop_type (repeat c nin) d). split; [apply enum_in; rewrite Nat.sub_0_r; split; [lia|exact Hj]|].
    assert (Hp' := proj1 (Forall_forall _ _) Hp _ (nth_error_In _ _ Hi)). destruct Hp' as (ins & o & E1 & Li & Ll).
    assert (Hs' := proj1 (Forall_forall _ _) Hs _ (nth_error_In _ _ Hj)). destruct Hs' as (ins' & o' & E2 & Li' & Ll').
    apply loop_type_inj in E1, E2. destruct E1 as [<- <-], E2 as [<- <-].
    rewrite !letter_space, input_loop_type, last_loop_type by assumption. rewrite Nat2Z.id.
    rewrite (proj2 (eqs_repeat c nin _) eq_refl). now left.
Qed.

(** the entries come in lexicographic order of the loop indices *)
From Coq Require Import Sorting.Sorted.
Definition idx (s : nat * nat * str * str) : nat * nat := let '(i, j, _, _) := s in (i, j).

Lemma sorted_app {A} (R : A -> A -> Prop) l1 l2 : StronglySorted R l1 -> StronglySorted R l2 ->
  (forall x y, In x l1 -> In y l2 -> R x y) -> StronglySorted R (l1 ++ l2).
Proof.
  induction 1 as [|x l1 H IH F]; intros H2 HR; [exact H2|]. cbn. constructor.
  - apply IH; [exact H2|]. intros y z Hy Hz. apply HR; [now right|exact Hz].
  - apply Forall_app. split; [exact F|]. apply Forall_forall. intros y Hy. apply HR; [now left|exact Hy].
Qed.

Lemma select_sorted pt st nin : StronglySorted lex (map idx (select_loops pt st nin)).
Proof.
  unfold select_loops. generalize 0%nat at 2 as k0. induction pt as [|p pt IH]; intros k0; cbn [enum_from flat_map map]; [constructor|].
  rewrite map_app. apply sorted_app; [|apply IH|].
  - clear IH. destruct (existsb _ p); [constructor|].
    generalize 0%nat as q. induction st as [|s st IHs]; intros q; cbn [enum_from flat_map map]; [constructor|].
    rewrite map_app. apply sorted_app; [|apply IHs|].
    + destruct (eqs _ _); cbn; repeat constructor.
    + intros x y Hx Hy. destruct (eqs _ _) in Hx; [|contradiction]. destruct Hx as [<-|[]].
      apply in_map_iff in Hy. destruct Hy as ([[[i j] p'] s'] & <- & Hy).
      apply in_flat_map in Hy. destruct Hy as ([j' s''] & Hj & Hy). apply enum_in in Hj.
      destruct (eqs _ _) in Hy; [|contradiction]. destruct Hy as [[= <- <- <- <-]|[]]. right. cbn. split; [reflexivity|lia].
  - intros x y Hx Hy. left.
    assert (Ex : fst x = k0).
    { destruct (existsb _ p) in Hx; [contradiction|]. apply in_map_iff in Hx. destruct Hx as (z & <- & Hz).
      apply in_flat_map in Hz. destruct Hz as ([j s] & _ & Hz). destruct (eqs _ _) in Hz; [|contradiction].
      destruct Hz as [<-|[]]. reflexivity. }
    assert (Ey : (S k0 <= fst y)%nat).
    { apply in_map_iff in Hy. destruct Hy as (z & <- & Hz). apply in_flat_map in Hz. destruct Hz as ([i p'] & Hi & Hz).
      apply enum_in in Hi. destruct (existsb _ p') in Hz; [contradiction|].
      apply in_flat_map in Hz. destruct Hz as ([j s] & _ & Hz). destruct (eqs _ _) in Hz; [|contradiction].
      destruct Hz as [<-|[]]. cbn. lia. }
    lia.
Qed.

Lemma check1_iff f : check_ufunc1 f = true <-> binary f /\ (length (u_types f) <= 256)%nat.
Proof.
  unfold check_ufunc1, binary. rewrite andb_true_iff, Z.leb_le.
  destruct (u_signature f); [split; [intros [H _]; discriminate|intros [[H _] _]; discriminate]|].
  rewrite andb_true_iff, !Z.eqb_eq. split; [intros [[? ?] ?]; repeat split; auto; lia|intros [(_ & ? & ?) ?]; repeat split; auto; lia].
Qed.

Lemma word_start_iff c : is_alpha c = true <-> word_start c.
Proof.
  unfold is_alpha, word_start, between. rewrite !orb_true_iff, !andb_true_iff, !Z.leb_le, Z.eqb_eq.
  assert (E : Z.of_nat (nat_of_ascii c) = 95 <-> c = "_"%char).
  { split; [|intros ->; reflexivity]. intros H. rewrite <- (ascii_nat_embedding c). replace (nat_of_ascii c) with 95%nat by lia. reflexivity. }
  rewrite E. change (nat_of_ascii "a") with 97%nat. change (nat_of_ascii "z") with 122%nat.
  change (nat_of_ascii "A") with 65%nat. change (nat_of_ascii "Z") with 90%nat.
  split; [intros [[H|H]|H]|intros [H|[H|H]]]; try (right; right; exact H); try (right; exact H); lia || (left; lia) || (left; right; lia) || (left; left; lia) || (right; left; lia).
Qed.
Lemma isidentifier_iff s : isidentifier s = true <-> identifier s.
Proof.
  unfold identifier. destruct s as [|c s]; cbn [isidentifier].
  - split; [discriminate|intros (c & s' & E & _); discriminate].
  - rewrite andb_true_iff, word_start_iff, forallb_forall. split.
    + intros [H1 H2]. exists c, s. split; [reflexivity|]. split; [exact H1|]. apply Forall_forall. intros d Hd.
      specialize (H2 d Hd). apply orb_true_iff in H2. destruct H2 as [H2|H2]; [left; apply word_start_iff, H2|right].
      unfold isdigit in H2. apply andb_true_iff in H2. rewrite !Z.leb_le in H2. unfold between.
      change (nat_of_ascii "0") with 48%nat. change (nat_of_ascii "9") with 57%nat. lia.
    + intros (c' & s' & [= <- <-] & H1 & H2). split; [exact H1|]. intros d Hd. rewrite Forall_forall in H2.
      destruct (H2 d Hd) as [H|H]; apply orb_true_iff; [left; apply word_start_iff, H|right].
      unfold between in H. change (nat_of_ascii "0") with 48%nat in H. change (nat_of_ascii "9") with 57%nat in H.
      unfold isdigit. apply andb_true_iff. rewrite !Z.leb_le. lia.
Qed.
Lemma check_n_to_1_iff f : one_in_one_out f -> check_n_to_1 f = true <-> n_to_1 f.
Proof.
  intros Hf. unfold check_n_to_1, n_to_1. destruct (u_signature f) as [sig|] eqn:Es.
  2:{ split; [discriminate|]. intros (sig & name & E & _). discriminate. }
  destruct (Z.eqb_spec (u_nin f) 1) as [N1|N1]; cbn [negb orb].
  2:{ split; [discriminate|]. intros (? & ? & ? & ? & _). contradiction. }
  destruct (Z.eqb_spec (u_nout f) 1) as [N2|N2]; cbn [negb].
  2:{ split; [discriminate|]. intros (? & ? & ? & ? & ? & _). contradiction. }
  destruct (Hf sig Es N1 N2) as (i & o & E & Hi & Ho). rewrite E.
  assert (Sp : split_on (S_ "->") (S_ "(" ++ i ++ S_ ")->(" ++ o ++ S_ ")") = [S_ "(" ++ i ++ S_ ")"; S_ "(" ++ o ++ S_ ")"]).
  { replace (S_ "(" ++ i ++ S_ ")->(" ++ o ++ S_ ")") with (join (S_ "->") [S_ "(" ++ i ++ S_ ")"; S_ "(" ++ o ++ S_ ")"]).
    2:{ cbn [join]. rewrite <- !app_assoc. reflexivity. }
    change (S_ "->") with (ch "-" :: S_ ">"). apply split_join; [discriminate|]. repeat constructor.
    - intros Hin. apply in_app_iff in Hin. destruct Hin as [Hin|Hin]; [vm_compute in Hin; intuition discriminate|].
      apply in_app_iff in Hin. destruct Hin as [Hin|Hin]; [contradiction|vm_compute in Hin; intuition discriminate].
    - intros Hin. apply in_app_iff in Hin. destruct Hin as [Hin|Hin]; [vm_compute in Hin; intuition discriminate|].
      apply in_app_iff in Hin. destruct Hin as [Hin|Hin]; [contradiction|vm_compute in Hin; intuition discriminate]. }
  rewrite Sp.
  assert (St : strip_ends (S_ "(" ++ i ++ S_ ")") = i).
  { unfold strip_ends. cbn [S_ list_ascii_of_string app tl]. apply removelast_last. }
  rewrite St. destruct (eqs_dec (S_ "(" ++ o ++ S_ ")") (S_ "()")) as [Eo|Eo]; cbn [negb].
  - assert (o = []) as -> by (destruct o as [|c o]; [reflexivity|]; apply (f_equal (@length _)) in Eo; cbn in Eo; rewrite app_length in Eo; cbn in Eo; lia).
    split.
    + intros Hid. apply isidentifier_iff in Hid. exists sig, i. repeat split; auto.
    + intros (sig' & name & [= <-] & _ & _ & E' & Hid). apply isidentifier_iff in Hid. rewrite E in E'.
      replace (i) with name; [exact Hid|]. injection E' as E'.
      change (S_ ")->(" ++ [] ++ S_ ")") with (S_ ")->()") in E'. now apply app_inv_tail in E'.
  - split; [discriminate|]. intros (sig' & name & [= <-] & _ & _ & E' & Hid). apply isidentifier_iff in Hid. exfalso. apply Eo. rewrite E in E'.
    apply (f_equal (split_on (S_ "->"))) in E'. rewrite Sp in E'.
    replace (S_ "(" ++ name ++ S_ ")->()") with (join (S_ "->") [S_ "(" ++ name ++ S_ ")"; S_ "()"]) in E'.
    2:{ cbn [join]. rewrite <- !app_assoc. reflexivity. }
    change (S_ "->") with (ch "-" :: S_ ">") in E' at 1 2. rewrite split_join in E'; [congruence|discriminate|].
    repeat constructor.
    + intros Hin. apply in_app_iff in Hin. destruct Hin as [Hin|Hin]; [vm_compute in Hin; intuition discriminate|].
      apply in_app_iff in Hin. destruct Hin as [Hin|Hin]; [|vm_compute in Hin; intuition discriminate].
      destruct name as [|c name]; [contradiction|]. cbn in Hid. apply andb_prop in Hid. destruct Hid as [H1 H2].
      destruct Hin as [->|Hin]; [vm_compute in H1; discriminate|]. rewrite forallb_forall in H2.
      specialize (H2 _ Hin). vm_compute in H2. discriminate.
    + intros Hin. vm_compute in Hin. intuition discriminate.
Qed.

Theorem gendot_accepts p s : one_in_one_out s ->
  gendot p s <> None <->
  binary p /\ (binary s \/ n_to_1 s) /\ (length (u_types p) <= 256)%nat /\ (length (u_types s) <= 256)%nat.
Proof.
  intros Hs. unfold gendot.
  assert (C2 : check_ufunc2 s = true <-> (binary s \/ n_to_1 s) /\ (length (u_types s) <= 256)%nat).
  { unfold check_ufunc2. rewrite andb_true_iff, orb_true_iff, Z.leb_le, (check_n_to_1_iff s Hs).
    assert (Q : match u_signature s with Some _ => false | None => (u_nin s =? 2) && (u_nout s =? 1) end = true <-> binary s).
    { unfold binary. destruct (u_signature s); [split; [discriminate|intros [H _]; discriminate]|].
      rewrite andb_true_iff, !Z.eqb_eq. tauto. }
    rewrite Q. split; intros [H1 H2]; (split; [exact H1|lia]). }
  pose proof (check1_iff p) as C1.
  destruct (check_ufunc1 p), (check_ufunc2 s); (split; [intros H|intros (H1 & H2 & H3 & H4)]); try congruence.
  - tauto.
  - destruct C2 as [_ C2]. discriminate C2. tauto.
  - destruct C1 as [_ C1]. discriminate C1. tauto.
  - destruct C1 as [_ C1]. discriminate C1. tauto.
Qed.

Theorem gendot_entries p s es nin : types_ok 2 (u_types p) -> u_nin s = Z.of_nat nin -> types_ok nin (u_types s) ->
  gendot p s = Some es ->
  (forall e, In e es <-> exists i j pt st a b c d, nth_error (u_types p) i = Some pt /\ nth_error (u_types s) j = Some st /\
     composable nin pt st a b c d /\ e = mkE [a; b; d] i j (dtype_itemsize d)) /\
  StronglySorted lex (map (fun e => (e_prod e, e_sum e)) es).
Proof.
  intros Hp Hn Hs H. unfold gendot in H. destruct (check_ufunc1 p) eqn:C1; [|discriminate].
  destruct (check_ufunc2 s) eqn:C2; [|discriminate]. injection H as <-.
  apply check1_iff in C1. destruct C1 as [_ L1].
  assert (L2 : (length (u_types s) <= 256)%nat).
  { unfold check_ufunc2 in C2. apply andb_prop in C2. destruct C2 as [_ C2]. rewrite Z.leb_le in C2. lia. }
  rewrite Hn.
  assert (U : forall i j pt st, In (i, j, pt, st) (select_loops (u_types p) (u_types s) (Z.of_nat nin)) ->
    as_uint8 i = i /\ as_uint8 j = j).
  { intros i j pt st Hi. apply (select_iff _ _ _ _ _ _ _ Hp Hs) in Hi. destruct Hi as (H1 & H2 & _).
    assert (i < length (u_types p))%nat by (apply nth_error_Some; congruence).
    assert (j < length (u_types s))%nat by (apply nth_error_Some; congruence).
    unfold as_uint8. split; apply Nat.mod_small; lia. }
  split.
  - intros e. rewrite in_map_iff. split.
    + intros ([[[i j] pt] st] & <- & Hi). destruct (U _ _ _ _ Hi) as [U1 U2]. apply (select_iff _ _ _ _ _ _ _ Hp Hs) in Hi.
      destruct Hi as (H1 & H2 & a & b & c & d & Hc). exists i, j, pt, st, a, b, c, d.
      split; [exact H1|]. split; [exact H2|]. split; [exact Hc|]. destruct Hc as (-> & _ & ->).
      cbn [make_entry]. rewrite U1, U2, last_loop_type. reflexivity.
    + intros (i & j & pt & st & a & b & c & d & H1 & H2 & Hc & ->). exists (i, j, pt, st).
      assert (Hi : In (i, j, pt, st) (select_loops (u_types p) (u_types s) (Z.of_nat nin))).
      { apply (select_iff _ _ _ _ _ _ _ Hp Hs). split; [exact H1|]. split; [exact H2|]. now exists a, b, c, d. }
      split; [|exact Hi]. destruct (U _ _ _ _ Hi) as [U1 U2]. destruct Hc as (-> & _ & ->).
      cbn [make_entry]. rewrite U1, U2, last_loop_type. reflexivity.
  - pose proof (select_sorted (u_types p) (u_types s) (Z.of_nat nin)) as S. rewrite map_map.
    replace (map (fun x => (e_prod (make_entry x), e_sum (make_entry x))) (select_loops (u_types p) (u_types s) (Z.of_nat nin)))
      with (map idx (select_loops (u_types p) (u_types s) (Z.of_nat nin))); [exact S|].
    apply map_ext_in. intros [[[i j] pt] st] Hi. destruct (U _ _ _ _ Hi) as [U1 U2]. cbn [idx make_entry e_prod e_sum]. now rewrite U1, U2.
Qed.

(** ** from the two ufuncs to the result *)
Theorem gendot_call_ok {B} p s es e (prod_loops : nat -> loop2 B) (sum_loops : nat -> sumloop B) identity zero
        i j a b c m (x y : operand) pout s2 nloops n tmp junk nin :
  types_ok 2 (u_types p) -> u_nin s = Z.of_nat nin -> types_ok nin (u_types s) ->
  prod_table (u_types p) prod_loops -> sum_table (u_types s) sum_loops ->
  (match sum_loops j with Reduction _ => nin = 2%nat | Gufunc _ => nin = 1%nat end) ->
  gendot p s = Some es -> In e es -> e = mkE [a; b; c] i j (dtype_itemsize c) ->
  nth_error (u_types p) i = Some (loop_type [a; b] c) -> nth_error (u_types s) j = Some (loop_type (repeat c nin) c) ->
  0 <= nloops <= INT_MAX -> 1 <= n <= INT_MAX ->
  o_size x = dtype_itemsize a -> o_size y = dtype_itemsize b ->
  holds m x nloops n -> holds m y nloops n -> slots m pout s2 (dtype_itemsize c) nloops ->
  apart x pout s2 (dtype_itemsize c) nloops n -> apart y pout s2 (dtype_itemsize c) nloops n ->
  (forall b, tmp <= b < tmp + n * Z.of_nat (dtype_itemsize c) -> m b = None) ->
  exists m', gendot_loop (entry_data prod_loops sum_loops identity zero e) (o_p x) (o_p y) pout nloops n
               (o_row x) (o_row y) s2 (o_item x) (o_item y) (Some tmp) junk m = Some (Done m') /\
    delivered m m' pout s2 (dtype_itemsize c) nloops
      (fun r => match sum_loops j with
                | Reduction L => reduction (fun2 L) (products (fun2 (prod_loops i)) x y n r)
                | Gufunc L => fun1 L (products (fun2 (prod_loops i)) x y n r)
                end).
Proof.
  intros Hp Hn Hs Tp Ts Hnin Hg He -> Ei Ej HN Hn1 Sx Sy Hx Hy Hsl Ax Ay Hf.
  destruct (Tp _ _ _ _ Ei) as (P1 & P2 & P3 & P4). pose proof (Ts j) as Q.
  destruct (sum_loops j) as [L|L] eqn:EL; subst nin; cbn [repeat] in Ej; specialize (Q _ _ _ Ej) || specialize (Q _ _ Ej).
  - destruct Q as (Q1 & Q2 & Q3 & Q4).
    apply (gendot_reduce_ok (entry_data prod_loops sum_loops identity zero (mkE [a; b; c] i j (dtype_itemsize c))) L);
      cbn [entry_data prod_loop sum_loop itemsize e_prod e_sum e_size]; auto; congruence.
  - destruct Q as (Q1 & Q2 & Q3).
    apply (gendot_gufunc_ok (entry_data prod_loops sum_loops identity zero (mkE [a; b; c] i j (dtype_itemsize c))) L);
      cbn [entry_data prod_loop sum_loop itemsize e_prod e_sum e_size]; auto; try congruence; lia.
Qed.

(** a loop pair whose sum result is smaller than the products: the temporary buffer is too small *)
Theorem gendot_entry_overflow {B} p s es e (prod_loops : nat -> loop2 B) (sum_loops : nat -> sumloop B) identity zero
        i j a b c d nin m px py pout s0 s1 s2 s3 s4 nloops n tmp junk :
  types_ok 2 (u_types p) -> u_nin s = Z.of_nat nin -> types_ok nin (u_types s) ->
  prod_table (u_types p) prod_loops -> (forall u v, length (fun2 (prod_loops i) u v) = out2 (prod_loops i)) ->
  gendot p s = Some es -> e = mkE [a; b; d] i j (dtype_itemsize d) ->
  nth_error (u_types p) i = Some (loop_type [a; b] c) -> nth_error (u_types s) j = Some (loop_type (repeat c nin) d) ->
  ~ In (ch "O") [a; b; c] ->
  (dtype_itemsize d < dtype_itemsize c)%nat ->
  1 <= nloops <= INT_MAX -> 1 <= n ->
  m (tmp + n * Z.of_nat (dtype_itemsize d)) = None ->
  In e es /\
  gendot_loop (entry_data prod_loops sum_loops identity zero e) px py pout nloops n s0 s1 s2 s3 s4 (Some tmp) junk m = None.
Proof.
  intros Hp Hn Hs Tp HL Hg -> Ei Ej HO Hlt HN Hn1 Hm. destruct (Tp _ _ _ _ Ei) as (P1 & P2 & P3 & P4). split.
  - apply (gendot_entries p s es nin Hp Hn Hs Hg). exists i, j, (loop_type [a; b] c), (loop_type (repeat c nin) d), a, b, c, d.
    repeat split; auto.
  - apply gendot_overflow; cbn [entry_data prod_loop sum_loop itemsize e_prod e_sum e_size]; auto. congruence.
Qed.

(** a loop pair whose sum result has another type of the same size: for one item the bytes of the
    product are delivered, whatever the result type is *)
Theorem gendot_entry_retyped {B} p s es e (prod_loops : nat -> loop2 B) (sum_loops : nat -> sumloop B) identity zero
        L i j a b c d m (x y : operand) pout s2 nloops tmp junk :
  types_ok 2 (u_types p) -> u_nin s = 2 -> types_ok 2 (u_types s) ->
  prod_table (u_types p) prod_loops -> sum_table (u_types s) sum_loops -> sum_loops j = Reduction L ->
  gendot p s = Some es -> e = mkE [a; b; d] i j (dtype_itemsize d) ->
  nth_error (u_types p) i = Some (loop_type [a; b] c) -> nth_error (u_types s) j = Some (loop_type [c; c] d) ->
  ~ In (ch "O") [a; b; c] -> dtype_itemsize d = dtype_itemsize c ->
  0 <= nloops <= INT_MAX ->
  o_size x = dtype_itemsize a -> o_size y = dtype_itemsize b ->
  holds m x nloops 1 -> holds m y nloops 1 -> slots m pout s2 (dtype_itemsize d) nloops ->
  apart x pout s2 (dtype_itemsize d) nloops 1 -> apart y pout s2 (dtype_itemsize d) nloops 1 ->
  (forall b, tmp <= b < tmp + Z.of_nat (dtype_itemsize d) -> m b = None) ->
  In e es /\
  exists m', gendot_loop (entry_data prod_loops sum_loops identity zero e) (o_p x) (o_p y) pout nloops 1
               (o_row x) (o_row y) s2 (o_item x) (o_item y) (Some tmp) junk m = Some (Done m') /\
    delivered m m' pout s2 (dtype_itemsize d) nloops (fun r => fun2 (prod_loops i) (o_val x r 0) (o_val y r 0)).
Proof.
  intros Hp Hn Hs Tp Ts EL Hg -> Ei Ej HO Hsz HN Sx Sy Hx Hy Hsl Ax Ay Hf.
  destruct (Tp _ _ _ _ Ei) as (P1 & P2 & P3 & P4). pose proof (Ts j) as Q. rewrite EL in Q. specialize (Q _ _ _ Ej).
  destruct Q as (Q1 & Q2 & Q3 & Q4). split.
  - apply (gendot_entries p s es 2 Hp Hn Hs Hg). exists i, j, (loop_type [a; b] c), (loop_type [c; c] d), a, b, c, d.
    repeat split; auto.
  - pose proof (gendot_reduce_ok (entry_data prod_loops sum_loops identity zero (mkE [a; b; d] i j (dtype_itemsize d))) L
      m x y pout s2 nloops 1 tmp junk) as R.
    cbn [entry_data prod_loop sum_loop itemsize e_prod e_sum e_size] in R. rewrite Z.mul_1_l in R.
    apply R; auto; try congruence; unfold INT_MAX; lia.
Qed.

(** ** item sizes *)
Lemma itemsize_bits : forall c t, dt_of_char c = Some t -> 8 * Z.of_nat (dtype_itemsize c) = item_bits t.
Proof.
  intros [[] [] [] [] [] [] [] []] t H; vm_compute in H; try discriminate H; injection H as <-; vm_compute; reflexivity.
Qed.

(** Proofs about sosfilter. *)
From Coq Require Import ZArith Reals List Bool Lia Lra.
From Verif Require Import CSem CSemP Num NumP M_Signal S_Signal.
Import ListNotations.
Open Scope Z_scope.

Section Any.
  Context {T : Type} (A : arith T).
  Notation step := (sec_step A).

  (** one sample through all sections *)
  Fixpoint samp (secs : list (section T)) (zs : list (T * T)) (x : T) : T * list (T * T) :=
    match secs, zs with
    | s :: secs', z :: zs' =>
        let '(y, z') := step s z x in
        let '(out, zfs) := samp secs' zs' y in (out, z' :: zfs)
    | _, _ => (x, [])
    end.
  Fixpoint run (secs : list (section T)) (zs : list (T * T)) (xs : list T) : list T * list (T * T) :=
    match xs with
    | [] => ([], zs)
    | x :: xs' => let '(y, zs') := samp secs zs x in
                  let '(ys, zf) := run secs zs' xs' in (y :: ys, zf)
    end.

  Lemma samp_length secs : forall zs x, length zs = length secs -> length (snd (samp secs zs x)) = length zs.
  Proof.
    induction secs as [|s secs IH]; intros [|z zs] x HL; cbn [length] in HL; try lia; [reflexivity|].
    cbn [samp]. destruct (step s z x) as [y z']. specialize (IH zs y ltac:(lia)).
    destruct (samp secs zs y) as [o zfs]. cbn in *. lia.
  Qed.
  Lemma run_length secs xs : forall zs, length (fst (run secs zs xs)) = length xs.
  Proof.
    induction xs as [|x xs IH]; intros zs; [reflexivity|]. cbn [run].
    destruct (samp secs zs x) as [y zs']. specialize (IH zs'). destruct (run secs zs' xs). cbn in *. lia.
  Qed.
  Lemma run_length_z secs xs : forall zs, length zs = length secs -> length (snd (run secs zs xs)) = length secs.
  Proof.
    induction xs as [|x xs IH]; intros zs HL; [exact HL|]. cbn [run].
    pose proof (samp_length secs zs x HL) as H. destruct (samp secs zs x) as [y zs']. cbn [snd] in H.
    specialize (IH zs' ltac:(lia)). destruct (run secs zs' xs). exact IH.
  Qed.

  Lemma cascade_cons secs : forall zs x xs, length zs = length secs ->
    cascade A secs zs (x :: xs) =
    let '(y, zs') := samp secs zs x in
    let '(ys, zf) := cascade A secs zs' xs in (y :: ys, zf).
  Proof.
    induction secs as [|s secs IH]; intros [|z zs] x xs HL; cbn [length] in HL; try lia; [reflexivity|].
    cbn [cascade samp sec_filter]. destruct (step s z x) as [y z'].
    destruct (sec_filter A s z' xs) as [ys zf] eqn:Ef. rewrite IH by lia.
    destruct (samp secs zs y) as [o zs']. cbn [cascade]. rewrite Ef.
    destruct (cascade A secs zs' ys) as [os zfs]. reflexivity.
  Qed.
  Lemma cascade_nil secs : forall zs, length zs = length secs -> cascade A secs zs [] = ([], zs).
  Proof.
    induction secs as [|s secs IH]; intros [|z zs] HL; cbn [length] in HL; try lia; [reflexivity|].
    cbn [cascade sec_filter]. rewrite IH by lia. reflexivity.
  Qed.
  Lemma run_cascade secs xs : forall zs, length zs = length secs -> run secs zs xs = cascade A secs zs xs.
  Proof.
    induction xs as [|x xs IH]; intros zs HL.
    - rewrite cascade_nil by exact HL. reflexivity.
    - rewrite cascade_cons by exact HL. cbn [run].
      pose proof (samp_length secs zs x HL) as H. destruct (samp secs zs x) as [y zs']. cbn [snd] in H.
      rewrite IH by lia. reflexivity.
  Qed.
  Lemma run_app secs xs1 xs2 : forall zs,
    run secs zs (xs1 ++ xs2) =
    let '(y1, z1) := run secs zs xs1 in let '(y2, z2) := run secs z1 xs2 in (y1 ++ y2, z2).
  Proof.
    induction xs1 as [|x xs1 IH]; intros zs; cbn [app run].
    - destruct (run secs zs xs2); reflexivity.
    - destruct (samp secs zs x) as [y zs']. rewrite IH. destruct (run secs zs' xs1) as [y1 z1].
      destruct (run secs z1 xs2) as [y2 z2]. reflexivity.
  Qed.

  (** ** one section in memory *)
  Section Mem.
    Variables (ms : mem T) (ps ss0 ss1 pz zs0 zs1 : Z).
    Definition za (i j : Z) : Z := pz + i * zs0 + j * zs1.

    Definition zrows (m : mem T) (k : Z) (zs : list (T * T)) : Prop :=
      forall i z, nth_error zs i = Some z ->
        m (za (k + Z.of_nat i) 0) = Some (fst z) /\ m (za (k + Z.of_nat i) 1) = Some (snd z).
    Definition srows (k : Z) (secs : list (section T)) : Prop :=
      forall i s, nth_error secs i = Some s ->
        let a j := ms (ps + (k + Z.of_nat i) * ss0 + j * ss1) in
        a 0 = Some (sb0 s) /\ a 1 = Some (sb1 s) /\ a 2 = Some (sb2 s) /\ a 4 = Some (sa1 s) /\ a 5 = Some (sa2 s).

    Lemma section_step (addr : Z) (sety : mem T -> T -> M (mem T)) k s z (my mz : mem T) x :
      (forall v (m : mem T), m addr <> None -> sety m v = Some (upd m addr v)) ->
      my addr <> None ->
      ms (ps + k * ss0 + 0 * ss1) = Some (sb0 s) -> ms (ps + k * ss0 + 1 * ss1) = Some (sb1 s) ->
      ms (ps + k * ss0 + 2 * ss1) = Some (sb2 s) -> ms (ps + k * ss0 + 4 * ss1) = Some (sa1 s) ->
      ms (ps + k * ss0 + 5 * ss1) = Some (sa2 s) ->
      mz (za k 0) = Some (fst z) -> mz (za k 1) = Some (snd z) -> za k 0 <> za k 1 ->
      sos_section A ms ps ss0 ss1 pz zs0 zs1 sety k (my, mz, x) =
      let '(y, z') := step s z x in
      Some (upd my addr y, upd (upd mz (za k 0) (fst z')) (za k 1) (snd z'), y).
    Proof.
      intros Hset Hy B0 B1 B2 A1 A2 Z0 Z1 Hne. unfold sos_section, get2d, set2d, load, store.
      fold (za k 0). fold (za k 1). rewrite B0, Z0. cbn [bind]. rewrite Hset by exact Hy. cbn [bind].
      rewrite Z1, B1, A1. cbn [bind]. rewrite B2, A2. cbn [bind].
      destruct (Z.eqb_spec (za k 1) (za k 0)) as [E|_]; [congruence|]. reflexivity.
    Qed.

    Lemma sections (addr : Z) sety :
      (forall v (m : mem T), m addr <> None -> sety m v = Some (upd m addr v)) ->
      forall secs zs k (my mz : mem T) x, length zs = length secs ->
      my addr <> None ->
      srows k secs -> zrows mz k zs ->
      (forall i i' j j', (i < length secs)%nat -> (i' < length secs)%nat ->
         (j = 0 \/ j = 1) -> (j' = 0 \/ j' = 1) -> za (k + Z.of_nat i) j = za (k + Z.of_nat i') j' -> i = i' /\ j = j') ->
      exists my' mz',
        iter_from (length secs) k (sos_section A ms ps ss0 ss1 pz zs0 zs1 sety) (my, mz, x) =
          Some (my', mz', fst (samp secs zs x)) /\
        (forall a, a <> addr -> my' a = my a) /\
        my' addr = (match secs with [] => my addr | _ => Some (fst (samp secs zs x)) end) /\
        zrows mz' k (snd (samp secs zs x)) /\
        (forall a, (forall i j, (i < length secs)%nat -> (j = 0 \/ j = 1) -> a <> za (k + Z.of_nat i) j) -> mz' a = mz a).
    Proof.
      intros Hset. induction secs as [|s secs IH]; intros [|z zs] k my mz x HL Hy Hs Hz Hd; cbn [length] in HL; try lia.
      - exists my, mz. cbn. split; [reflexivity|]. split; [auto|]. split; [reflexivity|]. split; [|auto].
        intros i z0 Hi. destruct i; discriminate.
      - cbn [length iter_from].
        pose proof (Hs O s eq_refl) as Hs0. cbn zeta in Hs0. cbn [Z.of_nat] in Hs0. rewrite (Z.add_0_r k) in Hs0.
        destruct Hs0 as (B0 & B1 & B2 & A1 & A2).
        pose proof (Hz O z eq_refl) as Hz0. cbn [Z.of_nat] in Hz0. rewrite (Z.add_0_r k) in Hz0. destruct Hz0 as (Z0 & Z1).
        assert (Hne : za k 0 <> za k 1).
        { intros E. destruct (Hd O O 0 1) as [_ H]; cbn [length Z.of_nat]; try lia.
          rewrite Z.add_0_r. exact E. }
        rewrite (section_step addr sety k s z my mz x) by assumption.
        cbn [samp]. destruct (step s z x) as [y z'] eqn:Es. cbn [bind].
        set (mz1 := upd (upd mz (za k 0) (fst z')) (za k 1) (snd z')).
        assert (Hother : forall a, a <> za k 0 -> a <> za k 1 -> mz1 a = mz a).
        { intros a H0 H1. unfold mz1. rewrite !upd_other by assumption. reflexivity. }
        assert (Hnext : forall i j, (i < length secs)%nat -> j = 0 \/ j = 1 ->
                   za (k + 1 + Z.of_nat i) j <> za k 0 /\ za (k + 1 + Z.of_nat i) j <> za k 1).
        { intros i j Hi Hj. replace (k + 1 + Z.of_nat i) with (k + Z.of_nat (S i)) by lia.
          split; intros E.
          - destruct (Hd (S i) O j 0) as [H _]; cbn [length Z.of_nat]; try lia. rewrite Z.add_0_r. exact E.
          - destruct (Hd (S i) O j 1) as [H _]; cbn [length Z.of_nat]; try lia. rewrite Z.add_0_r. exact E. }
        destruct (IH zs (k + 1) (upd my addr y) mz1 y) as (my' & mz' & E & Hf & Ha & Hzr & Hfz).
        + lia.
        + rewrite upd_same. discriminate.
        + intros i s' Hi. replace (k + 1 + Z.of_nat i) with (k + Z.of_nat (S i)) by lia. apply (Hs (S i) s' Hi).
        + intros i z0 Hi. assert (i < length secs)%nat by (rewrite <- (Nat.succ_inj _ _ HL); apply nth_error_Some; congruence).
          rewrite !Hother by (apply Hnext; auto).
          replace (k + 1 + Z.of_nat i) with (k + Z.of_nat (S i)) by lia. apply (Hz (S i) z0 Hi).
        + intros i i' j j' Hi Hi' Hj Hj' E.
          destruct (Hd (S i) (S i') j j') as [H1 H2]; cbn [length]; try lia; try assumption.
          replace (k + Z.of_nat (S i)) with (k + 1 + Z.of_nat i) by lia.
          replace (k + Z.of_nat (S i')) with (k + 1 + Z.of_nat i') by lia. exact E.
        + destruct (samp secs zs y) as [o zfs] eqn:Esamp. cbn [fst snd] in *.
          exists my', mz'. split; [exact E|]. split; [|split; [|split]].
          * intros a Hne'. rewrite Hf by exact Hne'. apply upd_other. exact Hne'.
          * destruct secs as [|s2 secs]; [|exact Ha].
            cbn in Esamp. injection Esamp as <- <-. rewrite Ha. apply upd_same.
          * intros i z0 Hi. destruct i as [|i]; cbn [nth_error] in Hi.
            -- injection Hi as <-. cbn [Z.of_nat]. rewrite Z.add_0_r. rewrite !Hfz.
               ++ unfold mz1. rewrite upd_same, upd_other, upd_same by exact Hne. auto.
               ++ intros i j Hi Hj Ee. apply (proj2 (Hnext i j Hi Hj)). auto.
               ++ intros i j Hi Hj Ee. apply (proj1 (Hnext i j Hi Hj)). auto.
            -- replace (k + Z.of_nat (S i)) with (k + 1 + Z.of_nat i) by lia. apply Hzr. exact Hi.
          * intros a Hout. rewrite Hfz.
            -- apply Hother.
               ++ specialize (Hout O 0 ltac:(cbn; lia) ltac:(auto)). cbn [Z.of_nat] in Hout. rewrite ?(Z.add_0_r k), ?(Z.add_0_r (Z.of_nat k)) in Hout. exact Hout.
               ++ specialize (Hout O 1 ltac:(cbn; lia) ltac:(auto)). cbn [Z.of_nat] in Hout. rewrite ?(Z.add_0_r k), ?(Z.add_0_r (Z.of_nat k)) in Hout. exact Hout.
            -- intros i j Hi Hj. replace (k + 1 + Z.of_nat i) with (k + Z.of_nat (S i)) by lia.
               apply Hout; [cbn [length]; lia|exact Hj].
    Qed.
  End Mem.

  (** the loop over the samples *)
  Definition sos_outer (m n : Z) ms ps ss0 ss1 mx px sx my py sy mz pz zs0 zs1 : M (mem T * mem T) :=
      for_each 0 n
        (fun i st => let '(my, mz) := st in
           xi <- get mx px sx i ;;
           '(my', mz', _) <-
             for_each 0 m
               (sos_section A ms ps ss0 ss1 pz zs0 zs1 (fun y v => set y py sy i v))
               (my, mz, xi) ;;
           ret (my', mz'))
        (my, mz).

  Lemma sos_outer_correct ms ps ss0 ss1 mx px sx my py sy mz pz zs0 zs1 secs zs xs :
    secs <> [] -> length zs = length secs ->
    view2 ms ps ss0 ss1 (map sec_row secs) ->
    view mx px sx xs -> view2 mz pz zs0 zs1 (map st_row zs) ->
    writable my py sy (length xs) -> writable2 mz pz zs0 zs1 (length secs) 2 ->
    exists my' mz',
      sos_outer (Z.of_nat (length secs)) (Z.of_nat (length xs)) ms ps ss0 ss1 mx px sx my py sy mz pz zs0 zs1
        = Some (my', mz') /\
      wrote my my' py sy (fst (run secs zs xs)) /\
      wrote2 mz mz' pz zs0 zs1 2 (map st_row (snd (run secs zs xs))).
  Proof.
    intros Hne HL Vs Vx Vz [Wo Ws] [Zo Zd]. unfold sos_outer.
    rewrite (for_each_view mx px sx xs _
      (fun i x st => let '(my, mz) := st in
           '(my', mz', _) <-
             for_each 0 (Z.of_nat (length secs))
               (sos_section A ms ps ss0 ss1 pz zs0 zs1 (fun y v => set y py sy i v))
               (my, mz, x) ;;
           ret (my', mz')) (my, mz) Vx).
    2:{ intros k [a b] v _ Hg. rewrite Hg. reflexivity. }
    assert (Hs : srows ms ps ss0 ss1 0 secs).
    { intros i s Hi. cbn zeta. rewrite Z.add_0_l.
      assert (Hr : nth_error (map sec_row secs) i = Some (sec_row s)) by (apply map_nth_error; exact Hi).
      pose proof (fun j x => Vs i j _ x Hr) as V.
      repeat split; [apply (V 0%nat)|apply (V 1%nat)|apply (V 2%nat)|apply (V 4%nat)|apply (V 5%nat)]; reflexivity. }
    assert (Hdist : forall i i' j j', (i < length secs)%nat -> (i' < length secs)%nat ->
         (j = 0 \/ j = 1) -> (j' = 0 \/ j' = 1) ->
         za pz zs0 zs1 (0 + Z.of_nat i) j = za pz zs0 zs1 (0 + Z.of_nat i') j' -> i = i' /\ j = j').
    { intros i i' j j' Hi Hi' Hj Hj' E. unfold za in E. rewrite !Z.add_0_l in E.
      destruct (Zd i (Z.to_nat j) i' (Z.to_nat j')) as [H1 H2]; try lia; rewrite !Z2Nat.id by lia; exact E. }
    assert (G : forall l (k : nat) zs (my1 mz1 : mem T),
      length zs = length secs -> zrows pz zs0 zs1 mz1 0 zs ->
      (forall i, (i < length l)%nat -> my1 (py + (Z.of_nat k + Z.of_nat i) * sy) <> None) ->
      (sy <> 0 \/ (length l <= 1)%nat) ->
      exists my' mz', liter (Z.of_nat k) l (fun i x st => let '(my, mz) := st in
           '(my', mz', _) <-
             for_each 0 (Z.of_nat (length secs))
               (sos_section A ms ps ss0 ss1 pz zs0 zs1 (fun y v => set y py sy i v))
               (my, mz, x) ;;
           ret (my', mz')) (my1, mz1) = Some (my', mz') /\
        (forall i, (i < length l)%nat -> my' (py + (Z.of_nat k + Z.of_nat i) * sy) = nth_error (fst (run secs zs l)) i) /\
        (forall a, (forall i, (i < length l)%nat -> a <> py + (Z.of_nat k + Z.of_nat i) * sy) -> my' a = my1 a) /\
        zrows pz zs0 zs1 mz' 0 (snd (run secs zs l)) /\
        (forall a, outside2 pz zs0 zs1 (length secs) 2 a -> mz' a = mz1 a)).
    { clear HL Vx Vz Wo Ws my mz zs Zo Zd. induction l as [|x l IH]; intros k zs my1 mz1 HLz Hz Ho Hsy.
      - exists my1, mz1. cbn. split; [reflexivity|]. split; [intros; lia|]. split; [auto|]. split; [exact Hz|auto].
      - cbn [liter].
        destruct (sections ms ps ss0 ss1 pz zs0 zs1 (py + Z.of_nat k * sy) (fun y v => set y py sy (Z.of_nat k) v))
          with (secs := secs) (zs := zs) (k := 0) (my := my1) (mz := mz1) (x := x)
          as (my2 & mz2 & E & Hf & Ha & Hzr & Hfz); try assumption.
        + intros v m Hm. apply set_upd. exact Hm.
        + specialize (Ho O ltac:(cbn; lia)). cbn [Z.of_nat] in Ho. rewrite Z.add_0_r in Ho. exact Ho.
        + unfold for_each at 1. rewrite Z.sub_0_r, Nat2Z.id. rewrite E. cbn [bind ret]. unfold ret. cbn [bind].
          cbn [run]. pose proof (samp_length secs zs x HLz) as HLs.
          destruct (samp secs zs x) as [y zs'] eqn:Es. cbn [fst snd] in *.
          assert (Ha' : my2 (py + Z.of_nat k * sy) = Some y) by (rewrite Ha; destruct secs; [congruence|reflexivity]).
          destruct (IH (S k) zs' my2 mz2) as (my' & mz' & E' & Hv & Hfr & Hzr' & Hfz').
          * lia.
          * exact Hzr.
          * intros i Hi. replace (Z.of_nat (S k) + Z.of_nat i) with (Z.of_nat k + Z.of_nat (S i)) by lia.
            rewrite Hf by (destruct Hsy as [Hsy|Hsy]; [nia|cbn [length] in Hsy; lia]).
            apply Ho. cbn [length]. lia.
          * destruct Hsy as [Hsy|Hsy]; [left; exact Hsy|right; cbn [length] in Hsy; lia].
          * exists my', mz'. replace (Z.of_nat k + 1) with (Z.of_nat (S k)) by lia. split; [exact E'|].
            destruct (run secs zs' l) as [ys zf]. cbn [fst snd] in *. split; [|split; [|split]].
            -- intros i Hi. destruct i as [|i]; cbn [nth_error].
               ++ cbn [Z.of_nat]. rewrite Z.add_0_r. rewrite Hfr; [exact Ha'|].
                  intros i Hi'. destruct Hsy as [Hsy|Hsy]; [nia|cbn [length] in Hsy; lia].
               ++ replace (Z.of_nat k + Z.of_nat (S i)) with (Z.of_nat (S k) + Z.of_nat i) by lia.
                  apply Hv. cbn [length] in Hi. lia.
            -- intros a Hout. rewrite Hfr.
               ++ apply Hf. specialize (Hout O ltac:(cbn; lia)). cbn [Z.of_nat] in Hout. rewrite ?(Z.add_0_r k), ?(Z.add_0_r (Z.of_nat k)) in Hout. exact Hout.
               ++ intros i Hi. replace (Z.of_nat (S k) + Z.of_nat i) with (Z.of_nat k + Z.of_nat (S i)) by lia.
                  apply Hout. cbn [length]. lia.
            -- exact Hzr'.
            -- intros a Hout. rewrite Hfz' by exact Hout. apply Hfz. intros i j Hi Hj. unfold za. rewrite Z.add_0_l.
               destruct Hj as [-> | ->]; [apply (Hout i 0%nat Hi); lia|apply (Hout i 1%nat Hi); lia]. }
    destruct (G xs O zs my mz) as (my' & mz' & E & Hv & Hf & Hz & Hfz); try assumption.
    - intros i z Hi. unfold za. rewrite Z.add_0_l.
      assert (Hr : nth_error (map st_row zs) i = Some (st_row z)) by (apply map_nth_error; exact Hi).
      split; [apply (Vz i 0%nat _ _ Hr)|apply (Vz i 1%nat _ _ Hr)]; reflexivity.
    - exists my', mz'. split; [exact E|]. split; split.
      + intros i Hi. rewrite run_length in Hi. apply (Hv i Hi).
      + intros a Ho. rewrite run_length in Ho. apply Hf. intros i Hi. apply (Ho i Hi).
      + intros i j row v Hi Hj. rewrite nth_error_map in Hi.
        destruct (nth_error (snd (run secs zs xs)) i) as [z|] eqn:Ei; cbn in Hi; [|discriminate]. injection Hi as <-.
        destruct (Hz i z Ei) as [H0 H1]. unfold za in H0, H1. rewrite Z.add_0_l in H0, H1.
        destruct j as [|[|j]]; cbn [nth_error st_row] in Hj.
        * injection Hj as <-. exact H0.
        * injection Hj as <-. exact H1.
        * destruct j; discriminate.
      + intros a Ho. rewrite map_length, run_length_z in Ho by exact HL. apply Hfz. exact Ho.
  Qed.

  (** the two paths of the strided core are the same loop *)
  Lemma ic_core_none sz m n ms ps ss0 ss1 mx px sx my py sy mz pz zs0 zs1 :
    sosfilter_ic_core A sz m n ms ps ss0 ss1 mx px sx None my py sy mz pz zs0 zs1 =
    sos_outer m n ms ps ss0 ss1 mx px sx my py sy mz pz zs0 zs1.
  Proof.
    unfold sosfilter_ic_core, sos_outer. cbn [bind ret]. unfold ret. cbn [bind].
    destruct ((sx =? sz) && (sy =? sz)) eqn:E; [|reflexivity].
    apply andb_true_iff in E. destruct E as [E1 E2]. apply Z.eqb_eq in E1, E2. subst sx sy. reflexivity.
  Qed.
  Lemma ic_core_some sz m n ms ps ss0 ss1 mx px sx mi pi is0 is1 my py sy mz pz zs0 zs1 :
    sosfilter_ic_core A sz m n ms ps ss0 ss1 mx px sx (Some (mi, pi, is0, is1)) my py sy mz pz zs0 zs1 =
    (mz1 <- for_each 0 m
                 (fun k z =>
                    value <- get2d mi pi is0 is1 k 0 ;;
                    z1 <- set2d z pz zs0 zs1 k 0 value ;;
                    value <- get2d mi pi is0 is1 k 1 ;;
                    set2d z1 pz zs0 zs1 k 1 value) mz ;;
     sos_outer m n ms ps ss0 ss1 mx px sx my py sy mz1 pz zs0 zs1).
  Proof.
    unfold sosfilter_ic_core, sos_outer.
    destruct (for_each 0 m _ mz) as [mz1|]; cbn [bind]; [|reflexivity].
    destruct ((sx =? sz) && (sy =? sz)) eqn:E; [|reflexivity].
    apply andb_true_iff in E. destruct E as [E1 E2]. apply Z.eqb_eq in E1, E2. subst sx sy. reflexivity.
  Qed.

  (** copying the initial state *)
  Lemma copy_rows mi pi is0 is1 pz zs0 zs1 zs : forall k (mz : mem T),
    (forall i z, nth_error zs i = Some z ->
       mi (pi + (k + Z.of_nat i) * is0 + 0 * is1) = Some (fst z) /\
       mi (pi + (k + Z.of_nat i) * is0 + 1 * is1) = Some (snd z)) ->
    (forall i j, (i < length zs)%nat -> (j = 0 \/ j = 1) -> mz (za pz zs0 zs1 (k + Z.of_nat i) j) <> None) ->
    (forall i i' j j', (i < length zs)%nat -> (i' < length zs)%nat ->
         (j = 0 \/ j = 1) -> (j' = 0 \/ j' = 1) ->
         za pz zs0 zs1 (k + Z.of_nat i) j = za pz zs0 zs1 (k + Z.of_nat i') j' -> i = i' /\ j = j') ->
    exists mz', iter_from (length zs) k
                 (fun k z =>
                    value <- get2d mi pi is0 is1 k 0 ;;
                    z1 <- set2d z pz zs0 zs1 k 0 value ;;
                    value <- get2d mi pi is0 is1 k 1 ;;
                    set2d z1 pz zs0 zs1 k 1 value) mz = Some mz' /\
      zrows pz zs0 zs1 mz' k zs /\
      (forall a, (forall i j, (i < length zs)%nat -> (j = 0 \/ j = 1) -> a <> za pz zs0 zs1 (k + Z.of_nat i) j) -> mz' a = mz a).
  Proof.
    induction zs as [|z zs IH]; intros k mz Hi Ho Hd.
    - exists mz. cbn. split; [reflexivity|]. split; [|auto]. intros i z H. destruct i; discriminate.
    - cbn [length iter_from].
      pose proof (Hi O z eq_refl) as H0. cbn [Z.of_nat] in H0. rewrite (Z.add_0_r k) in H0. destruct H0 as [V0 V1].
      assert (O0 : mz (za pz zs0 zs1 k 0) <> None).
      { pose proof (Ho O 0 ltac:(cbn; lia) ltac:(auto)) as H. cbn [Z.of_nat] in H. rewrite Z.add_0_r in H. exact H. }
      assert (O1 : mz (za pz zs0 zs1 k 1) <> None).
      { pose proof (Ho O 1 ltac:(cbn; lia) ltac:(auto)) as H. cbn [Z.of_nat] in H. rewrite Z.add_0_r in H. exact H. }
      assert (Hne : za pz zs0 zs1 k 0 <> za pz zs0 zs1 k 1).
      { intros E. destruct (Hd O O 0 1) as [_ H]; cbn [length Z.of_nat]; try lia. rewrite Z.add_0_r. exact E. }
      assert (Estep : (value <- get2d mi pi is0 is1 k 0 ;;
                    z1 <- set2d mz pz zs0 zs1 k 0 value ;;
                    value <- get2d mi pi is0 is1 k 1 ;;
                    set2d z1 pz zs0 zs1 k 1 value) =
                    Some (upd (upd mz (za pz zs0 zs1 k 0) (fst z)) (za pz zs0 zs1 k 1) (snd z))).
      { unfold get2d, set2d, load, store. fold (za pz zs0 zs1 k 0). fold (za pz zs0 zs1 k 1).
        rewrite V0. cbn [bind]. destruct (mz (za pz zs0 zs1 k 0)) as [q|]; [|congruence]. cbn [bind]. rewrite V1. cbn [bind].
        destruct (Z.eqb_spec (za pz zs0 zs1 k 1) (za pz zs0 zs1 k 0)) as [E|_]; [congruence|].
        destruct (mz (za pz zs0 zs1 k 1)); [reflexivity|congruence]. }
      rewrite Estep. cbn [bind]. clear Estep.
      set (mz1 := upd (upd mz (za pz zs0 zs1 k 0) (fst z)) (za pz zs0 zs1 k 1) (snd z)).
      assert (Hother : forall a, a <> za pz zs0 zs1 k 0 -> a <> za pz zs0 zs1 k 1 -> mz1 a = mz a).
      { intros a H0 H1. unfold mz1. rewrite !upd_other by assumption. reflexivity. }
      assert (Hnext : forall i j, (i < length zs)%nat -> j = 0 \/ j = 1 ->
                 za pz zs0 zs1 (k + 1 + Z.of_nat i) j <> za pz zs0 zs1 k 0 /\ za pz zs0 zs1 (k + 1 + Z.of_nat i) j <> za pz zs0 zs1 k 1).
      { intros i j Hi' Hj. replace (k + 1 + Z.of_nat i) with (k + Z.of_nat (S i)) by lia.
        split; intros E.
        - destruct (Hd (S i) O j 0) as [H _]; cbn [length Z.of_nat]; try lia. rewrite Z.add_0_r. exact E.
        - destruct (Hd (S i) O j 1) as [H _]; cbn [length Z.of_nat]; try lia. rewrite Z.add_0_r. exact E. }
      destruct (IH (k + 1) mz1) as (mz' & E & Hr & Hf).
      + intros i z0 Hz. replace (k + 1 + Z.of_nat i) with (k + Z.of_nat (S i)) by lia. apply (Hi (S i) z0 Hz).
      + intros i j Hl Hj. rewrite Hother by (apply Hnext; assumption).
        replace (k + 1 + Z.of_nat i) with (k + Z.of_nat (S i)) by lia. apply Ho; [cbn [length]; lia|exact Hj].
      + intros i i' j j' Hl Hl' Hj Hj' E.
        destruct (Hd (S i) (S i') j j') as [H1 H2]; cbn [length]; try lia; try assumption.
        replace (k + Z.of_nat (S i)) with (k + 1 + Z.of_nat i) by lia.
        replace (k + Z.of_nat (S i')) with (k + 1 + Z.of_nat i') by lia. exact E.
      + exists mz'. split; [exact E|]. split.
        * intros i z0 Hz. destruct i as [|i]; cbn [nth_error] in Hz.
          -- injection Hz as <-. cbn [Z.of_nat]. rewrite Z.add_0_r. rewrite !Hf.
             ++ unfold mz1. rewrite upd_same, upd_other, upd_same by exact Hne. auto.
             ++ intros i j Hl Hj Ee. apply (proj2 (Hnext i j Hl Hj)). auto.
             ++ intros i j Hl Hj Ee. apply (proj1 (Hnext i j Hl Hj)). auto.
          -- replace (k + Z.of_nat (S i)) with (k + 1 + Z.of_nat i) by lia. apply Hr. exact Hz.
        * intros a Hout. rewrite Hf.
          -- apply Hother.
             ++ specialize (Hout O 0 ltac:(cbn; lia) ltac:(auto)). cbn [Z.of_nat] in Hout. rewrite ?(Z.add_0_r k), ?(Z.add_0_r (Z.of_nat k)) in Hout. exact Hout.
             ++ specialize (Hout O 1 ltac:(cbn; lia) ltac:(auto)). cbn [Z.of_nat] in Hout. rewrite ?(Z.add_0_r k), ?(Z.add_0_r (Z.of_nat k)) in Hout. exact Hout.
          -- intros i j Hl Hj. replace (k + 1 + Z.of_nat i) with (k + Z.of_nat (S i)) by lia.
             apply Hout; [cbn [length]; lia|exact Hj].
  Qed.

  Lemma zrows_view2 pz zs0 zs1 m zs : zrows pz zs0 zs1 m 0 zs -> view2 m pz zs0 zs1 (map st_row zs).
  Proof.
    intros Hz i j row v Hi Hj. rewrite nth_error_map in Hi.
    destruct (nth_error zs i) as [z|] eqn:Ei; cbn in Hi; [|discriminate]. injection Hi as <-.
    destruct (Hz i z Ei) as [H0 H1]. unfold za in H0, H1. rewrite Z.add_0_l in H0, H1.
    destruct j as [|[|j]]; cbn [nth_error st_row] in Hj.
    - injection Hj as <-. exact H0.
    - injection Hj as <-. exact H1.
    - destruct j; discriminate.
  Qed.

  Theorem sosfilter_ic_correct sz ms ps ss0 ss1 mx px sx mi pi is0 is1 my py sy mz pz zs0 zs1 secs zs xs :
    secs <> [] -> length zs = length secs ->
    view2 ms ps ss0 ss1 (map sec_row secs) -> view mx px sx xs -> view2 mi pi is0 is1 (map st_row zs) ->
    writable my py sy (length xs) -> writable2 mz pz zs0 zs1 (length secs) 2 ->
    exists my' mz',
      sosfilter_ic_core A sz (Z.of_nat (length secs)) (Z.of_nat (length xs)) ms ps ss0 ss1 mx px sx
        (Some (mi, pi, is0, is1)) my py sy mz pz zs0 zs1 = Some (my', mz') /\
      wrote my my' py sy (fst (cascade A secs zs xs)) /\
      wrote2 mz mz' pz zs0 zs1 2 (map st_row (snd (cascade A secs zs xs))).
  Proof.
    intros Hne HL Vs Vx Vi Wy Wz. rewrite ic_core_some. rewrite <- run_cascade by exact HL.
    destruct Wz as [Zo Zd].
    destruct (copy_rows mi pi is0 is1 pz zs0 zs1 zs 0 mz) as (mz1 & E & Hr & Hf).
    - intros i z Hi. rewrite Z.add_0_l.
      assert (Hr : nth_error (map st_row zs) i = Some (st_row z)) by (apply map_nth_error; exact Hi).
      split; [apply (Vi i 0%nat _ _ Hr)|apply (Vi i 1%nat _ _ Hr)]; reflexivity.
    - intros i j Hi Hj. unfold za. rewrite Z.add_0_l. rewrite HL in Hi.
      destruct Hj as [-> | ->]; [apply (Zo i 0%nat Hi)|apply (Zo i 1%nat Hi)]; lia.
    - intros i i' j j' Hi Hi' Hj Hj' Ee. unfold za in Ee. rewrite !Z.add_0_l in Ee.
      destruct (Zd i (Z.to_nat j) i' (Z.to_nat j')) as [H1 H2]; try lia; rewrite !Z2Nat.id by lia; exact Ee.
    - unfold for_each at 1. rewrite Z.sub_0_r, Nat2Z.id. rewrite HL in E. rewrite E. cbn [bind].
      destruct (sos_outer_correct ms ps ss0 ss1 mx px sx my py sy mz1 pz zs0 zs1 secs zs xs) as (my' & mz' & E2 & W1 & W2); try assumption.
      + apply zrows_view2. exact Hr.
      + split; [|exact Zd]. intros i j Hi Hj.
        destruct (nth_error zs i) as [z|] eqn:Ez; [|apply nth_error_None in Ez; lia].
        destruct (Hr i z Ez) as [H0 H1]. unfold za in H0, H1. rewrite Z.add_0_l in H0, H1.
        destruct j as [|[|j]]; [change (Z.of_nat 0) with 0; rewrite H0|change (Z.of_nat 1) with 1; rewrite H1|lia]; discriminate.
      + exists my', mz'. split; [exact E2|]. split; [exact W1|]. destruct W2 as [V2 F2]. split; [exact V2|].
        intros a Ho. rewrite F2 by exact Ho. apply Hf. intros i j Hi Hj.
        rewrite map_length, run_length_z in Ho by exact HL. unfold za. rewrite Z.add_0_l. rewrite HL in Hi.
        destruct Hj as [-> | ->]; [apply (Ho i 0%nat Hi); lia|apply (Ho i 1%nat Hi); lia].
  Qed.

  (** contiguous core: same addresses *)
  Lemma section_contig_eq sz ms ps pz py i k st :
    sos_section_contig A sz ms ps pz py i k st =
    sos_section A ms ps (6 * sz) sz pz (2 * sz) sz (fun y v => set y py sz i v) k st.
  Proof.
    destruct st as [[my mz] x]. unfold sos_section_contig, sos_section, get2d, set2d, set.
    repeat match goal with |- context [(6 * k + ?j) * sz] =>
      replace (ps + (6 * k + j) * sz) with (ps + k * (6 * sz) + j * sz) by ring end.
    repeat match goal with |- context [(2 * k + ?j) * sz] =>
      replace (pz + (2 * k + j) * sz) with (pz + k * (2 * sz) + j * sz) by ring end.
    reflexivity.
  Qed.

  Lemma contig_outer sz m n ms ps mx px my py mz pz :
    sosfilter_ic_contig_core A sz m n ms ps mx px None my py mz pz =
    sos_outer m n ms ps (6 * sz) sz mx px sz my py sz mz pz (2 * sz) sz.
  Proof.
    unfold sosfilter_ic_contig_core, sos_outer. unfold ret. cbn [bind].
    apply for_each_ext. intros k [y z] _. unfold get. destruct (load mx (px + k * sz)) as [x|]; cbn [bind]; [|reflexivity].
    rewrite (for_each_ext 0 m (sos_section_contig A sz ms ps pz py k)
       (sos_section A ms ps (6 * sz) sz pz (2 * sz) sz (fun y v => set y py sz k v))); [reflexivity|].
    intros k' st _. apply section_contig_eq.
  Qed.
End Any.

(** ** sosfilter_core: zero initial state *)
Section Zero.
  Context {T : Type} (A : arith T).
  Notation zero := (a_ofZ A 0).

  Lemma nth_error_repeat' {X} (x : X) n k : (k < n)%nat -> nth_error (repeat x n) k = Some x.
  Proof. revert k. induction n as [|n IH]; intros k H; [lia|]. destruct k; [reflexivity|]. cbn. apply IH. lia. Qed.

  Lemma calloc_at sz m a : 0 < sz -> 0 <= a < 2 * m -> calloc A sz m (a * sz) = Some zero.
  Proof.
    intros Hs Ha. unfold calloc, mem_of. rewrite Z.sub_0_r.
    replace (a * sz <? 0) with false by (symmetry; apply Z.ltb_ge; nia).
    rewrite Z.mod_mul, Z.div_mul by lia. change (0 =? 0) with true. cbn [negb orb]. apply nth_error_repeat'. lia.
  Qed.

  Lemma calloc_view2 sz n : 0 < sz ->
    view2 (calloc A sz (Z.of_nat n)) 0 (2 * sz) sz (map st_row (repeat (zero, zero) n)).
  Proof.
    intros Hs i j row x Hi Hj. rewrite nth_error_map in Hi.
    assert (Hl : (i < n)%nat).
    { destruct (nth_error (repeat (zero, zero) n) i) eqn:E; [|discriminate].
      assert (i < length (repeat (zero, zero) n))%nat by (apply nth_error_Some; congruence). rewrite repeat_length in *. lia. }
    rewrite nth_error_repeat' in Hi by exact Hl. cbn in Hi. injection Hi as <-.
    assert (Hj2 : (j < 2)%nat) by (apply (nth_error_Some [zero; zero] j); unfold st_row in Hj; cbn [fst snd] in Hj; congruence).
    replace (0 + Z.of_nat i * (2 * sz) + Z.of_nat j * sz) with ((2 * Z.of_nat i + Z.of_nat j) * sz) by ring.
    rewrite calloc_at by lia. destruct j as [|[|j]]; cbn in Hj; [exact Hj|exact Hj|lia].
  Qed.

  Lemma calloc_writable2 sz n : 0 < sz ->
    writable2 (calloc A sz (Z.of_nat n)) 0 (2 * sz) sz n 2.
  Proof.
    intros Hs. split.
    - intros i j Hi Hj. replace (0 + Z.of_nat i * (2 * sz) + Z.of_nat j * sz) with ((2 * Z.of_nat i + Z.of_nat j) * sz) by ring.
      rewrite calloc_at by lia. discriminate.
    - intros i j i' j' Hi Hj Hi' Hj' E.
      assert (E' : (2 * Z.of_nat i + Z.of_nat j) * sz = (2 * Z.of_nat i' + Z.of_nat j') * sz) by lia.
      apply Z.mul_reg_r in E'; lia.
  Qed.

  Theorem sosfilter_correct sz ms ps ss0 ss1 mx px sx mo po so secs xs :
    0 < sz -> secs <> [] ->
    view2 ms ps ss0 ss1 (map sec_row secs) -> view mx px sx xs -> writable mo po so (length xs) ->
    writes (sosfilter_core A sz (Z.of_nat (length secs)) (Z.of_nat (length xs)) ms ps ss0 ss1 mx px sx mo po so)
      mo po so (fst (cascade A secs (repeat (zero, zero) (length secs)) xs)).
  Proof.
    intros Hs Hne Vs Vx Wo. unfold sosfilter_core.
    assert (E : (if (ss0 =? 6 * sz) && (ss1 =? sz) && (sx =? sz) && (so =? sz)
          then sosfilter_ic_contig_core A sz (Z.of_nat (length secs)) (Z.of_nat (length xs)) ms ps mx px None mo po (calloc A sz (Z.of_nat (length secs))) 0
          else sosfilter_ic_core A sz (Z.of_nat (length secs)) (Z.of_nat (length xs)) ms ps ss0 ss1 mx px sx None mo po so (calloc A sz (Z.of_nat (length secs))) 0 (2 * sz) sz)
      = sos_outer A (Z.of_nat (length secs)) (Z.of_nat (length xs)) ms ps ss0 ss1 mx px sx mo po so (calloc A sz (Z.of_nat (length secs))) 0 (2 * sz) sz).
    { rewrite contig_outer, ic_core_none.
      destruct ((ss0 =? 6 * sz) && (ss1 =? sz) && (sx =? sz) && (so =? sz)) eqn:E; [|reflexivity].
      rewrite !andb_true_iff in E. destruct E as (((E1 & E2) & E3) & E4).
      apply Z.eqb_eq in E1, E2, E3, E4. subst. reflexivity. }
    rewrite E. clear E.
    destruct (sos_outer_correct A ms ps ss0 ss1 mx px sx mo po so (calloc A sz (Z.of_nat (length secs))) 0 (2 * sz) sz
               secs (repeat (zero, zero) (length secs)) xs) as (my' & mz' & E & W & _); try assumption.
    - apply repeat_length.
    - apply calloc_view2. exact Hs.
    - apply calloc_writable2. exact Hs.
    - rewrite E. cbn [bind fst]. exists my'. split; [reflexivity|].
      rewrite <- run_cascade by apply repeat_length. exact W.
  Qed.

  (** ** the contiguous gufunc, with its memcpy *)
  Fixpoint flat (zs : list (T * T)) : list T :=
    match zs with [] => [] | z :: zs' => fst z :: snd z :: flat zs' end.
  Lemma flat_length zs : length (flat zs) = (2 * length zs)%nat.
  Proof. induction zs as [|z zs IH]; [reflexivity|]. cbn. lia. Qed.
  Lemma flat_nth zs : forall i z, nth_error zs i = Some z ->
    nth_error (flat zs) (2 * i) = Some (fst z) /\ nth_error (flat zs) (2 * i + 1) = Some (snd z).
  Proof.
    induction zs as [|z0 zs IH]; intros i z Hi; [destruct i; discriminate|].
    destruct i as [|i]; cbn [nth_error] in Hi.
    - injection Hi as <-. split; reflexivity.
    - destruct (IH i z Hi) as [H0 H1].
      replace (2 * S i)%nat with (S (S (2 * i))) by lia. replace (S (S (2 * i)) + 1)%nat with (S (S (2 * i + 1))) by lia.
      split; [exact H0|exact H1].
  Qed.
  Lemma flat_view mi pi sz zs : view2 mi pi (2 * sz) sz (map st_row zs) -> view mi pi sz (flat zs).
  Proof.
    intros V k Hk. rewrite flat_length in Hk.
    set (i := Nat.div2 k). assert (Ei : k = (2 * i)%nat \/ k = (2 * i + 1)%nat).
    { unfold i. pose proof (Nat.div2_odd k) as H. destruct (Nat.odd k); cbn [Nat.b2n] in H; lia. }
    assert (Hi : (i < length zs)%nat) by lia.
    destruct (nth_error zs i) as [z|] eqn:Ez; [|apply nth_error_None in Ez; lia].
    assert (Hr : nth_error (map st_row zs) i = Some (st_row z)) by (apply map_nth_error; exact Ez).
    destruct (flat_nth zs i z Ez) as [F0 F1].
    clearbody i. destruct Ei as [-> | ->].
    - rewrite F0. replace (pi + Z.of_nat (2 * i) * sz) with (pi + Z.of_nat i * (2 * sz) + Z.of_nat 0 * sz) by lia.
      apply (V i 0%nat _ _ Hr). reflexivity.
    - rewrite F1. replace (pi + Z.of_nat (2 * i + 1) * sz) with (pi + Z.of_nat i * (2 * sz) + Z.of_nat 1 * sz) by lia.
      apply (V i 1%nat _ _ Hr). reflexivity.
  Qed.

  Theorem sosfilter_ic_contig_correct sz ms ps mx px mi pi my py mz pz secs zs xs :
    0 < sz -> secs <> [] -> length zs = length secs ->
    view2 ms ps (6 * sz) sz (map sec_row secs) -> view mx px sz xs -> view2 mi pi (2 * sz) sz (map st_row zs) ->
    writable my py sz (length xs) -> writable2 mz pz (2 * sz) sz (length secs) 2 ->
    exists my' mz',
      sosfilter_ic_contig_core A sz (Z.of_nat (length secs)) (Z.of_nat (length xs)) ms ps mx px
        (Some (mi, pi)) my py mz pz = Some (my', mz') /\
      wrote my my' py sz (fst (cascade A secs zs xs)) /\
      wrote2 mz mz' pz (2 * sz) sz 2 (map st_row (snd (cascade A secs zs xs))).
  Proof.
    intros Hs Hne HL Vs Vx Vi Wy [Zo Zd].
    assert (Ecp : for_each 0 (2 * Z.of_nat (length secs))
              (fun k z => v <- load mi (pi + k * sz) ;; store z (pz + k * sz) v) mz = Some (upds mz pz sz 0 (flat zs))).
    { replace (2 * Z.of_nat (length secs)) with (Z.of_nat (length (flat zs))) by (rewrite flat_length; lia).
      rewrite (for_each_view mi pi sz (flat zs) _ (fun k v z => set z pz sz k v) mz (flat_view mi pi sz zs Vi)).
      2:{ intros k m v _ Hg. unfold get in Hg. rewrite Hg. reflexivity. }
      assert (Ho : forall i, (i < length (flat zs))%nat -> mz (pz + (0 + Z.of_nat i) * sz) <> None).
      { intros k Hk. rewrite flat_length in Hk. set (i := Nat.div2 k).
        assert (Ei : k = (2 * i)%nat \/ k = (2 * i + 1)%nat).
        { unfold i. pose proof (Nat.div2_odd k) as H. destruct (Nat.odd k); cbn [Nat.b2n] in H; lia. }
        destruct Ei as [Ek|Ek].
        - replace (pz + (0 + Z.of_nat k) * sz) with (pz + Z.of_nat i * (2 * sz) + Z.of_nat 0 * sz) by lia. apply Zo; lia.
        - replace (pz + (0 + Z.of_nat k) * sz) with (pz + Z.of_nat i * (2 * sz) + Z.of_nat 1 * sz) by lia. apply Zo; lia. }
      revert Ho. generalize 0. generalize mz. generalize (flat zs). clear.
      induction l as [|v l IH]; intros m k Ho; [reflexivity|]. cbn [liter upds].
      rewrite set_upd.
      2:{ specialize (Ho O ltac:(cbn; lia)). rewrite Z.add_0_r in Ho. exact Ho. }
      cbn [bind]. apply IH. intros i Hi. unfold upd. destruct (_ =? _); [discriminate|].
      specialize (Ho (S i) ltac:(cbn [length]; lia)). replace (k + 1 + Z.of_nat i) with (k + Z.of_nat (S i)) by lia. exact Ho. }
    assert (Wup : wrote mz (upds mz pz sz 0 (flat zs)) pz sz (flat zs)) by (apply upds_wrote; left; lia).
    destruct Wup as [Vup Fup].
    assert (Vz : view2 (upds mz pz sz 0 (flat zs)) pz (2 * sz) sz (map st_row zs)).
    { apply zrows_view2. intros i z Hi. unfold za. rewrite Z.add_0_l.
      destruct (flat_nth zs i z Hi) as [F0 F1].
      assert (Hil : (i < length zs)%nat) by (apply nth_error_Some; congruence).
      split.
      - replace (pz + Z.of_nat i * (2 * sz) + 0 * sz) with (pz + Z.of_nat (2 * i) * sz) by lia.
        rewrite Vup by (rewrite flat_length; lia). exact F0.
      - replace (pz + Z.of_nat i * (2 * sz) + 1 * sz) with (pz + Z.of_nat (2 * i + 1) * sz) by lia.
        rewrite Vup by (rewrite flat_length; lia). exact F1. }
    assert (E : sosfilter_ic_contig_core A sz (Z.of_nat (length secs)) (Z.of_nat (length xs)) ms ps mx px
        (Some (mi, pi)) my py mz pz =
        sosfilter_ic_contig_core A sz (Z.of_nat (length secs)) (Z.of_nat (length xs)) ms ps mx px None my py
          (upds mz pz sz 0 (flat zs)) pz).
    { unfold sosfilter_ic_contig_core. unfold mem in Ecp |- *. rewrite Ecp. reflexivity. }
    rewrite E, contig_outer. clear E.
    destruct (sos_outer_correct A ms ps (6 * sz) sz mx px sz my py sz (upds mz pz sz 0 (flat zs)) pz (2 * sz) sz secs zs xs)
      as (my' & mz' & E2 & W1 & W2); try assumption.
    - split; [|exact Zd]. intros i j Hi Hj.
      assert (Hr : exists z, nth_error zs i = Some z).
      { destruct (nth_error zs i) eqn:Ez; [eauto|apply nth_error_None in Ez; lia]. }
      destruct Hr as [z Hr]. pose proof (map_nth_error st_row i zs Hr) as Hr'.
      destruct j as [|[|j]]; [rewrite (Vz i 0%nat _ (fst z) Hr')|rewrite (Vz i 1%nat _ (snd z) Hr')|lia]; try reflexivity; discriminate.
    - exists my', mz'. split; [exact E2|]. rewrite <- run_cascade by exact HL. split; [exact W1|].
      destruct W2 as [V2 F2]. split; [exact V2|]. intros a Ho. rewrite F2 by exact Ho. apply Fup.
      intros k Hk. rewrite map_length, run_length_z in Ho by exact HL. rewrite flat_length in Hk.
      set (i := Nat.div2 k). assert (Ei : k = (2 * i)%nat \/ k = (2 * i + 1)%nat).
      { unfold i. pose proof (Nat.div2_odd k) as H. destruct (Nat.odd k); cbn [Nat.b2n] in H; lia. }
      destruct Ei as [Ek|Ek].
      + pose proof (Ho i 0%nat ltac:(lia) ltac:(lia)). lia.
      + pose proof (Ho i 1%nat ltac:(lia) ltac:(lia)). lia.
  Qed.

  (** filtering in blocks: the final state of the first block is the initial state of the second *)
  Theorem sosfilter_ic_chunks sz ms ps ss0 ss1 secs zs
      mx1 px1 sx1 xs1 mx2 px2 sx2 xs2 mx px sx mi pi is0 is1
      my1 py1 sy1 my2 py2 sy2 my py sy mz1 pz1 z1s0 z1s1 mz2 pz2 z2s0 z2s1 mz pz zs0 zs1 :
    secs <> [] -> length zs = length secs ->
    view2 ms ps ss0 ss1 (map sec_row secs) -> view2 mi pi is0 is1 (map st_row zs) ->
    view mx1 px1 sx1 xs1 -> view mx2 px2 sx2 xs2 -> view mx px sx (xs1 ++ xs2) ->
    writable my1 py1 sy1 (length xs1) -> writable my2 py2 sy2 (length xs2) -> writable my py sy (length (xs1 ++ xs2)) ->
    writable2 mz1 pz1 z1s0 z1s1 (length secs) 2 -> writable2 mz2 pz2 z2s0 z2s1 (length secs) 2 ->
    writable2 mz pz zs0 zs1 (length secs) 2 ->
    exists my1' mz1' my2' mz2' my' mz' ys1 ys2 zf,
      sosfilter_ic_core A sz (Z.of_nat (length secs)) (Z.of_nat (length xs1)) ms ps ss0 ss1 mx1 px1 sx1
        (Some (mi, pi, is0, is1)) my1 py1 sy1 mz1 pz1 z1s0 z1s1 = Some (my1', mz1') /\
      sosfilter_ic_core A sz (Z.of_nat (length secs)) (Z.of_nat (length xs2)) ms ps ss0 ss1 mx2 px2 sx2
        (Some (mz1', pz1, z1s0, z1s1)) my2 py2 sy2 mz2 pz2 z2s0 z2s1 = Some (my2', mz2') /\
      sosfilter_ic_core A sz (Z.of_nat (length secs)) (Z.of_nat (length (xs1 ++ xs2))) ms ps ss0 ss1 mx px sx
        (Some (mi, pi, is0, is1)) my py sy mz pz zs0 zs1 = Some (my', mz') /\
      length ys1 = length xs1 /\ length ys2 = length xs2 /\ length zf = length secs /\
      view my1' py1 sy1 ys1 /\ view my2' py2 sy2 ys2 /\ view my' py sy (ys1 ++ ys2) /\
      view2 mz2' pz2 z2s0 z2s1 (map st_row zf) /\ view2 mz' pz zs0 zs1 (map st_row zf).
  Proof.
    intros Hne HL Vs Vi V1 V2 V W1 W2 W X1 X2 X.
    destruct (sosfilter_ic_correct A sz ms ps ss0 ss1 mx1 px1 sx1 mi pi is0 is1 my1 py1 sy1 mz1 pz1 z1s0 z1s1 secs zs xs1)
      as (my1' & mz1' & E1 & [Y1 _] & [Z1 _]); try assumption.
    rewrite <- run_cascade in Y1, Z1 by exact HL.
    pose proof (run_app A secs xs1 xs2 zs) as Hrun.
    pose proof (run_length A secs xs1 zs) as L1. pose proof (run_length_z A secs xs1 zs HL) as Lz1.
    destruct (run A secs zs xs1) as [ys1 zm]. cbn [fst snd] in *.
    destruct (sosfilter_ic_correct A sz ms ps ss0 ss1 mx2 px2 sx2 mz1' pz1 z1s0 z1s1 my2 py2 sy2 mz2 pz2 z2s0 z2s1 secs zm xs2)
      as (my2' & mz2' & E2 & [Y2 _] & [Z2 _]); try assumption.
    rewrite <- run_cascade in Y2, Z2 by exact Lz1.
    pose proof (run_length A secs xs2 zm) as L2. pose proof (run_length_z A secs xs2 zm Lz1) as Lz2.
    destruct (run A secs zm xs2) as [ys2 zf]. cbn [fst snd] in *.
    destruct (sosfilter_ic_correct A sz ms ps ss0 ss1 mx px sx mi pi is0 is1 my py sy mz pz zs0 zs1 secs zs (xs1 ++ xs2))
      as (my' & mz' & E & [Y _] & [Z _]); try assumption.
    rewrite <- run_cascade in Y, Z by exact HL. rewrite Hrun in Y, Z. cbn [fst snd] in Y, Z.
    exists my1', mz1', my2', mz2', my', mz', ys1, ys2, zf. auto 15.
  Qed.
End Zero.

(** ** exact arithmetic *)
Definition fz (z : R * R) : ER * ER := (Fin (fst z), Fin (snd z)).

(** difference equation with explicit history *)
Fixpoint deq (s : section R) (x1 x2 y1 y2 : R) (xs ys : list R) : Prop :=
  match xs, ys with
  | [], [] => True
  | x :: xs', y :: ys' =>
      (y = sb0 s * x + sb1 s * x1 + sb2 s * x2 - sa1 s * y1 - sa2 s * y2)%R /\ deq s x x1 y y1 xs' ys'
  | _, _ => False
  end.

Lemma sec_filter_deq s : forall xs x1 x2 y1 y2,
  exists ys zf, sec_filter earith (fsec s)
     (fz (sb1 s * x1 + sb2 s * x2 - sa1 s * y1 - sa2 s * y2, sb2 s * x1 - sa2 s * y1)%R) (map Fin xs) = (map Fin ys, fz zf) /\
    deq s x1 x2 y1 y2 xs ys.
Proof.
  induction xs as [|x xs IH]; intros x1 x2 y1 y2.
  - exists [], (sb1 s * x1 + sb2 s * x2 - sa1 s * y1 - sa2 s * y2, sb2 s * x1 - sa2 s * y1)%R. split; reflexivity.
  - cbn [map sec_filter].
    set (y := (sb0 s * x + sb1 s * x1 + sb2 s * x2 - sa1 s * y1 - sa2 s * y2)%R).
    destruct (IH x x1 y y1) as (ys & zf & E & D).
    exists (y :: ys), zf. split; [|split; [reflexivity|exact D]].
    assert (Es : sec_step earith (fsec s)
        (fz ((sb1 s * x1 + sb2 s * x2 - sa1 s * y1 - sa2 s * y2)%R, (sb2 s * x1 - sa2 s * y1)%R)) (Fin x) =
        (Fin y, fz ((sb1 s * x + sb2 s * x1 - sa1 s * y - sa2 s * y1)%R, (sb2 s * x - sa2 s * y)%R))).
    { unfold sec_step, fz. cbn [fsec sb0 sb1 sb2 sa0 sa1 sa2 fst snd earith a_add a_mul a_sub eadd emul esub eopp].
      repeat apply f_equal2; try (apply f_equal; unfold y; ring). }
    rewrite Es, E. reflexivity.
Qed.

Definition ath (h1 h2 : R) (l : list R) (i d : nat) : R :=
  if (i <? d)%nat then (if (d - i =? 1)%nat then h1 else h2) else nth (i - d) l 0%R.
Lemma deq_index s : forall xs ys x1 x2 y1 y2, deq s x1 x2 y1 y2 xs ys ->
  length ys = length xs /\ forall i, (i < length xs)%nat ->
    (ath y1 y2 ys i 0 = sb0 s * ath x1 x2 xs i 0 + sb1 s * ath x1 x2 xs i 1 + sb2 s * ath x1 x2 xs i 2
                 - sa1 s * ath y1 y2 ys i 1 - sa2 s * ath y1 y2 ys i 2)%R.
Proof.
  induction xs as [|x xs IH]; intros [|y ys] x1 x2 y1 y2 D; cbn [deq] in D; try contradiction.
  - split; [reflexivity|]. intros i Hi. cbn in Hi. lia.
  - destruct D as [D0 D]. destruct (IH ys x x1 y y1 D) as [HL H]. split; [cbn; lia|].
    intros i Hi. destruct i as [|i].
    + cbn. exact D0.
    + specialize (H i ltac:(cbn in Hi; lia)).
      destruct i as [|[|i]].
      * cbn in *. exact H.
      * cbn in *. exact H.
      * assert (Q : forall h1 h2 g1 g2 v l d, (d <= 2)%nat -> ath h1 h2 (v :: l) (S (S (S i))) d = ath g1 g2 l (S (S i)) d).
        { intros h1 h2 g1 g2 v l d Hd. unfold ath.
          replace (S (S (S i)) <? d)%nat with false by (symmetry; apply Nat.ltb_ge; lia).
          replace (S (S i) <? d)%nat with false by (symmetry; apply Nat.ltb_ge; lia).
          replace (S (S (S i)) - d)%nat with (S (S (S i) - d)) by lia. reflexivity. }
        rewrite !(Q y1 y2 y y1) by lia. rewrite !(Q x1 x2 x x1) by lia. exact H.
Qed.

Lemma deq_diff_eq s xs ys : deq s 0 0 0 0 xs ys -> diff_eq s xs ys.
Proof.
  intros D. destruct (deq_index s xs ys 0 0 0 0 D)%R as [HL H]. split; [exact HL|]. intros i Hi.
  assert (Q : forall l d, ath 0 0 l i d = at0 l i d).
  { intros l d. unfold ath, at0. destruct (i <? d)%nat; [destruct (_ =? _)%nat|]; reflexivity. }
  rewrite <- !Q. apply H. exact Hi.
Qed.

Lemma cascade_sos_eq secs : forall xs, exists ys,
  fst (cascade earith (map fsec secs) (repeat (Fin 0, Fin 0) (length secs)) (map Fin xs)) = map Fin ys /\ sos_eq secs xs ys.
Proof.
  induction secs as [|s secs IH]; intros xs.
  - exists xs. split; reflexivity.
  - cbn [map length repeat cascade sos_eq].
    destruct (sec_filter_deq s xs 0 0 0 0)%R as (us & zf & E & D).
    assert (Ez : fz ((sb1 s * 0 + sb2 s * 0 - sa1 s * 0 - sa2 s * 0)%R, (sb2 s * 0 - sa2 s * 0)%R) = (Fin 0, Fin 0)).
    { unfold fz. cbn [fst snd]. f_equal; f_equal; ring. }
    rewrite Ez in E. rewrite E. destruct (IH us) as (ys & E2 & Q).
    destruct (cascade earith (map fsec secs) (repeat (Fin 0, Fin 0) (length secs)) (map Fin us)) as [o z].
    cbn [fst] in *. exists ys. split; [exact E2|]. exists us. split; [apply deq_diff_eq; exact D|exact Q].
Qed.

Theorem sosfilter_exact sz ms ps ss0 ss1 mx px sx mo po so secs xs :
  0 < sz -> secs <> [] ->
  view2 ms ps ss0 ss1 (map sec_row (map fsec secs)) -> view mx px sx (map Fin xs) -> writable mo po so (length xs) ->
  exists ys,
    writes (sosfilter_core earith sz (Z.of_nat (length secs)) (Z.of_nat (length xs)) ms ps ss0 ss1 mx px sx mo po so)
      mo po so (map Fin ys) /\ sos_eq secs xs ys.
Proof.
  intros Hs Hne Vs Vx Wo. destruct (cascade_sos_eq secs xs) as (ys & E & Q). exists ys. split; [|exact Q].
  rewrite <- E.
  replace (length secs) with (length (map fsec secs)) by apply map_length.
  replace (length xs) with (length (map Fin xs)) by apply map_length.
  change (Fin 0) with (a_ofZ earith 0).
  apply sosfilter_correct; try assumption.
  - destruct secs; [congruence|discriminate].
  - rewrite map_length. exact Wo.
Qed.

(** uniqueness and linearity of the specification *)
Lemma diff_eq_unique s x y y' : diff_eq s x y -> diff_eq s x y' -> y = y'.
Proof.
  intros [L1 H1] [L2 H2].
  assert (G : forall i, (i < length x)%nat -> nth i y 0%R = nth i y' 0%R).
  { intros i. induction i as [i IH] using (well_founded_induction lt_wf). intros Hi.
    specialize (H1 i Hi). specialize (H2 i Hi).
    assert (Q : forall d, (d = 1 \/ d = 2)%nat -> at0 y i d = at0 y' i d).
    { intros d Hd. unfold at0. destruct (Nat.ltb_spec i d); [reflexivity|]. apply IH; lia. }
    rewrite (Q 1%nat), (Q 2%nat) in H1 by auto. rewrite <- H1 in H2. unfold at0 in H2.
    cbn in H2. rewrite Nat.sub_0_r in H2. symmetry. exact H2. }
  apply (nth_ext y y' 0%R 0%R); [congruence|]. intros i Hi. apply G. lia.
Qed.
Lemma sos_eq_unique secs : forall x y y', sos_eq secs x y -> sos_eq secs x y' -> y = y'.
Proof.
  induction secs as [|s secs IH]; intros x y y' H1 H2; cbn [sos_eq] in *; [congruence|].
  destruct H1 as (u & D1 & R1). destruct H2 as (u' & D2 & R2).
  assert (u = u') by (eapply diff_eq_unique; eassumption). subst u'. eapply IH; eassumption.
Qed.
Lemma lin_length c1 c2 l1 : forall l2, length l1 = length l2 -> length (lin c1 l1 c2 l2) = length l1.
Proof. induction l1 as [|a l1 IH]; intros [|b l2] H; cbn in *; try lia. rewrite IH; lia. Qed.
Lemma lin_nth c1 c2 l1 : forall l2 i, length l1 = length l2 ->
  (nth i (lin c1 l1 c2 l2) 0 = c1 * nth i l1 0 + c2 * nth i l2 0)%R.
Proof.
  induction l1 as [|a l1 IH]; intros [|b l2] i H; cbn in H; try lia.
  - destruct i; cbn; ring.
  - destruct i; cbn [lin nth]; [reflexivity|]. apply IH. lia.
Qed.
Lemma diff_eq_lin s c1 c2 x1 y1 x2 y2 : length x1 = length x2 -> diff_eq s x1 y1 -> diff_eq s x2 y2 ->
  diff_eq s (lin c1 x1 c2 x2) (lin c1 y1 c2 y2).
Proof.
  intros HL [L1 H1] [L2 H2]. split; [rewrite !lin_length; lia|]. intros i Hi. rewrite lin_length in Hi by exact HL.
  assert (Q : forall l l' d, length l = length l' -> (at0 (lin c1 l c2 l') i d = c1 * at0 l i d + c2 * at0 l' i d)%R).
  { intros l l' d H. unfold at0. destruct (i <? d)%nat; [ring|]. apply lin_nth. exact H. }
  rewrite !Q by lia. specialize (H1 i Hi). specialize (H2 i ltac:(lia)). rewrite H1, H2. ring.
Qed.
Lemma sos_eq_length secs : forall x y, sos_eq secs x y -> length y = length x.
Proof.
  induction secs as [|s secs IH]; intros x y H; cbn [sos_eq] in H; [congruence|].
  destruct H as (u & [L _] & R). apply IH in R. congruence.
Qed.
Lemma sos_eq_lin c1 c2 secs : forall x1 y1 x2 y2, length x1 = length x2 -> sos_eq secs x1 y1 -> sos_eq secs x2 y2 ->
  sos_eq secs (lin c1 x1 c2 x2) (lin c1 y1 c2 y2).
Proof.
  induction secs as [|s secs IH]; intros x1 y1 x2 y2 HL H1 H2; cbn [sos_eq] in *; [congruence|].
  destruct H1 as (u1 & D1 & R1). destruct H2 as (u2 & D2 & R2). exists (lin c1 u1 c2 u2).
  split; [apply diff_eq_lin; assumption|]. apply IH; try assumption. destruct D1, D2. congruence.
Qed.

(** linearity of the gufunc *)
Theorem sosfilter_linear sz ms ps ss0 ss1 secs c1 c2
    mx1 px1 sx1 xs1 mx2 px2 sx2 xs2 mx px sx m1 p1 s1 m2 p2 s2 mo po so :
  0 < sz -> secs <> [] -> length xs1 = length xs2 ->
  view2 ms ps ss0 ss1 (map sec_row (map fsec secs)) ->
  view mx1 px1 sx1 (map Fin xs1) -> view mx2 px2 sx2 (map Fin xs2) -> view mx px sx (map Fin (lin c1 xs1 c2 xs2)) ->
  writable m1 p1 s1 (length xs1) -> writable m2 p2 s2 (length xs2) -> writable mo po so (length xs1) ->
  exists ys1 ys2,
    writes (sosfilter_core earith sz (Z.of_nat (length secs)) (Z.of_nat (length xs1)) ms ps ss0 ss1 mx1 px1 sx1 m1 p1 s1)
      m1 p1 s1 (map Fin ys1) /\
    writes (sosfilter_core earith sz (Z.of_nat (length secs)) (Z.of_nat (length xs2)) ms ps ss0 ss1 mx2 px2 sx2 m2 p2 s2)
      m2 p2 s2 (map Fin ys2) /\
    writes (sosfilter_core earith sz (Z.of_nat (length secs)) (Z.of_nat (length xs1)) ms ps ss0 ss1 mx px sx mo po so)
      mo po so (map Fin (lin c1 ys1 c2 ys2)).
Proof.
  intros Hs Hne HL Vs V1 V2 V W1 W2 W.
  destruct (sosfilter_exact sz ms ps ss0 ss1 mx1 px1 sx1 m1 p1 s1 secs xs1) as (ys1 & E1 & Q1); try assumption.
  destruct (sosfilter_exact sz ms ps ss0 ss1 mx2 px2 sx2 m2 p2 s2 secs xs2) as (ys2 & E2 & Q2); try assumption.
  exists ys1, ys2. split; [exact E1|]. split; [exact E2|].
  assert (HLn : length (lin c1 xs1 c2 xs2) = length xs1) by (apply lin_length; exact HL).
  destruct (sosfilter_exact sz ms ps ss0 ss1 mx px sx mo po so secs (lin c1 xs1 c2 xs2)) as (ys & E & Q); try assumption.
  - rewrite HLn. exact W.
  - rewrite HLn in E. replace (lin c1 ys1 c2 ys2) with ys; [exact E|].
    eapply sos_eq_unique; [exact Q|]. apply sos_eq_lin; assumption.
Qed.

(** ** linearity in the signal and the initial state together *)
Definition rsec_step (s : section R) (z : R * R) (x : R) : R * (R * R) :=
  let y := (sb0 s * x + fst z)%R in
  (y, (snd z + sb1 s * x - sa1 s * y, sb2 s * x - sa2 s * y)%R).
Fixpoint rsec_filter (s : section R) (z : R * R) (xs : list R) : list R * (R * R) :=
  match xs with
  | [] => ([], z)
  | x :: xs' => let '(y, z') := rsec_step s z x in
                let '(ys, zf) := rsec_filter s z' xs' in (y :: ys, zf)
  end.
Fixpoint rcascade (secs : list (section R)) (zs : list (R * R)) (xs : list R) : list R * list (R * R) :=
  match secs, zs with
  | s :: secs', z :: zs' =>
      let '(ys, zf) := rsec_filter s z xs in
      let '(out, zfs) := rcascade secs' zs' ys in (out, zf :: zfs)
  | _, _ => (xs, [])
  end.

Lemma rsec_filter_fin s : forall xs z,
  sec_filter earith (fsec s) (fst_st z) (map Fin xs)
  = (map Fin (fst (rsec_filter s z xs)), fst_st (snd (rsec_filter s z xs))).
Proof.
  induction xs as [|x xs IH]; intros z; [reflexivity|].
  cbn [map sec_filter rsec_filter].
  assert (E : sec_step earith (fsec s) (fst_st z) (Fin x) = (Fin (fst (rsec_step s z x)), fst_st (snd (rsec_step s z x)))) by reflexivity.
  rewrite E. destruct (rsec_step s z x) as [y z'] eqn:E1. cbn [fst snd].
  rewrite IH. destruct (rsec_filter s z' xs) as [ys zf]. reflexivity.
Qed.

Lemma rcascade_fin secs : forall zs xs,
  cascade earith (map fsec secs) (map fst_st zs) (map Fin xs)
  = (map Fin (fst (rcascade secs zs xs)), map fst_st (snd (rcascade secs zs xs))).
Proof.
  induction secs as [|s secs IH]; intros [|z zs] xs; try reflexivity.
  cbn [map cascade rcascade]. rewrite rsec_filter_fin.
  destruct (rsec_filter s z xs) as [ys zf]. cbn [fst snd]. rewrite IH.
  destruct (rcascade secs zs ys) as [o zfs]. reflexivity.
Qed.

Lemma rsec_filter_lin s c1 c2 : forall x1 x2 z1 z2, length x1 = length x2 ->
  rsec_filter s (c1 * fst z1 + c2 * fst z2, c1 * snd z1 + c2 * snd z2)%R (lin c1 x1 c2 x2)
  = (lin c1 (fst (rsec_filter s z1 x1)) c2 (fst (rsec_filter s z2 x2)),
     (c1 * fst (snd (rsec_filter s z1 x1)) + c2 * fst (snd (rsec_filter s z2 x2)),
      c1 * snd (snd (rsec_filter s z1 x1)) + c2 * snd (snd (rsec_filter s z2 x2)))%R).
Proof.
  induction x1 as [|a x1 IH]; intros [|b x2] z1 z2 H; try discriminate; [reflexivity|].
  cbn [lin rsec_filter].
  assert (E : rsec_step s (c1 * fst z1 + c2 * fst z2, c1 * snd z1 + c2 * snd z2)%R (c1 * a + c2 * b)%R
    = (c1 * fst (rsec_step s z1 a) + c2 * fst (rsec_step s z2 b),
       (c1 * fst (snd (rsec_step s z1 a)) + c2 * fst (snd (rsec_step s z2 b)),
        c1 * snd (snd (rsec_step s z1 a)) + c2 * snd (snd (rsec_step s z2 b))))%R).
  { unfold rsec_step. cbn [fst snd]. apply f_equal2; [ring|]. apply f_equal2; ring. }
  rewrite E. destruct (rsec_step s z1 a) as [y1 w1]. destruct (rsec_step s z2 b) as [y2 w2]. cbn [fst snd].
  rewrite IH by (cbn in H; lia).
  destruct (rsec_filter s w1 x1) as [u1 v1]. destruct (rsec_filter s w2 x2) as [u2 v2]. reflexivity.
Qed.

Lemma rsec_filter_length s : forall xs z, length (fst (rsec_filter s z xs)) = length xs.
Proof.
  induction xs as [|x xs IH]; intros z; [reflexivity|]. cbn [rsec_filter].
  destruct (rsec_step s z x) as [y z']. specialize (IH z'). destruct (rsec_filter s z' xs) as [ys zf].
  cbn in *. lia.
Qed.

Lemma rcascade_lin c1 c2 secs : forall zs1 zs2 x1 x2, length x1 = length x2 ->
  length zs1 = length secs -> length zs2 = length secs ->
  rcascade secs (lin2 c1 zs1 c2 zs2) (lin c1 x1 c2 x2)
  = (lin c1 (fst (rcascade secs zs1 x1)) c2 (fst (rcascade secs zs2 x2)),
     lin2 c1 (snd (rcascade secs zs1 x1)) c2 (snd (rcascade secs zs2 x2))).
Proof.
  induction secs as [|s secs IH]; intros [|z1 zs1] [|z2 zs2] x1 x2 H H1 H2; try discriminate; [reflexivity|].
  cbn [lin2 rcascade]. rewrite (rsec_filter_lin s c1 c2 x1 x2 z1 z2 H).
  pose proof (rsec_filter_length s x1 z1) as L1. pose proof (rsec_filter_length s x2 z2) as L2.
  destruct (rsec_filter s z1 x1) as [u1 v1]. destruct (rsec_filter s z2 x2) as [u2 v2]. cbn [fst snd] in *.
  rewrite IH; [|lia|cbn in H1; lia|cbn in H2; lia].
  destruct (rcascade secs zs1 u1) as [o1 f1]. destruct (rcascade secs zs2 u2) as [o2 f2]. reflexivity.
Qed.

Theorem sosfilter_ic_linear sz ms ps ss0 ss1 secs c1 c2
    mx1 px1 sx1 xs1 mx2 px2 sx2 xs2 mx px sx mi1 pi1 i1s0 i1s1 zs1 mi2 pi2 i2s0 i2s1 zs2 mi pi is0 is1
    my1 py1 sy1 my2 py2 sy2 my py sy mz1 pz1 z1s0 z1s1 mz2 pz2 z2s0 z2s1 mz pz zs0 zs1' :
  secs <> [] -> length xs1 = length xs2 -> length zs1 = length secs -> length zs2 = length secs ->
  view2 ms ps ss0 ss1 (map sec_row (map fsec secs)) ->
  view mx1 px1 sx1 (map Fin xs1) -> view mx2 px2 sx2 (map Fin xs2) -> view mx px sx (map Fin (lin c1 xs1 c2 xs2)) ->
  view2 mi1 pi1 i1s0 i1s1 (map st_row (map fst_st zs1)) -> view2 mi2 pi2 i2s0 i2s1 (map st_row (map fst_st zs2)) ->
  view2 mi pi is0 is1 (map st_row (map fst_st (lin2 c1 zs1 c2 zs2))) ->
  writable my1 py1 sy1 (length xs1) -> writable my2 py2 sy2 (length xs2) -> writable my py sy (length xs1) ->
  writable2 mz1 pz1 z1s0 z1s1 (length secs) 2 -> writable2 mz2 pz2 z2s0 z2s1 (length secs) 2 ->
  writable2 mz pz zs0 zs1' (length secs) 2 ->
  exists my1' mz1' my2' mz2' my' mz' ys1 ys2 zf1 zf2,
    sosfilter_ic_core earith sz (Z.of_nat (length secs)) (Z.of_nat (length xs1)) ms ps ss0 ss1 mx1 px1 sx1
      (Some (mi1, pi1, i1s0, i1s1)) my1 py1 sy1 mz1 pz1 z1s0 z1s1 = Some (my1', mz1') /\
    sosfilter_ic_core earith sz (Z.of_nat (length secs)) (Z.of_nat (length xs1)) ms ps ss0 ss1 mx2 px2 sx2
      (Some (mi2, pi2, i2s0, i2s1)) my2 py2 sy2 mz2 pz2 z2s0 z2s1 = Some (my2', mz2') /\
    sosfilter_ic_core earith sz (Z.of_nat (length secs)) (Z.of_nat (length xs1)) ms ps ss0 ss1 mx px sx
      (Some (mi, pi, is0, is1)) my py sy mz pz zs0 zs1' = Some (my', mz') /\
    wrote my1 my1' py1 sy1 (map Fin ys1) /\ wrote2 mz1 mz1' pz1 z1s0 z1s1 2 (map st_row (map fst_st zf1)) /\
    wrote my2 my2' py2 sy2 (map Fin ys2) /\ wrote2 mz2 mz2' pz2 z2s0 z2s1 2 (map st_row (map fst_st zf2)) /\
    wrote my my' py sy (map Fin (lin c1 ys1 c2 ys2)) /\
    wrote2 mz mz' pz zs0 zs1' 2 (map st_row (map fst_st (lin2 c1 zf1 c2 zf2))).
Proof.
  intros Hs Hx Hz1 Hz2 Vs V1 V2 V Vi1 Vi2 Vi W1 W2 W X1 X2 X.
  assert (Hne : map fsec secs <> []) by (destruct secs; [congruence|discriminate]).
  assert (HLz : length (lin2 c1 zs1 c2 zs2) = length secs).
  { rewrite <- Hz1. clear -Hz1 Hz2. rewrite <- Hz2 in Hz1. clear Hz2. revert zs2 Hz1.
    induction zs1 as [|a zs1 IH]; intros [|b zs2] H; try discriminate; [reflexivity|]. cbn. f_equal. apply IH. cbn in H. lia. }
  assert (HLx : length (lin c1 xs1 c2 xs2) = length xs1) by (apply lin_length; exact Hx).
  destruct (sosfilter_ic_correct earith sz ms ps ss0 ss1 mx1 px1 sx1 mi1 pi1 i1s0 i1s1 my1 py1 sy1 mz1 pz1 z1s0 z1s1
              (map fsec secs) (map fst_st zs1) (map Fin xs1)) as (a1 & b1 & E1 & A1 & B1);
    try rewrite !map_length; auto.
  destruct (sosfilter_ic_correct earith sz ms ps ss0 ss1 mx2 px2 sx2 mi2 pi2 i2s0 i2s1 my2 py2 sy2 mz2 pz2 z2s0 z2s1
              (map fsec secs) (map fst_st zs2) (map Fin xs2)) as (a2 & b2 & E2 & A2 & B2);
    try rewrite !map_length; auto.
  destruct (sosfilter_ic_correct earith sz ms ps ss0 ss1 mx px sx mi pi is0 is1 my py sy mz pz zs0 zs1'
              (map fsec secs) (map fst_st (lin2 c1 zs1 c2 zs2)) (map Fin (lin c1 xs1 c2 xs2))) as (a3 & b3 & E3 & A3 & B3);
    try rewrite !map_length; try rewrite HLx; auto.
  rewrite !map_length in E1, E2, E3. rewrite HLx in E3. rewrite <- Hx in E2.
  rewrite rcascade_fin in A1, B1, A2, B2, A3, B3.
  rewrite (rcascade_lin c1 c2 secs zs1 zs2 xs1 xs2 Hx Hz1 Hz2) in A3, B3.
  exists a1, b1, a2, b2, a3, b3, (fst (rcascade secs zs1 xs1)), (fst (rcascade secs zs2 xs2)),
    (snd (rcascade secs zs1 xs1)), (snd (rcascade secs zs2 xs2)).
  repeat split; first [exact E1|exact E2|exact E3|apply A1|apply B1|apply A2|apply B2|apply A3|apply B3].
Qed.

(** Loops that are folds over the elements of one or two arrays. *)
From Coq Require Import ZArith List Bool Lia.
From Verif Require Import CSem CSemP.
Import ListNotations.
Open Scope Z_scope.

Fixpoint foldi {T S} (g : Z -> S -> T -> S) (k : Z) (l : list T) (s : S) : S :=
  match l with
  | [] => s
  | x :: l' => foldi g (k + 1) l' (g k s x)
  end.

Lemma foldi_fold {T S} (g : S -> T -> S) : forall l k s, foldi (fun _ => g) k l s = fold_left g l s.
Proof. induction l as [|x l IH]; intros k s; [reflexivity|]. apply IH. Qed.

Lemma liter_foldi {T S} (g : Z -> S -> T -> S) : forall l k s, liter k l (fun k x s => Some (g k s x)) s = Some (foldi g k l s).
Proof. induction l as [|x l IH]; intros k s; [reflexivity|]. apply IH. Qed.

Lemma for_each_foldi {T S} (m : mem T) p st l (body : Z -> S -> M S) g s :
  view m p st l ->
  (forall k s x, 0 <= k < Z.of_nat (length l) -> get m p st k = Some x -> body k s = Some (g k s x)) ->
  for_each 0 (Z.of_nat (length l)) body s = Some (foldi g 0 l s).
Proof.
  intros V H. rewrite (for_each_view m p st l body (fun k x s => Some (g k s x)) s V).
  - apply liter_foldi.
  - intros k s' x Hk Hg. apply H; [lia|exact Hg].
Qed.

Lemma for_each_fold {T S} (m : mem T) p st l (body : Z -> S -> M S) g s :
  view m p st l ->
  (forall k s x, 0 <= k < Z.of_nat (length l) -> get m p st k = Some x -> body k s = Some (g s x)) ->
  for_each 0 (Z.of_nat (length l)) body s = Some (fold_left g l s).
Proof.
  intros V H. rewrite (for_each_foldi m p st l body (fun _ => g) s V H). rewrite foldi_fold. reflexivity.
Qed.

Lemma for_each_fold2 {T T' S} (m : mem T) p st l (m' : mem T') p' st' l' (body : Z -> S -> M S) g s :
  view m p st l -> view m' p' st' l' -> length l' = length l ->
  (forall k s x y, 0 <= k < Z.of_nat (length l) -> get m p st k = Some x -> get m' p' st' k = Some y ->
     body k s = Some (g s (x, y))) ->
  for_each 0 (Z.of_nat (length l)) body s = Some (fold_left g (combine l l') s).
Proof.
  intros V V' E H.
  assert (EL : length (combine l l') = length l) by (rewrite combine_length, E; apply Nat.min_id).
  rewrite <- EL.
  rewrite (for_each_list (combine l l') body (fun k q s => Some (g s q)) s).
  - transitivity (Some (foldi (fun _ => g) 0 (combine l l') s)).
    + rewrite <- liter_foldi. reflexivity.
    + rewrite foldi_fold. reflexivity.
  - intros k s' [x y] Hn.
    assert (Hk : (k < length l)%nat) by (rewrite <- EL; apply nth_error_Some; congruence).
    destruct (nth_error_combine l l' k x y Hn) as [Ea Eb].
    apply H; [lia|exact (view_get m p st l k x V Ea)|exact (view_get m' p' st' l' k y V' Eb)].
Qed.

(** starting from index 1, the first element being treated separately *)
Lemma for_each_fold_tail {T S} (m : mem T) p st x0 l (body : Z -> S -> M S) g s :
  view m p st (x0 :: l) ->
  (forall k s x, 1 <= k -> get m p st k = Some x -> body k s = Some (g s x)) ->
  for_each 1 (Z.of_nat (length (x0 :: l))) body s = Some (fold_left g l s).
Proof.
  intros V H. rewrite (for_each_tail m p st x0 l body (fun k x s => if 1 <=? k then Some (g s x) else body k s) s V).
  - assert (G : forall l k s, 1 <= k -> liter k l (fun k x s => if 1 <=? k then Some (g s x) else body k s) s = Some (fold_left g l s)).
    { clear. induction l as [|x l IH]; intros k s Hk; [reflexivity|]. cbn [liter].
      replace (1 <=? k) with true by (symmetry; apply Z.leb_le; exact Hk). cbn [bind]. apply IH. lia. }
    apply G. lia.
  - intros k s' x Hg. destruct (1 <=? k) eqn:E; [|reflexivity].
    apply H; [lia|exact Hg].
Qed.

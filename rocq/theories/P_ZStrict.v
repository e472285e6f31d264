(** * P_ZStrict: integer arithmetic that the lazy reduction machine evaluates number by number.
    The functions equal those of the standard library; every tail is reduced before a bit is put in front of it,
    so that the conversion test does not build chains of suspended additions. *)
From Coq Require Import ZArith Reals List Bool Lia Lra.
From Verif Require Import P_ErfcxT.
Import ListNotations.
Open Scope R_scope.

Definition sO (r : positive) : positive := match r with xH => xO r | xO _ => xO r | xI _ => xO r end.
Definition sI (r : positive) : positive := match r with xH => xI r | xO _ => xI r | xI _ => xI r end.
Lemma sO_eq r : sO r = xO r. Proof. now destruct r. Qed.
Lemma sI_eq r : sI r = xI r. Proof. now destruct r. Qed.
Fixpoint sucs (x : positive) : positive := match x with xI p => sO (sucs p) | xO p => xI p | xH => xO xH end.
Fixpoint adds (x y : positive) : positive :=
  match x, y with
  | xI p, xI q => sO (addc p q)
  | xI p, xO q => sI (adds p q)
  | xI p, xH => sO (sucs p)
  | xO p, xI q => sI (adds p q)
  | xO p, xO q => sO (adds p q)
  | xO p, xH => xI p
  | xH, xI q => sO (sucs q)
  | xH, xO q => xI q
  | xH, xH => xO xH
  end
with addc (x y : positive) : positive :=
  match x, y with
  | xI p, xI q => sI (addc p q)
  | xI p, xO q => sO (addc p q)
  | xI p, xH => sI (sucs p)
  | xO p, xI q => sO (addc p q)
  | xO p, xO q => sI (adds p q)
  | xO p, xH => sO (sucs p)
  | xH, xI q => sI (sucs q)
  | xH, xO q => sO (sucs q)
  | xH, xH => xI xH
  end.
Lemma sucs_eq x : sucs x = Pos.succ x.
Proof. induction x; cbn [sucs Pos.succ]; rewrite ?sO_eq, ?IHx; reflexivity. Qed.
Lemma adds_addc x : forall y, adds x y = Pos.add x y /\ addc x y = Pos.add_carry x y.
Proof.
  induction x as [p IH|p IH|]; intros [q|q|]; cbn [adds addc Pos.add Pos.add_carry]; rewrite ?sO_eq, ?sI_eq, ?sucs_eq;
    try (destruct (IH q) as [A B]; rewrite ?A, ?B); split; reflexivity.
Qed.
Fixpoint muls (x y : positive) : positive :=
  match x with xI p => adds y (sO (muls p y)) | xO p => sO (muls p y) | xH => y end.
Lemma muls_eq x y : muls x y = Pos.mul x y.
Proof.
  induction x as [p IH|p IH|]; cbn [muls Pos.mul]; rewrite ?sO_eq, ?IH; [|reflexivity|reflexivity]. apply adds_addc.
Qed.
Fixpoint pforce (p : positive) : bool := match p with xH => true | xO q => pforce q | xI q => pforce q end.
Definition zforce (z : Z) : bool := match z with Z0 => true | Zpos p => pforce p | Zneg p => pforce p end.
Definition psubs (p q : positive) : Z := let s := Z.pos_sub p q in if zforce s then s else s.
(** constructors put on a reduced number *)
Definition sP (r : positive) : Z := match r with xH => Zpos r | xO _ => Zpos r | xI _ => Zpos r end.
Definition sN (r : positive) : Z := match r with xH => Zneg r | xO _ => Zneg r | xI _ => Zneg r end.
Lemma sP_eq r : sP r = Zpos r. Proof. now destruct r. Qed.
Lemma sN_eq r : sN r = Zneg r. Proof. now destruct r. Qed.
Definition zadd (a b : Z) : Z :=
  match a, b with
  | Z0, _ => b | _, Z0 => a
  | Zpos p, Zpos q => sP (adds p q) | Zneg p, Zneg q => sN (adds p q)
  | Zpos p, Zneg q => psubs p q | Zneg p, Zpos q => psubs q p
  end.
Lemma zadd_eq a b : zadd a b = (a + b)%Z.
Proof.
  destruct a as [|p|p], b as [|q|q]; cbn [zadd Z.add]; try reflexivity; unfold psubs; rewrite ?sP_eq, ?sN_eq, ?(proj1 (adds_addc p q)); try reflexivity.
  - destruct (zforce (Z.pos_sub p q)); reflexivity.
  - destruct (zforce (Z.pos_sub q p)); reflexivity.
Qed.
Definition zmul (a b : Z) : Z :=
  match a, b with
  | Zpos p, Zpos q => sP (muls p q) | Zneg p, Zneg q => sP (muls p q)
  | Zneg p, Zpos q => sN (muls p q) | Zpos p, Zneg q => sN (muls p q)
  | _, _ => Z0
  end.
Lemma zmul_eq a b : zmul a b = (a * b)%Z.
Proof. destruct a as [|p|p], b as [|q|q]; cbn [zmul Z.mul]; rewrite ?sP_eq, ?sN_eq, ?muls_eq; reflexivity. Qed.

(** ** polynomials *)
Fixpoint qadd (a b : list Z) : list Z := match a, b with [], _ => b | _, [] => a | x :: a', y :: b' => zadd x y :: qadd a' b' end.
Definition qneg (a : list Z) : list Z := map Z.opp a.
Definition qscal (c : Z) (a : list Z) : list Z := map (zmul c) a.
Fixpoint qmul (a b : list Z) : list Z := match a with [] => [] | x :: a' => qadd (qscal x b) (0%Z :: qmul a' b) end.
Lemma qadd_eq a : forall b, qadd a b = padd a b.
Proof. induction a as [|x a IH]; intros [|y b]; cbn [qadd padd]; rewrite ?zadd_eq, ?IH; reflexivity. Qed.
Lemma qscal_eq c a : qscal c a = pscal c a.
Proof. apply map_ext. intros x. apply zmul_eq. Qed.
Lemma qneg_eq a : qneg a = pscal (-1) a.
Proof. apply map_ext. intros x. lia. Qed.
Lemma qmul_eq a : forall b, qmul a b = pmul a b.
Proof. induction a as [|x a IH]; intros b; cbn [qmul pmul]; [reflexivity|]. now rewrite qadd_eq, qscal_eq, IH. Qed.
Lemma pev_qadd a b t : pev (qadd a b) t = pev a t + pev b t. Proof. rewrite qadd_eq. apply pev_add. Qed.
Lemma pev_qscal c a t : pev (qscal c a) t = IZR c * pev a t. Proof. rewrite qscal_eq. apply pev_scal. Qed.
Lemma pev_qneg a t : pev (qneg a) t = - pev a t. Proof. rewrite qneg_eq, pev_scal. ring. Qed.
Lemma pev_qmul a b t : pev (qmul a b) t = pev a t * pev b t. Proof. rewrite qmul_eq. apply pev_mul. Qed.
(** products by Karatsuba's method, [f] levels *)
Fixpoint kmul (f : nat) (a b : list Z) : list Z :=
  match f with
  | O => qmul a b
  | S f' =>
      let n := Nat.div2 (S (length a)) in
      let a0 := firstn n a in let a1 := skipn n a in let b0 := firstn n b in let b1 := skipn n b in
      let p0 := kmul f' a0 b0 in let p1 := kmul f' a1 b1 in
      let m := qadd (kmul f' (qadd a0 a1) (qadd b0 b1)) (qneg (qadd p0 p1)) in
      qadd p0 (repeat 0%Z n ++ qadd m (repeat 0%Z n ++ p1))
  end.
Lemma pev_zeros n l x : pev (repeat 0%Z n ++ l) x = x ^ n * pev l x.
Proof. induction n as [|n IH]; cbn; [ring|]. rewrite IH. ring. Qed.
Lemma pev_split n : forall l x, pev l x = pev (firstn n l) x + x ^ n * pev (skipn n l) x.
Proof.
  induction n as [|n IH]; intros [|a l] x; cbn; try ring. rewrite (IH l x) at 1. ring.
Qed.
Lemma pev_kmul f : forall a b x, pev (kmul f a b) x = pev a x * pev b x.
Proof.
  induction f as [|f IH]; intros a b x; cbn [kmul]; [apply pev_qmul|]. cbv zeta. set (n := Nat.div2 (S (length a))).
  rewrite pev_qadd, pev_zeros, pev_qadd, pev_zeros, pev_qadd, pev_qneg, pev_qadd, !IH, !pev_qadd.
  rewrite (pev_split n a x), (pev_split n b x). ring.
Qed.
(** a short factor times a long one, in blocks of the length of the short one; [m] blocks at most *)
Fixpoint bmul (m f : nat) (a b : list Z) : list Z :=
  match m with
  | O => qmul a b
  | S m' => match b with [] => [] | _ => let n := length a in qadd (kmul f a (firstn n b)) (repeat 0%Z n ++ bmul m' f a (skipn n b)) end
  end.
Lemma pev_bmul m f : forall a b x, pev (bmul m f a b) x = pev a x * pev b x.
Proof.
  induction m as [|m IH]; intros a b x; cbn [bmul]; [apply pev_qmul|]. destruct b as [|c b]; [cbn; ring|].
  cbv zeta. rewrite pev_qadd, pev_zeros, IH, pev_kmul, (pev_split (length a) (c :: b) x). ring.
Qed.

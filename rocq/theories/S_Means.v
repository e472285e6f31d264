(** Specifications for the means. *)
From Coq Require Import ZArith Reals List Bool.
From Verif Require Import CSem Num M_Means S_Stat.
Import ListNotations.
Open Scope R_scope.

(** the model at exact arithmetic: all four types are the extended reals *)
Definition xgmean := gmean_1d earith etransc.
Definition xgmeanw := gmeanw_1d earith etransc.
Definition xhmean := hmean_row earith earith (fun v : ER => v) (fun v => v).
Definition xhmeanw := hmeanw_1d earith.
Definition xthr : ER := Fin (2 / 1000000).
Definition xpmean := pmean_row earith earith earith etransc epow (fun v : ER => v) (fun v : ER => v) (fun v : ER => v)
                       (fun v : ER => v) (fun v : ER => v) (fun v : ER => v) xthr (Fin (1 / 2)).
Definition xpmeanw := pmeanw_row earith earith etransc epow (fun v : ER => v) (fun v : ER => v) (fun v : ER => v)
                       (fun v : ER => v) xthr (Fin (1 / 2)).

(** average and weighted average (q is a list of (value, weight)) of f *)
Definition ravg (f : R -> R) (x : list R) : R := rsum (map f x) / INR (length x).
Definition wavg (f : R -> R) (q : list (R * R)) : R :=
  rsum (map (fun p => snd p * f (fst p)) q) / rsum (map snd q).
Fixpoint rprod (l : list R) : R := match l with [] => 1 | a :: l' => a * rprod l' end.

(** a value that makes gmean and pmean return NaN: NaN, or negative and not infinite *)
Definition gbad {T} (A : arith T) (x : T) : bool :=
  isnanb (a_cmp A) x || (negb (a_isinf A x) && ltb (a_cmp A) x (a_ofZ A 0)).

(** the power mean of order p of a weighted list of positive values *)
Definition pm (p : R) (q : list (R * R)) : R :=
  if Req_EM_T p 0 then exp (wavg ln q) else Rpower (wavg (fun a => Rpower a p) q) (/ p).
(** the data with all weights 1 *)
Definition ones (x : list R) : list (R * R) := map (fun a => (a, 1)) x.
(** the orders for which the code does not use its small-p approximation *)
Definition order_ok (p : R) : Prop := p = 0 \/ 2 / 1000000 <= Rabs p.

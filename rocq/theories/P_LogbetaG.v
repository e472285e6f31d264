(** Proofs about multivariate_logbeta with Euler's gamma function (C49). *)
From Coq Require Import ZArith Reals List Lia Lra.
From Verif Require Import CSem CSemP Num NumP M_Stat S_Stat S_Gamma S_Logbeta P_Gamma P_StatR P_Soft.
Import ListNotations.
Open Scope R_scope.

Lemma Gamma_positive x v : 0 < x -> is_Gamma x v -> 0 < v.
Proof. intros Hx G. rewrite <- (is_Gamma_Gam x v G). apply Gam_pos, Hx. Qed.
Lemma prod_pos l : (forall a, In a l -> 0 < a) -> 0 < fold_right Rmult 1 l.
Proof.
  induction l as [|a l IH]; intros H; cbn [fold_right]; [lra|]. apply Rmult_lt_0_compat; [apply H; left; reflexivity|].
  apply IH. intros b Hb. apply H. right. exact Hb.
Qed.
Lemma ln_prod l : (forall a, In a l -> 0 < a) -> ln (fold_right Rmult 1 l) = rsum (map ln l).
Proof.
  induction l as [|a l IH]; intros H; cbn [fold_right map rsum]; [apply ln_1|].
  assert (P : forall b, In b l -> 0 < b) by (intros b Hb; apply H; right; exact Hb).
  rewrite ln_mult, IH; auto; [apply H; left; reflexivity|apply prod_pos, P].
Qed.
Lemma rsum_pos x : x <> [] -> (forall a, In a x -> 0 < a) -> 0 < rsum x.
Proof.
  induction x as [|a x IH]; intros Hx H; [congruence|]. cbn [rsum]. assert (0 < a) by (apply H; left; reflexivity).
  destruct x as [|b x]; [cbn [rsum]; lra|]. assert (0 < rsum (b :: x)); [|lra]. apply IH; [discriminate|]. intros c Hc. apply H. right. exact Hc.
Qed.

(** exp(result) = Gamma(x1)...Gamma(xn) / Gamma(x1 + ... + xn) *)
Theorem logbeta_Gamma lgamma sz mx px sx x gs g :
  is_lgamma lgamma -> view mx px sx (map Fin x) -> x <> [] -> (forall a, In a x -> 0 < a) ->
  Forall2 is_Gamma x gs -> is_Gamma (rsum x) g ->
  exists r, multivariate_logbeta_core earith lgamma sz (Z.of_nat (length x)) mx px sx = Some (Fin r) /\
            exp r = fold_right Rmult 1 gs / g.
Proof.
  intros HL V Hx Hpos F G. pose proof (rsum_pos x Hx Hpos) as PS.
  assert (LG : forall a, In a (rsum x :: x) -> lgamma (Fin a) = Fin (ln (Gam a))).
  { intros a Ha. assert (0 < a) by (destruct Ha as [<-|Ha]; auto). apply HL; [assumption|]. now apply Gam_correct. }
  exists (rsum (map (fun a => ln (Gam a)) x) - ln (Gam (rsum x))). split.
  - apply (logbeta_exact lgamma (fun a => ln (Gam a))); assumption.
  - assert (EG : map Gam x = gs).
    { clear - F. induction F as [|a b x gs H F IH]; [reflexivity|]. cbn [map]. f_equal; [|exact IH]. apply is_Gamma_Gam, H. }
    assert (PG : forall a, In a (map Gam x) -> 0 < a).
    { intros a Ha. apply in_map_iff in Ha. destruct Ha as (b & <- & Hb). apply Gam_pos, Hpos, Hb. }
    rewrite <- (map_map Gam ln), <- ln_prod by exact PG. rewrite EG, (is_Gamma_Gam _ _ G).
    assert (P1 : 0 < fold_right Rmult 1 gs) by (rewrite <- EG; apply prod_pos, PG).
    assert (P2 : 0 < g) by (apply (Gamma_positive (rsum x)); assumption).
    unfold Rminus. rewrite exp_plus, exp_Ropp, !exp_ln by assumption. reflexivity.
Qed.

(** integers: products of factorials *)
Theorem logbeta_integers lgamma sz mx px sx (k : list nat) :
  is_lgamma lgamma -> k <> [] -> view mx px sx (map (fun j => Fin (INR (S j))) k) ->
  exists r, multivariate_logbeta_core earith lgamma sz (Z.of_nat (length k)) mx px sx = Some (Fin r) /\
            exp r = fold_right Rmult 1 (map (fun j => INR (fact j)) k) / INR (fact (fold_right plus 0%nat (map S k) - 1)).
Proof.
  intros HL Hk V. replace (length k) with (length (map (fun j => INR (S j)) k)) by apply map_length.
  apply logbeta_Gamma.
  - exact HL.
  - rewrite map_map. exact V.
  - destruct k; [congruence|discriminate].
  - intros a Ha. apply in_map_iff in Ha. destruct Ha as (j & <- & _). apply lt_0_INR. lia.
  - clear. induction k as [|j k IH]; cbn [map]; constructor; [|exact IH]. rewrite S_INR. apply Gamma_factorial.
  - assert (E : forall l : list nat, rsum (map (fun j => INR (S j)) l) = INR (fold_right plus 0%nat (map S l))).
    { induction l as [|j l IH]; [reflexivity|]. cbn [map rsum fold_right]. rewrite plus_INR, <- IH. reflexivity. }
    rewrite E. destruct k as [|j k]; [congruence|]. set (n := fold_right plus 0%nat (map S (j :: k))).
    assert (1 <= n)%nat by (unfold n; cbn [map fold_right]; lia).
    replace (INR n) with (INR (n - 1) + 1) by (rewrite <- S_INR; f_equal; lia). apply Gamma_factorial.
Qed.

(** there is such a function *)
Lemma lgamma_exists : exists lgamma, is_lgamma lgamma.
Proof.
  exists (fun v => match v with Fin a => Fin (ln (Gam a)) | _ => ENaN end). intros a v Ha G.
  now rewrite (is_Gamma_Gam a v G).
Qed.

(** * M_Stat: model of the reduction gufuncs
    (kbnsum, meanvar, mad, gini, rmad, vnorm, rms, vdot, pearson_corr, wjaccard,
    softmax, multivariate_logbeta).

    Conventions as in M_Select and M_Signal.  [up] is the conversion from the
    element type T to the accumulation type U (the identity for floating input,
    the conversion of an integer to double for integer input).  Every C operator
    is one operation of the arithmetic (no contraction into fused multiply-add). *)

From Coq Require Import ZArith List Bool.
From Verif Require Import CSem Num.
Import ListNotations.
Open Scope Z_scope.

(** [for (int k = 0; k < n; ++k)] where [n] has type npy_intp: incrementing k
    past INT_MAX is undefined. *)
Definition INT_MAX : Z := 2147483647.
Definition int_for_each {S : Type} (n : Z) (body : Z -> S -> M S) (s : S) : M S :=
  if n <=? INT_MAX then for_each 0 n body s else ub.

(** ** kbnsum *)
Section Kbn.
  Context {T : Type} (A : arith T).
  Local Notation isnan := (isnanb (a_cmp A)).

  (** src/kbnsum/kbnsum_gufunc.h:64-90  [KBNSummer::operator+=], real case;
      the state is (_acc, _c). *)
  Definition kbn_add (st : T * T) (x : T) : T * T :=
    let '(acc, c) := st in
    let t := a_add A acc x in
    let c' :=
      if geb (a_cmp A) (a_abs A acc) (a_abs A x)
      then a_add A c (a_add A (a_sub A acc t) x)
      else a_add A c (a_add A (a_sub A x t) acc) in
    (t, c').

  (** src/kbnsum/kbnsum_gufunc.h:49-52: initial state *)
  Definition kbn_zero : T * T := (a_ofZ A 0, a_ofZ A 0).
  (** src/kbnsum/kbnsum_gufunc.h:96-98  [sum] *)
  Definition kbn_sum (st : T * T) : T := a_add A (fst st) (snd st).

  (** src/kbnsum/kbnsum_gufunc.h:108-134  [kbnsum_core_calc].
      [sz] is sizeof(T).  In the infinity branch the source reads [p_x[j]], the
      element at byte [j*sizeof(T)], not at [j*x_stride]. *)
  Definition kbnsum_core_calc (sz n : Z) (mx : mem T) (px sx : Z) : M T :=
    r <- for_loop 0 n
      (fun k st =>
         xk <- get mx px sx k ;;
         if isnan xk then ret (Ret xk)
         else if a_isinf A xk then
           r <- for_loop (k + 1) n
             (fun j (_ : unit) =>
                y <- load mx (px + j * sz) ;;
                ret (if isnan (a_add A xk y) then @Ret unit T (a_nan A) else Next tt)) tt ;;
           ret (match r with inr v => Ret v | inl _ => Ret xk end)
         else ret (Next (kbn_add st xk)))
      kbn_zero ;;
    ret (match r with inl st => kbn_sum st | inr v => v end).
End Kbn.

(** ** meanvar *)
Section MeanVar.
  Context {T U : Type} (A : arith U) (up : T -> U).

  (** src/meanvar/meanvar_gufunc.h:16-24  [compensated_update] *)
  Definition compensated_update (val incr comp : U) : U * U :=
    let y := a_sub A incr comp in
    let t := a_add A val y in
    let c := a_sub A (a_sub A t val) y in
    (t, c).

  (** src/meanvar/meanvar_gufunc.h:39-42: one iteration on (mean, m2, c1, c2) *)
  Definition meanvar_step (k : Z) (x : T) (st : U * U * U * U) : U * U * U * U :=
    let '(mean, m2, c1, c2) := st in
    let delta := a_sub A (up x) mean in
    let '(mean', c1') := compensated_update mean (a_div A delta (a_ofZ A (k + 1))) c1 in
    let '(m2', c2') := compensated_update m2 (a_mul A delta (a_sub A (up x) mean')) c2 in
    (mean', m2', c1', c2').

  (** src/meanvar/meanvar_gufunc.h:26-48  [meanvar_core].
      Simplification: [n - ddof] does not overflow npy_intp. *)
  Definition meanvar_core (n : Z) (mx : mem T) (px sx : Z) (ddof : Z)
             (mo : mem U) (po so : Z) : M (mem U) :=
    let zero := a_ofZ A 0 in
    '(mean, m2, _, _) <- for_each 0 n
      (fun k st => xk <- get mx px sx k ;; ret (meanvar_step k xk st))
      (zero, zero, zero, zero) ;;
    let var := a_div A m2 (a_ofZ A (n - ddof)) in
    mo1 <- store mo po mean ;;
    set mo1 po so 1 var.
End MeanVar.

(** ** mad, gini, rmad *)
Section Mad.
  Context {T : Type} (A : arith T).
  Local Notation isnan := (isnanb (a_cmp A)).
  (** [sortf] is std::sort on a vector; theorems assume only the C++ contract. *)
  Context (sortf : list T -> list T).

  (** src/mad/mad_gufunc.h:39-47: copying x into tmp, by memcpy ([x_stride] =
      [sizeof(T)]) or element by element; both read element k at p_x + k*x_stride. *)
  Definition mad_copy (n : Z) (mx : mem T) (px sx : Z) : M (list T) :=
    for_each 0 n (fun k tmp => x <- get mx px sx k ;; ret (tmp ++ [x])) [].

  (** src/mad/mad_gufunc.h:60-65 *)
  Fixpoint mad_accum (k : Z) (l : list T) (sum total : T) : T * T :=
    match l with
    | [] => (sum, total)
    | x :: l' => mad_accum (k + 1) l'
                   (a_add A sum (a_sub A (a_mul A (a_ofZ A k) x) total)) (a_add A total x)
    end.

  (** src/mad/mad_gufunc.h:23-67  [unnormalized_mad]: returns (sum, total).
      Sorting with NaN elements violates std::sort's precondition (operator< is
      not a strict weak ordering) and is undefined; so is reading tmp[0] of an
      empty vector.  Not modelled: allocation failure. *)
  Definition unnormalized_mad (n : Z) (mx : mem T) (px sx : Z) : M (T * T) :=
    tmp <- mad_copy n mx px sx ;;
    if existsb isnan tmp then ub
    else match sortf tmp with
         | [] => ub
         | x0 :: rest => ret (mad_accum 1 rest (a_ofZ A 0) x0)
         end.

  (** src/mad/mad_gufunc.h:75-96  [mad_core].
      Simplification: [n*n] does not overflow npy_intp. *)
  Definition mad_core (n : Z) (mx : mem T) (px sx : Z) (unbiased : bool) : M T :=
    '(sum, total) <- unnormalized_mad n mx px sx ;;
    let twosum := a_mul A (a_ofZ A 2) sum in
    ret (if unbiased
         then a_div A (a_div A twosum (a_ofZ A n)) (a_ofZ A (n - 1))
         else a_div A twosum (a_ofZ A (n * n))).

  (** src/mad/mad_gufunc.h:103-133  [gini_core] *)
  Definition gini_core (n : Z) (mx : mem T) (px sx : Z) (unbiased : bool) : M T :=
    '(sum, total) <- unnormalized_mad n mx px sx ;;
    let denom := if unbiased then a_mul A (a_ofZ A (n - 1)) total
                 else a_mul A (a_ofZ A n) total in
    let zero := a_ofZ A 0 in
    ret (if eqb (a_cmp A) sum zero && eqb (a_cmp A) denom zero then a_nan A
         else if eqb (a_cmp A) denom zero then a_inf A
         else a_div A sum denom).

  (** src/mad/mad_gufunc.h:140-154  [rmad_core] *)
  Definition rmad_core (n : Z) (mx : mem T) (px sx : Z) (unbiased : bool) : M T :=
    v <- gini_core n mx px sx unbiased ;;
    ret (if negb (isnan v) then a_mul A v (a_ofZ A 2) else v).
End Mad.

(** ** vnorm, rms, vdot *)
Section Vnorm.
  Context {T U : Type} (A : arith U) (TR : transc U).
  (** [absf] is my_abs: src/vnorm/vnorm_gufunc.h:21-52; |x| for real T, the
      complex modulus (std::abs) for complex T. *)
  Context (absf : T -> U).
  Local Notation gt := (gtb (a_cmp A)).
  Local Notation eq := (eqb (a_cmp A)).

  (** std::max(a, b): [(a < b) ? b : a] *)
  Definition std_max (a b : U) : U := if ltb (a_cmp A) a b then b else a.

  (** src/vnorm/vnorm_gufunc.h:62-110  [vnorm_core_calc] *)
  Definition vnorm_core_calc (n : Z) (mx : mem T) (px sx : Z) (order : U) : M U :=
    let zero := a_ofZ A 0 in let one := a_ofZ A 1 in
    if leb (a_cmp A) order zero then ret (a_nan A)
    else
      maxabsx <- int_for_each n
        (fun k maxabsx => x <- get mx px sx k ;;
           let abs_x := absf x in
           ret (if gt abs_x maxabsx then abs_x else maxabsx)) zero ;;
      if eq maxabsx zero then ret zero
      else
        sum <- int_for_each n
          (fun k sum => x <- get mx px sx k ;;
             let abs_x := absf x in
             ret (if a_isinf A order then std_max sum abs_x
                  else if eq order one then a_add A sum abs_x
                  else a_add A sum (t_pow TR (a_div A abs_x maxabsx) order))) zero ;;
        if a_isinf A order || eq order one then ret sum
        else ret (a_mul A maxabsx (t_pow TR sum (a_div A one order))).
End Vnorm.

Section Rms.
  Context {T : Type} (A : arith T).

  (** src/vnorm/vnorm_gufunc.h:112-121  [rms_core_contig]; [sz] is sizeof(T) *)
  Definition rms_core_contig (sz n : Z) (mx : mem T) (px : Z) : M T :=
    sum <- for_each 0 n (fun k sum => x <- load mx (px + k * sz) ;; ret (a_add A sum (a_mul A x x)))
             (a_ofZ A 0) ;;
    ret (a_sqrt A (a_div A sum (a_ofZ A n))).

  (** src/vnorm/vnorm_gufunc.h:131-148  [rms_core_calc]; in the contiguous case
      the result is computed and stored twice. *)
  Definition rms_core_calc (sz n : Z) (mx : mem T) (px sx : Z) : M T :=
    _ <- (if sx =? sz then rms_core_contig sz n mx px else ret (a_ofZ A 0)) ;;
    sum <- for_each 0 n (fun k sum => x <- get mx px sx k ;; ret (a_add A sum (a_mul A x x)))
             (a_ofZ A 0) ;;
    ret (a_sqrt A (a_div A sum (a_ofZ A n))).

  (** src/vnorm/vnorm_gufunc.h:151-161  [crms_core_contig]: a complex number is
      two consecutive T; [sz] is sizeof of the real type. *)
  Definition crms_core_contig (sz n : Z) (mx : mem T) (px : Z) : M T :=
    sum <- for_each 0 n (fun k sum =>
             x <- load mx (px + (2 * k) * sz) ;;
             y <- load mx (px + (2 * k + 1) * sz) ;;
             ret (a_add A sum (a_add A (a_mul A x x) (a_mul A y y)))) (a_ofZ A 0) ;;
    ret (a_sqrt A (a_div A sum (a_ofZ A n))).

  (** src/vnorm/vnorm_gufunc.h:171-191  [crms_core_calc]; sizeof(complex) = 2*sz *)
  Definition crms_core_calc (sz n : Z) (mx : mem T) (px sx : Z) : M T :=
    if sx =? 2 * sz then crms_core_contig sz n mx px
    else
      sum <- for_each 0 n (fun k sum =>
               x <- load mx (px + k * sx) ;;
               y <- load mx (px + k * sx + sz) ;;
               ret (a_add A sum (a_add A (a_mul A x x) (a_mul A y y)))) (a_ofZ A 0) ;;
      ret (a_sqrt A (a_div A sum (a_ofZ A n))).

  (** src/vnorm/vnorm_gufunc.h:198-223  [vdot_core_calc] *)
  Definition vdot_core_calc (sz n : Z) (mx : mem T) (px sx : Z) (my : mem T) (py sy : Z) : M T :=
    if (sx =? sz) && (sy =? sz) then
      int_for_each n (fun k sum =>
        x <- load mx (px + k * sz) ;; y <- load my (py + k * sz) ;;
        ret (a_add A sum (a_mul A x y))) (a_ofZ A 0)
    else
      int_for_each n (fun k sum =>
        x <- get mx px sx k ;; y <- get my py sy k ;;
        ret (a_add A sum (a_mul A x y))) (a_ofZ A 0).
End Rms.

(** ** pearson_corr *)
Section Corr.
  Context {T U : Type} (A : arith U) (up : T -> U) (cmpT : T -> T -> option comparison).

  (** src/corr/corr_gufunc.h:15-35  [strided_mean]; the loop body is the mean part
      of meanvar's update (same operations in the same order). *)
  Definition strided_mean (n : Z) (mx : mem T) (px sx : Z) : M U :=
    '(mean, _) <- for_each 0 n
      (fun k st => let '(mean, c1) := st in
         xk <- get mx px sx k ;;
         let delta := a_sub A (up xk) mean in
         let y1 := a_sub A (a_div A delta (a_ofZ A (k + 1))) c1 in
         let t1 := a_add A mean y1 in
         ret (t1, a_sub A (a_sub A t1 mean) y1))
      (a_ofZ A 0, a_ofZ A 0) ;;
    ret mean.

  (** src/corr/corr_gufunc.h:41-54  [strided_delta_maxabs] *)
  Definition strided_delta_maxabs (n : Z) (mx : mem T) (px sx : Z) (xmean : U) : M U :=
    x0 <- load mx px ;;
    for_each 1 n
      (fun k maxabs => xk <- get mx px sx k ;;
         let absxk := a_abs A (a_sub A (up xk) xmean) in
         ret (if gtb (a_cmp A) absxk maxabs then absxk else maxabs))
      (a_abs A (a_sub A (up x0) xmean)).

  (** src/corr/corr_gufunc.h:63-77  [strided_delta_norm].
      [std::pow(z, 2.0)] is modelled as [z*z] (the value of a correctly rounded
      pow; also what compilers emit). *)
  Definition strided_delta_norm (n : Z) (mx : mem T) (px sx : Z) (xmean dmax : U) : M U :=
    '(sumsq, _) <- for_each 0 n
      (fun k st => let '(sumsq, c) := st in
         xk <- get mx px sx k ;;
         let z := a_div A (a_sub A (up xk) xmean) dmax in
         let y := a_sub A (a_mul A z z) c in
         let t := a_add A sumsq y in
         ret (t, a_sub A (a_sub A t sumsq) y))
      (a_ofZ A 0, a_ofZ A 0) ;;
    ret (a_mul A dmax (a_sqrt A sumsq)).

  (** src/corr/corr_gufunc.h:90-118 and 152-180: the case n = 2.  [bad x0 x1] is
      [x0 == x1] for integers, [!isfinite(x0) || !isfinite(x1) || x0 == x1] for
      floating types. *)
  Definition corr_two (bad : T -> T -> bool) (mx : mem T) (px sx : Z) (my : mem T) (py sy : Z) : M U :=
    x0 <- load mx px ;; x1 <- get mx px sx 1 ;;
    if bad x0 x1 then ret (a_nan A)
    else
      y0 <- load my py ;; y1 <- get my py sy 1 ;;
      if bad y0 y1 then ret (a_nan A)
      else if (ltb cmpT x0 x1 && ltb cmpT y0 y1) || (gtb cmpT x0 x1 && gtb cmpT y0 y1)
           then ret (a_ofZ A 1) else ret (a_ofZ A (-1)).

  (** src/corr/corr_gufunc.h:120-142 and 182-204: the general case *)
  Definition corr_general (n : Z) (mx : mem T) (px sx : Z) (my : mem T) (py sy : Z) : M U :=
    let zero := a_ofZ A 0 in
    xmean <- strided_mean n mx px sx ;;
    xmax <- strided_delta_maxabs n mx px sx xmean ;;
    if eqb (a_cmp A) xmax zero then ret (a_nan A)
    else
      xnorm <- strided_delta_norm n mx px sx xmean xmax ;;
      ymean <- strided_mean n my py sy ;;
      ymax <- strided_delta_maxabs n my py sy ymean ;;
      if eqb (a_cmp A) ymax zero then ret (a_nan A)
      else
        ynorm <- strided_delta_norm n my py sy ymean ymax ;;
        for_each 0 n
          (fun k r =>
             x <- get mx px sx k ;; y <- get my py sy k ;;
             let xk := a_div A (a_sub A (up x) xmean) xnorm in
             let yk := a_div A (a_sub A (up y) ymean) ynorm in
             ret (a_add A r (a_mul A xk yk))) zero.

  (** src/corr/corr_gufunc.h:84-205  [pearson_corr_int_core], [pearson_corr_core] *)
  Definition pearson_corr_core (bad : T -> T -> bool) (n : Z)
             (mx : mem T) (px sx : Z) (my : mem T) (py sy : Z) : M U :=
    if n =? 1 then ret (a_nan A)
    else if n =? 2 then corr_two bad mx px sx my py sy
    else corr_general n mx px sx my py sy.

  (** src/corr/corr_gufunc.h:209-220  [process_core_dims]: the gufunc raises
      ValueError (here [None]) for n < 2 before any core is called. *)
  Definition corr_process_core_dims (n : Z) : option unit := if n <? 2 then None else Some tt.
End Corr.

(** src/corr/corr_gufunc.h:98-108: the integer version's test *)
Definition corr_bad_int (x0 x1 : Z) : bool := x0 =? x1.
(** src/corr/corr_gufunc.h:160-170: the floating version's test *)
Definition corr_bad_float {T} (A : arith T) (x0 x1 : T) : bool :=
  let isfinite v := negb (isnanb (a_cmp A) v) && negb (a_isinf A v) in
  negb (isfinite x0) || negb (isfinite x1) || eqb (a_cmp A) x0 x1.

(** ** wjaccard *)
Section Wjaccard.
  Context {T U : Type} (A : arith U) (up : T -> U) (cmpT : T -> T -> option comparison).
  (** std::min, std::max on T *)
  Definition tmin (a b : T) : T := if ltb cmpT b a then b else a.
  Definition tmax (a b : T) : T := if ltb cmpT a b then b else a.

  (** src/wjaccard/wjaccard_gufunc.h:23-66  [wjaccard_core]; for integer T no
      element is NaN, so the isnan tests are dead (the source omits them). *)
  Definition wjaccard_core (n : Z) (mx : mem T) (px sx : Z) (my : mem T) (py sy : Z) : M U :=
    let zero := a_ofZ A 0 in
    x0 <- load mx px ;; y0 <- load my py ;;
    if isnanb cmpT x0 || isnanb cmpT y0 then ret (a_nan A)
    else
      r <- for_loop 1 n
        (fun k st => let '(numer, denom) := st in
           xk <- get mx px sx k ;; yk <- get my py sy k ;;
           if isnanb cmpT xk || isnanb cmpT yk then ret (Ret (a_nan A))
           else ret (Next (a_add A numer (up (tmin xk yk)), a_add A denom (up (tmax xk yk)))))
        (up (tmin x0 y0), up (tmax x0 y0)) ;;
      ret (match r with
           | inr v => v
           | inl (numer, denom) =>
               if eqb (a_cmp A) denom zero then
                 if eqb (a_cmp A) numer zero then a_nan A else a_opp A (a_inf A)
               else a_div A numer denom
           end).
End Wjaccard.

(** ** softmax *)
Section Softmax.
  Context {T : Type} (A : arith T) (TR : transc T).
  Local Notation isnan := (isnanb (a_cmp A)).
  Local Notation gt := (gtb (a_cmp A)).

  (** src/softmax/softmax_gufunc.h:25-45: (nposinf, posinf_index, has_nan, xmax) *)
  Definition softmax_scan (n : Z) (mx : mem T) (px sx : Z) : M (Z * Z * bool * T) :=
    let zero := a_ofZ A 0 in
    r <- for_loop 0 n
      (fun k st => let '(nposinf, idx, has_nan, xmax) := st in
         x <- get mx px sx k ;;
         if isnan x then ret (@Brk _ (Z * Z * bool * T) (nposinf, idx, true, xmax))
         else
           let '(nposinf', idx') :=
             if a_isinf A x && gt x zero then (nposinf + 1, k) else (nposinf, idx) in
           let xmax' := if (k =? 0) || gt x xmax then x else xmax in
           ret (Next (nposinf', idx', has_nan, xmax')))
      (0, 0, false, zero) ;;
    ret (match r with inl st => st | inr st => st end).

  (** src/softmax/softmax_gufunc.h:14-68  [softmax_core] *)
  Definition softmax_core (n : Z) (mx : mem T) (px sx : Z) (mo : mem T) (po so : Z) : M (mem T) :=
    '(nposinf, idx, has_nan, xmax) <- softmax_scan n mx px sx ;;
    if has_nan || (1 <? nposinf) || eqb (a_cmp A) xmax (a_opp A (a_inf A)) then
      for_each 0 n (fun k m => set m po so k (a_nan A)) mo
    else if nposinf =? 1 then
      mo1 <- for_each 0 n (fun k m => set m po so k (a_ofZ A 0)) mo ;;
      set mo1 po so idx (a_ofZ A 1)
    else
      expsum <- for_each 0 n (fun k s => x <- get mx px sx k ;;
                  ret (a_add A s (t_exp TR (a_sub A x xmax)))) (a_ofZ A 0) ;;
      for_each 0 n (fun k m => x <- get mx px sx k ;;
                  set m po so k (a_div A (t_exp TR (a_sub A x xmax)) expsum)) mo.
End Softmax.

(** ** multivariate_logbeta *)
Section Logbeta.
  Context {T : Type} (A : arith T) (lgamma : T -> T).

  (** src/multivariate_logbeta/multivariate_logbeta_gufunc.h:15-31 (contiguous,
      element k at [k*sizeof(T)]) and 46-57 (strided): the same loop with stride [s] *)
  Definition logbeta_loop (n : Z) (mx : mem T) (px s : Z) : M T :=
    '(log_sum, alpha_sum) <- for_each 0 n
      (fun k st => let '(log_sum, alpha_sum) := st in
         x <- load mx (px + k * s) ;;
         ret (a_add A log_sum (lgamma x), a_add A alpha_sum x))
      (a_ofZ A 0, a_ofZ A 0) ;;
    ret (a_sub A log_sum (lgamma alpha_sum)).

  (** src/multivariate_logbeta/multivariate_logbeta_gufunc.h:35-59 *)
  Definition multivariate_logbeta_core (sz n : Z) (mx : mem T) (px sx : Z) : M T :=
    if n =? 0 then ret (a_nan A)
    else if sx =? sz then logbeta_loop n mx px sz
    else logbeta_loop n mx px sx.
End Logbeta.

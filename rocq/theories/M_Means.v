(** * M_Means: model of src/means/means_gufunc.c.src
    (gmean, gmeanw, hmean, hmeanw, pmean, pmeanw).

    The template is instantiated at T = float, double, long double.  Mixed
    expressions follow the usual arithmetic conversions: [D] is double, [W] the
    wider of T and double, [L] long double.  [log], [exp], [fabs] are the functions
    of T ([log@funcsuffix@]); [pow] has no suffix and is always the double function. *)

From Coq Require Import ZArith List Bool.
From Verif Require Import CSem Num.
Import ListNotations.
Open Scope Z_scope.

Section Means.
  Context {T D W L : Type} (A : arith T) (AW : arith W) (AL : arith L) (TR : transc T).
  Context (powD : D -> D -> D).
  Context (t2d : T -> D) (d2w : D -> W) (t2w : T -> W) (w2t : W -> T) (t2l : T -> L) (l2t : L -> T).
  (** the constants 2e-6 and 0.5 *)
  Context (thr half : W).
  Local Notation isnan := (isnanb (a_cmp A)).
  Local Notation eq := (eqb (a_cmp A)).
  Local Notation lt := (ltb (a_cmp A)).
  Local Notation gt := (gtb (a_cmp A)).
  Local Notation zero := (a_ofZ A 0).

  (** src/means/means_gufunc.c.src:42-49 (and 119-127): the local variables *)
  Record gstate := mkG { g_zero : bool; g_neg : bool; g_nan : bool; g_inf : bool;
                         g_same : bool; g_prev : T; g_sumlog : T }.
  Definition g0 : gstate := mkG false false false false true zero zero.

  (** src/means/means_gufunc.c.src:50-73: one iteration of gmean's loop; [addlog]
      is the accumulation in the last branch ([sumlog += logx] here). *)
  Definition g_step (addlog : T -> T -> T) (k : Z) (x : T) (st : gstate) : ctl gstate T :=
    let prev := if k =? 0 then x else g_prev st in
    let same := g_same st && eq prev x in
    let '(mkG z ng nn inf _ _ sl) := st in
    if isnan x then Brk (mkG z ng true inf same prev sl)
    else if a_isinf A x then Next (mkG z ng nn true same x sl)
    else if eq x zero then Next (mkG true ng nn inf same x sl)
    else if lt x zero then Brk (mkG z true nn inf same prev sl)
    else Next (mkG z ng nn inf same x (addlog sl (t_log TR x))).

  (** src/means/means_gufunc.c.src:40-91  [gmean_1d] *)
  Definition gmean_1d (n : Z) (mx : mem T) (px sx : Z) : M T :=
    r <- for_loop 0 n
      (fun k st => x <- get mx px sx k ;; ret (g_step (fun sl lx => a_add A sl lx) k x st)) g0 ;;
    match r with
    | inr v => ret v
    | inl st =>
        ret (if g_neg st || g_nan st || (g_zero st && g_inf st) then a_nan A
             else if g_inf st then a_inf A
             else if g_zero st then zero
             else if g_same st then g_prev st
             else t_exp TR (a_div A (g_sumlog st) (a_ofZ A n)))
    end.

  (** src/means/means_gufunc.c.src:116-174  [gmeanw_1d]; the state also holds sumw *)
  Definition gmeanw_1d (n : Z) (mx : mem T) (px sx : Z) (mw : mem T) (pw sw : Z) : M T :=
    r <- for_loop 0 n
      (fun k st => let '(g, sumw) := st in
         x <- get mx px sx k ;; w <- get mw pw sw k ;;
         let sumw' := a_add A sumw w in
         ret (match g_step (fun sl lx => a_add A sl (a_mul A w lx)) k x g with
              | Next g' => @Next (gstate * T) T (g', sumw')
              | Brk g' => Brk (g', sumw')
              | Ret v => Ret v
              end)) (g0, zero) ;;
    match r with
    | inr v => ret v
    | inl (st, sumw) =>
        ret (if g_neg st || g_nan st || (g_zero st && g_inf st) then a_nan A
             else if g_inf st then a_inf A
             else if g_zero st then zero
             else if g_same st then g_prev st
             else if eq sumw zero then a_nan A
             else t_exp TR (a_div A (g_sumlog st) sumw))
    end.

  (** src/means/means_gufunc.c.src:223-236  the body of [hmean_loop] for one row;
      [1.0L / x] and the addition are done in long double *)
  Definition hmean_row (n : Z) (mx : mem T) (px sx : Z) : M T :=
    r <- for_loop 0 n
      (fun k sumrecip => x <- get mx px sx k ;;
         ret (if eq x zero then @Brk T T (a_inf A)
              else Next (l2t (a_add AL (t2l sumrecip) (a_div AL (a_ofZ AL 1) (t2l x)))))) zero ;;
    ret (match r with inl s => a_div A (a_ofZ A n) s | inr v => v end).

  (** src/means/means_gufunc.c.src:238-256  [hmeanw_1d]; state (sumw, sumrecip) *)
  Definition hmeanw_1d (n : Z) (mx : mem T) (px sx : Z) (mw : mem T) (pw sw : Z) : M T :=
    r <- for_loop 0 n
      (fun k st => let '(sumw, sumrecip) := st in
         x <- get mx px sx k ;; w <- get mw pw sw k ;;
         ret (if eq x zero then @Brk (T * T) T (sumw, a_inf A)
              else Next (a_add A sumw w, a_add A sumrecip (a_div A w x)))) (zero, zero) ;;
    ret (match r with inl (sumw, s) => a_div A sumw s | inr v => v end).

  (** src/means/means_gufunc.c.src:315-320, 362-385 and 437-442, 507-531: the scan
      for extrema and special values; state (has_zero, has_neg, has_nan, has_inf, xmax, xmin) *)
  Definition p_step (k : Z) (x : T) (st : bool * bool * bool * bool * T * T)
    : ctl (bool * bool * bool * bool * T * T) T :=
    let '(z, ng, nn, inf, xmax, xmin) := st in
    if isnan x then Brk (z, ng, true, inf, xmax, xmin)
    else
      let inf' := if a_isinf A x then true else inf in
      let xmax' := if (k =? 0) || gt x xmax then x else xmax in
      let xmin' := if (k =? 0) || lt x xmin then x else xmin in
      if lt x zero then Brk (z, true, nn, inf', xmax', xmin')
      else Next (if eq x zero then true else z, ng, nn, inf', xmax', xmin').
  Definition p_scan (n : Z) (mx : mem T) (px sx : Z) : M (bool * bool * bool * bool * T * T) :=
    r <- for_loop 0 n (fun k st => x <- get mx px sx k ;; ret (p_step k x st))
      (false, false, false, false, zero, zero) ;;
    match r with inl st => ret st | inr _ => ub end.

  (** src/means/means_gufunc.c.src:386-402 and 532-548: the cases decided by the scan;
      [rest xmax xmin] is the computation of the sum that follows *)
  Definition p_cases (p : T) (s : bool * bool * bool * bool * T * T) (rest : T -> T -> M T) : M T :=
    let '(z, ng, nn, inf, xmax, xmin) := s in
    if ng || nn then ret (a_nan A)
    else if eq xmax xmin then ret xmax
    else if inf && gt p zero then ret (a_inf A)
    else if z && lt p zero then ret zero
    else if a_isinf A p then ret (if lt p zero then xmin else xmax)
    else rest xmax xmin.

  (** src/means/means_gufunc.c.src:333-351: the correction for small nonzero p *)
  Definition p_small (gm p meansq mean : T) : T :=
    w2t (a_mul AW (t2w gm)
          (a_add AW (a_ofZ AW 1)
             (a_mul AW (a_mul AW half (t2w p)) (t2w (a_sub A meansq (a_mul A mean mean)))))).

  (** src/means/means_gufunc.c.src:310-410: the body of [pmean_loop] for one row *)
  Definition pmean_row (n : Z) (mx : mem T) (px sx : Z) (p : T) : M T :=
    if isnan p then ret (a_nan A)
    else if ltb (a_cmp AW) (t2w (a_abs A p)) thr then
      gm <- gmean_1d n mx px sx ;;
      if negb (eq p zero) then
        '(sumlnx, sumlnx_sq) <- for_each 0 n
          (fun k st => let '(s1, s2) := st in
             x <- get mx px sx k ;;
             let lnx := t_log TR x in
             ret (a_add A s1 lnx, a_add A s2 (a_mul A lnx lnx))) (zero, zero) ;;
        let mean := a_div A sumlnx (a_ofZ A n) in
        ret (p_small gm p (a_div A sumlnx_sq (a_ofZ A n)) mean)
      else ret gm
    else if eq p (a_ofZ A (-1)) then hmean_row n mx px sx
    else
      s <- p_scan n mx px sx ;;
      p_cases p s (fun xmax xmin =>
        let scale := if gt p zero then xmax else xmin in
        sum <- for_each 0 n
          (fun k sum => x <- get mx px sx k ;;
             ret (w2t (a_add AW (t2w sum) (d2w (powD (t2d (a_div A x scale)) (t2d p)))))) zero ;;
        ret (w2t (a_mul AW (t2w scale)
               (d2w (powD (t2d (a_div A sum (a_ofZ A n))) (t2d (a_div A (a_ofZ A 1) p))))))).

  (** src/means/means_gufunc.c.src:430-569: the body of [pmeanw_loop] for one row *)
  Definition pmeanw_row (n : Z) (mx : mem T) (px sx : Z) (mw : mem T) (pw sw : Z) (p : T) : M T :=
    if isnan p then ret (a_nan A)
    else if ltb (a_cmp AW) (t2w (a_abs A p)) thr then
      gm <- gmeanw_1d n mx px sx mw pw sw ;;
      if negb (eq p zero) then
        '(sumw, sumlnx, sumlnx_sq) <- for_each 0 n
          (fun k st => let '(sumw, s1, s2) := st in
             x <- get mx px sx k ;; w <- get mw pw sw k ;;
             let lnx := t_log TR x in
             ret (a_add A sumw w, a_add A s1 (a_mul A w lnx), a_add A s2 (a_mul A (a_mul A w lnx) lnx)))
          (zero, zero, zero) ;;
        let mean := a_div A sumlnx sumw in
        ret (p_small gm p (a_div A sumlnx_sq sumw) mean)
      else ret gm
    else if eq p (a_ofZ A (-1)) then hmeanw_1d n mx px sx mw pw sw
    else
      s <- p_scan n mx px sx ;;
      p_cases p s (fun xmax xmin =>
        let scale := if gt p zero then xmax else xmin in
        '(sumw, sum) <- for_each 0 n
          (fun k st => let '(sumw, sum) := st in
             x <- get mx px sx k ;; w <- get mw pw sw k ;;
             ret (a_add A sumw w,
                  w2t (a_add AW (t2w sum) (a_mul AW (t2w w) (d2w (powD (t2d (a_div A x scale)) (t2d p)))))))
          (zero, zero) ;;
        ret (w2t (a_mul AW (t2w scale)
               (d2w (powD (t2d (a_div A sum sumw)) (t2d (a_div A (a_ofZ A 1) p))))))).

  (** src/means/means_gufunc.c.src:93-114, 176-203, 205-236, 262-288, 290-308, 412-428:
      the loops check the core length first and set ValueError ([inl tt]) without
      touching the output, else compute row after row. *)
  Definition means_loop (row : Z -> M T) (n0 n : Z) (mo : mem T) (po so : Z) : M (unit + mem T) :=
    if n =? 0 then ret (inl tt)
    else
      mo' <- for_each 0 n0 (fun i m => v <- row i ;; store m (po + i * so) v) mo ;;
      ret (inr mo').
End Means.

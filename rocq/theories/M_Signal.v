(** * M_Signal: model of the signal gufuncs
    (fillnan1d, hysteresis_relay, backlash, backlash_sum, unwrap, sosfilter,
    linear_interp1d).

    Conventions as in M_Select; an output operand is a memory [mo] with data
    pointer [po] and core stride [so], and the core returns the updated memory.
    Arithmetic is a parameter [A : arith T]; every C operator is one operation of
    [A] (no contraction into fused multiply-add). *)

From Coq Require Import ZArith List Bool.
From Verif Require Import CSem Num.
Import ListNotations.
Open Scope Z_scope.

(** ** fillnan1d *)
Section FillNan.
  (** [L] is long double, [up] and [down] the conversions from and to [T]. *)
  Context {T L : Type} (A : arith T) (AL : arith L) (up : T -> L) (down : L -> T).
  Local Notation isnan := (isnanb (a_cmp A)).

  (** src/fillnan1d/fillnan1d_gufunc.h:53-55: the value stored at distance [i]
      from the left neighbour in a gap of length [g]. *)
  Definition gap_value (left_value x : T) (i g : Z) : T :=
    let slope := a_div AL (a_sub AL (up x) (up left_value)) (a_ofZ AL g) in
    down (a_add AL (up left_value) (a_mul AL (a_ofZ AL i) slope)).

  (** src/fillnan1d/fillnan1d_gufunc.h:24-32: index of the first non-nan, or n. *)
  Definition fillnan_find (n : Z) (mx : mem T) (px sx : Z) : M Z :=
    r <- for_loop 0 n
           (fun k _ => x <- get mx px sx k ;;
                       ret (if isnan x then @Next Z Z (k + 1) else Brk k)) 0 ;;
    ret (match r with inl k => k | inr k => k end).

  (** src/fillnan1d/fillnan1d_gufunc.h:47-61: body of the main loop; the state is
      (out, left_value, left_index). *)
  Definition fillnan_body (mx : mem T) (px sx po so : Z) (k : Z)
             (st : mem T * T * Z) : M (mem T * T * Z) :=
    let '(mo, left_value, left_index) := st in
    x <- get mx px sx k ;;
    if isnan x then ret (mo, left_value, left_index)
    else
      mo1 <- set mo po so k x ;;
      mo2 <- (if negb (left_index =? k - 1)
              then for_each 1 (k - left_index)
                     (fun i m => set m po so (left_index + i)
                                     (gap_value left_value x i (k - left_index))) mo1
              else ret mo1) ;;
      ret (mo2, x, k).

  (** src/fillnan1d/fillnan1d_gufunc.h:14-69  [fillnan1d_core] *)
  Definition fillnan1d_core (n : Z) (mx : mem T) (px sx : Z) (mo : mem T) (po so : Z) : M (mem T) :=
    k <- fillnan_find n mx px sx ;;
    if k =? n then
      for_each 0 n (fun i m => set m po so i (a_nan A)) mo
    else
      left_value <- get mx px sx k ;;
      mo1 <- for_each 0 (k + 1) (fun i m => set m po so i left_value) mo ;;
      '(mo2, lv, li) <- for_each (k + 1) n (fillnan_body mx px sx po so) (mo1, left_value, k) ;;
      if negb (li =? n)
      then for_each (li + 1) n (fun i m => set m po so i lv) mo2
      else ret mo2.
End FillNan.

(** ** hysteresis_relay *)
Section Hysteresis.
  Context {T : Type} (cmp : T -> T -> option comparison).

  (** src/hysteresis_relay/hysteresis_relay_gufunc.h:13-51 *)
  Definition hysteresis_relay_core (n : Z) (mx : mem T) (px sx : Z)
             (low_threshold high_threshold low_value high_value init : T)
             (mo : mem T) (po so : Z) : M (mem T) :=
    for_each 0 n
      (fun k m =>
         x <- get mx px sx k ;;
         if ltb cmp x low_threshold then set m po so k low_value
         else if gtb cmp x high_threshold then set m po so k high_value
         else if k =? 0 then set m po so k init
         else y <- get m po so (k - 1) ;; set m po so k y)
      mo.
End Hysteresis.

(** ** backlash, backlash_sum *)
Section Backlash.
  Context {T : Type} (A : arith T).
  Local Notation lt := (ltb (a_cmp A)).
  Local Notation gt := (gtb (a_cmp A)).

  (** src/backlash/backlash_gufunc.h:30-39 and 74-83: one step of the operator. *)
  Definition backlash_step (halfband current_x current_y : T) : T :=
    let xminus := a_sub A current_x halfband in
    if gt xminus current_y then xminus
    else
      let xplus := a_add A current_x halfband in
      if lt xplus current_y then xplus else current_y.

  (** src/backlash/backlash_gufunc.h:13-43  [backlash_core] *)
  Definition backlash_core (n : Z) (mx : mem T) (px sx : Z) (deadband initial : T)
             (mo : mem T) (po so : Z) : M (mem T) :=
    let halfband := a_div A deadband (a_ofZ A 2) in
    '(mo', _) <- for_each 0 n
      (fun k st => let '(m, current_y) := st in
         current_x <- get mx px sx k ;;
         let y := backlash_step halfband current_x current_y in
         m' <- set m po so k y ;;
         ret (m', y))
      (mo, initial) ;;
    ret mo'.

  (** src/backlash/backlash_gufunc.h:70-87: the inner loop over the m operators;
      the state is (final, y_total). *)
  Definition backlash_sum_inner (m : Z) (mw : mem T) (pw sw : Z) (md : mem T) (pd sd : Z)
             (current_x : T) (pf sf : Z) (st : mem T * T) : M (mem T * T) :=
    for_each 0 m
      (fun j st => let '(mf, y_total) := st in
         current_y <- get mf pf sf j ;;
         d <- get md pd sd j ;;
         let y := backlash_step (a_div A d (a_ofZ A 2)) current_x current_y in
         mf' <- set mf pf sf j y ;;
         w <- get mw pw sw j ;;
         ret (mf', a_add A y_total (a_mul A w y)))
      st.

  (** src/backlash/backlash_gufunc.h:46-90  [backlash_sum_core]; result is the
      pair of memories (out, final). *)
  Definition backlash_sum_core (n m : Z) (mx : mem T) (px sx : Z) (mw : mem T) (pw sw : Z)
             (md : mem T) (pd sd : Z) (mi : mem T) (pi si : Z)
             (mo : mem T) (po so : Z) (mf : mem T) (pf sf : Z) : M (mem T * mem T) :=
    mf1 <- for_each 0 m (fun j f => v <- get mi pi si j ;; set f pf sf j v) mf ;;
    for_each 0 n
      (fun k st => let '(o, f) := st in
         current_x <- get mx px sx k ;;
         '(f', y_total) <- backlash_sum_inner m mw pw sw md pd sd current_x pf sf (f, a_ofZ A 0) ;;
         o' <- set o po so k y_total ;;
         ret (o', f'))
      (mo, mf1).
End Backlash.

(** ** unwrap *)
Section Unwrap.
  (** [D] is the type of [delta/period + std::copysign(0.5, delta)]: double for
      float and double data, long double for long double data. *)
  Context {T D : Type} (A : arith T) (AD : arith D) (up : T -> D)
          (signbit : D -> bool) (trunc : D -> option Z).

  (** [static_cast<int>] of a floating value: undefined if the truncated value
      does not fit in an int. *)
  Definition cast_int (x : D) : M Z :=
    q <- trunc x ;; if (- 2 ^ 31 <=? q) && (q <? 2 ^ 31) then ret q else ub.

  (** std::copysign(0.5, delta) *)
  Definition copysign_half (delta : D) : D :=
    let h := a_div AD (a_ofZ AD 1) (a_ofZ AD 2) in
    if signbit delta then a_opp AD h else h.

  (** src/unwrap/unwrap_gufunc.h:18-24  [unwrap1] *)
  Definition unwrap1 (x0 x1 period : T) : M T :=
    let delta := a_sub A x1 x0 in
    q <- cast_int (a_add AD (up (a_div A delta period)) (copysign_half (up delta))) ;;
    ret (a_sub A x1 (a_mul A (a_ofZ A q) period)).

  Definition isfinite (x : T) : bool := negb (isnanb (a_cmp A) x) && negb (a_isinf A x).

  (** src/unwrap/unwrap_gufunc.h:26-57  [unwrap_core].  The state is (out, x0). *)
  Definition unwrap_core (n : Z) (mx : mem T) (px sx : Z) (period : T)
             (mo : mem T) (po so : Z) : M (mem T) :=
    if n <? 1 then ret mo
    else
      x0 <- load mx px ;;
      mo1 <- store mo po x0 ;;
      r <- for_loop 1 n
        (fun k st => let '(m, x0) := st in
           x1 <- get mx px sx k ;;
           if negb (isfinite x1) then
             m' <- for_each k n (fun k1 m => set m po so k1 (a_nan A)) m ;;
             ret (Brk (m', x0))
           else
             x1prime <- unwrap1 x0 x1 period ;;
             m' <- set m po so k x1prime ;;
             ret (@Next (mem T * T) (mem T * T) (m', x1prime)))
        (mo1, x0) ;;
      ret (match r with inl (m, _) => m | inr (m, _) => m end).
End Unwrap.

(** ** sosfilter *)
Section Sos.
  Context {T : Type} (A : arith T).
  Local Notation "x + y" := (a_add A x y).
  Local Notation "x - y" := (a_sub A x y).
  Local Notation "x * y" := (a_mul A x y).

  (** src/sosfilter/sosfilter_gufunc.h:43-59 and 66-82: body of the loop over the
      sections; the two copies differ only in how [y[i]] is stored ([sety]).
      The state is (y, zf, xi). *)
  Definition sos_section (ms : mem T) (ps ss0 ss1 : Z) (pz zs0 zs1 : Z)
             (sety : mem T -> T -> M (mem T)) (k : Z)
             (st : mem T * mem T * T) : M (mem T * mem T * T) :=
    let '(my, mz, xi) := st in
    b0 <- get2d ms ps ss0 ss1 k 0 ;;
    z0 <- get2d mz pz zs0 zs1 k 0 ;;
    let yi := b0 * xi + z0 in
    my' <- sety my yi ;;
    z1 <- get2d mz pz zs0 zs1 k 1 ;;
    b1 <- get2d ms ps ss0 ss1 k 1 ;;
    a1 <- get2d ms ps ss0 ss1 k 4 ;;
    let tmp1 := z1 + b1 * xi - (a1 * yi) in
    mz1 <- set2d mz pz zs0 zs1 k 0 tmp1 ;;
    b2 <- get2d ms ps ss0 ss1 k 2 ;;
    a2 <- get2d ms ps ss0 ss1 k 5 ;;
    let tmp2 := b2 * xi - (a2 * yi) in
    mz2 <- set2d mz1 pz zs0 zs1 k 1 tmp2 ;;
    ret (my', mz2, yi).

  (** src/sosfilter/sosfilter_gufunc.h:13-84  [sosfilter_ic_core].  [zi] is
      [None] when [p_zi == p_zf] (the state is then already in zf); [sz] is
      sizeof(T).  Result: the memories of y and zf. *)
  Definition sosfilter_ic_core (sz : Z) (m n : Z) (ms : mem T) (ps ss0 ss1 : Z)
             (mx : mem T) (px sx : Z) (zi : option (mem T * Z * Z * Z))
             (my : mem T) (py sy : Z) (mz : mem T) (pz zs0 zs1 : Z) : M (mem T * mem T) :=
    mz1 <- match zi with
           | None => ret mz
           | Some (mi, pi, is0, is1) =>
               for_each 0 m
                 (fun k z =>
                    value <- get2d mi pi is0 is1 k 0 ;;
                    z1 <- set2d z pz zs0 zs1 k 0 value ;;
                    value <- get2d mi pi is0 is1 k 1 ;;
                    set2d z1 pz zs0 zs1 k 1 value) mz
           end ;;
    if (sx =? sz) && (sy =? sz) then
      for_each 0 n
        (fun i st => let '(my, mz) := st in
           xi <- load mx (Z.add px (Z.mul i sz)) ;;
           '(my', mz', _) <-
             for_each 0 m
               (sos_section ms ps ss0 ss1 pz zs0 zs1 (fun y v => store y (Z.add py (Z.mul i sz)) v))
               (my, mz, xi) ;;
           ret (my', mz'))
        (my, mz1)
    else
      for_each 0 n
        (fun i st => let '(my, mz) := st in
           xi <- get mx px sx i ;;
           '(my', mz', _) <-
             for_each 0 m
               (sos_section ms ps ss0 ss1 pz zs0 zs1 (fun y v => set y py sy i v))
               (my, mz, xi) ;;
           ret (my', mz'))
        (my, mz1).

  (** src/sosfilter/sosfilter_gufunc.h:112-127: body of the section loop of
      [sosfilter_ic_contig_core]. *)
  Definition sos_section_contig (sz : Z) (ms : mem T) (ps pz py i : Z) (k : Z)
             (st : mem T * mem T * T) : M (mem T * mem T * T) :=
    let '(my, mz, xi) := st in
    let sos j := load ms (Z.add ps (Z.mul (Z.add (Z.mul 6 k) j) sz)) in
    let zaddr j := Z.add pz (Z.mul (Z.add (Z.mul 2 k) j) sz) in
    b0 <- sos 0%Z ;;
    z0 <- load mz (zaddr 0%Z) ;;
    let yi := b0 * xi + z0 in
    my' <- store my (Z.add py (Z.mul i sz)) yi ;;
    z1 <- load mz (zaddr 1%Z) ;;
    b1 <- sos 1%Z ;;
    a1 <- sos 4%Z ;;
    mz1 <- store mz (zaddr 0%Z) (z1 + b1 * xi - a1 * yi) ;;
    b2 <- sos 2%Z ;;
    a2 <- sos 5%Z ;;
    mz2 <- store mz1 (zaddr 1%Z) (b2 * xi - a2 * yi) ;;
    ret (my', mz2, yi).

  (** src/sosfilter/sosfilter_gufunc.h:89-128  [sosfilter_ic_contig_core]; the
      memcpy copies 2*m elements one by one. *)
  Definition sosfilter_ic_contig_core (sz : Z) (m n : Z) (ms : mem T) (ps : Z)
             (mx : mem T) (px : Z) (zi : option (mem T * Z))
             (my : mem T) (py : Z) (mz : mem T) (pz : Z) : M (mem T * mem T) :=
    mz1 <- match zi with
           | None => ret mz
           | Some (mi, pi) =>
               for_each 0 (Z.mul 2 m)
                 (fun k z => v <- load mi (Z.add pi (Z.mul k sz)) ;; store z (Z.add pz (Z.mul k sz)) v) mz
           end ;;
    for_each 0 n
      (fun i st => let '(my, mz) := st in
         xi <- load mx (Z.add px (Z.mul i sz)) ;;
         '(my', mz', _) <- for_each 0 m (sos_section_contig sz ms ps pz py i) (my, mz, xi) ;;
         ret (my', mz'))
      (my, mz1).

  (** calloc(m*2, sizeof(T)): 2*m zeros at address 0.  The address is
      immaterial: every operand has its own memory. *)
  Definition calloc (sz m : Z) : mem T := mem_of 0 sz (repeat (a_ofZ A 0) (Z.to_nat (Z.mul 2 m))).

  (** src/sosfilter/sosfilter_gufunc.h:130-162  [sosfilter_core].  A failing
      calloc (the FIXME in the source) is not modelled. *)
  Definition sosfilter_core (sz : Z) (m n : Z) (ms : mem T) (ps ss0 ss1 : Z)
             (mx : mem T) (px sx : Z) (mo : mem T) (po so : Z) : M (mem T) :=
    let zi := calloc sz m in
    r <- (if (ss0 =? Z.mul 6 sz) && (ss1 =? sz) && (sx =? sz) && (so =? sz)
          then sosfilter_ic_contig_core sz m n ms ps mx px None mo po zi 0
          else sosfilter_ic_core sz m n ms ps ss0 ss1 mx px sx None mo po so zi 0 (Z.mul 2 sz) sz) ;;
    ret (fst r).
End Sos.

(** ** linear_interp1d *)
Section Interp.
  Context {T : Type} (A : arith T).
  Local Notation cmp := (a_cmp A).

  (** src/linear_interp1d/linear_interp1d_gufunc.c.src:53-66: the while loop, on
      explicit fuel ([None] when it runs out). *)
  Fixpoint interp_search_loop (fuel : nat) (key : T) (ma : mem T) (pa stride klow khigh : Z) : M Z :=
    if khigh >? klow + 1 then
      match fuel with
      | O => None
      | S fuel' =>
          let k := Z.quot (klow + khigh) 2 in
          val <- load ma (pa + k * stride) ;;
          if eqb cmp val key then ret k
          else if ltb cmp val key then interp_search_loop fuel' key ma pa stride k khigh
          else interp_search_loop fuel' key ma pa stride klow k
      end
    else ret klow.

  (** src/linear_interp1d/linear_interp1d_gufunc.c.src:33-69  [search]; the fuel
      [len] suffices. *)
  Definition interp_search (key : T) (ma : mem T) (pa len stride : Z) : M Z :=
    if len =? 1 then ret 0
    else
      low <- load ma (pa + 0 * stride) ;;
      if eqb cmp key low then ret 0
      else
        high <- load ma (pa + (len - 1) * stride) ;;
        if eqb cmp key high then ret (len - 1)
        else if len =? 2 then ret 0
        else interp_search_loop (Z.to_nat len) key ma pa stride 0 (len - 1).

  (** src/linear_interp1d/linear_interp1d_gufunc.c.src:127-155: one iteration of
      the general loop; the value stored into the output. *)
  Definition interp_general (n : Z) (x : M T) (mxp : mem T) (pxp xp_stride : Z)
             (mfp : mem T) (pfp fp_stride : Z) : M T :=
    if n <? 1 then ret (a_nan A)
    else
      x <- x ;;
      left <- load mxp pxp ;;
      right <- load mxp (pxp + (n - 1) * xp_stride) ;;
      if ltb cmp x left || gtb cmp x right then ret (a_nan A)
      else
        k <- interp_search x mxp pxp n xp_stride ;;
        xpk <- load mxp (pxp + k * xp_stride) ;;
        fpk <- load mfp (pfp + k * fp_stride) ;;
        if eqb cmp x xpk then ret fpk
        else
          xpk_next <- load mxp (pxp + (k + 1) * xp_stride) ;;
          fpk_next <- load mfp (pfp + (k + 1) * fp_stride) ;;
          let slope := a_div A (a_sub A fpk_next fpk) (a_sub A xpk_next xpk) in
          ret (a_add A fpk (a_mul A slope (a_sub A x xpk))).

  (** src/linear_interp1d/linear_interp1d_gufunc.c.src:92-124: the path taken when
      x and xp are the same for all iterations (both outer steps are 0). *)
  Definition interp_fast (nloops n : Z) (mx : mem T) (px : Z) (mxp : mem T) (pxp xp_stride : Z)
             (mfp : mem T) (pfp fp_outer fp_stride : Z) (mo : mem T) (po so : Z) : M (mem T) :=
    x <- load mx px ;;
    left <- load mxp pxp ;;
    right <- load mxp (pxp + (n - 1) * xp_stride) ;;
    if ltb cmp x left || gtb cmp x right then
      for_each 0 nloops (fun j m => set m po so j (a_nan A)) mo
    else
      k <- interp_search x mxp pxp n xp_stride ;;
      xpk <- load mxp (pxp + k * xp_stride) ;;
      r <- (if neb cmp x xpk then
              xpk_next <- load mxp (pxp + (k + 1) * xp_stride) ;;
              ret (a_div A (a_sub A x xpk) (a_sub A xpk_next xpk))
            else ret (a_ofZ A 0)) ;;
      for_each 0 nloops
        (fun j m =>
           fpk <- load mfp (pfp + j * fp_outer + k * fp_stride) ;;
           if eqb cmp x xpk then set m po so j fpk
           else
             fpk_next <- load mfp (pfp + j * fp_outer + (k + 1) * fp_stride) ;;
             set m po so j (a_add A fpk (a_mul A r (a_sub A fpk_next fpk))))
        mo.

  (** src/linear_interp1d/linear_interp1d_gufunc.c.src:71-156: the whole loop.
      [sx0 sxp0 sfp0 so] are steps[0..3], [xp_stride fp_stride] steps[4..5].
      Simplification: the [int] loop counter is unbounded. *)
  Definition interp_loop (nloops n : Z) (mx : mem T) (px sx0 : Z)
             (mxp : mem T) (pxp sxp0 xp_stride : Z) (mfp : mem T) (pfp sfp0 fp_stride : Z)
             (mo : mem T) (po so : Z) : M (mem T) :=
    if (sx0 =? 0) && (sxp0 =? 0) then
      interp_fast nloops n mx px mxp pxp xp_stride mfp pfp sfp0 fp_stride mo po so
    else
      for_each 0 nloops
        (fun j m =>
           v <- interp_general n (load mx (px + j * sx0)) mxp (pxp + j * sxp0) xp_stride
                               mfp (pfp + j * sfp0) fp_stride ;;
           set m po so j v)
        mo.
End Interp.

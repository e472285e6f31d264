(** Property theorems C17-C22 and C32: signal processing gufuncs. *)
From Coq Require Import ZArith Reals List Bool Lia Lra SpecFloat.
From Flocq Require Import Core BinarySingleNaN.
From Verif Require Import CSem CSemP Num NumP NumF M_Signal S_Signal P_Fill P_Relay P_Unwrap P_Sos P_Interp P_SignalR.
Import ListNotations.
Open Scope Z_scope.

(** Integer arithmetic, used only to evaluate the model in the examples. *)
Definition zarith : arith Z :=
  mkArith Z (fun z => z) Z.add Z.sub Z.mul Z.quot Z.opp Z.abs Z.sqrt Zcmp 0 0 (fun _ => false).
Definition outZ (n : nat) (st : Z) (r : M (mem Z)) : option (list (option Z)) :=
  option_map (fun mo : mem Z => map (fun i => mo (Z.of_nat i * st)) (seq 0 n)) r.

(** ** C17 fillnan1d.  Any arithmetic: real samples are kept, leading and trailing
    nans take the nearest real sample, gaps are filled with the value the source
    computes for the line between the two neighbours, all-nan input gives nan. *)
Theorem C17_fillnan1d_correct :
  forall {T L} (A : arith T) (AL : arith L) (up : T -> L) (down : L -> T) mx px sx x mo po so,
  view mx px sx x -> writable mo po so (length x) ->
  exists mo' out,
    fillnan1d_core A AL up down (Z.of_nat (length x)) mx px sx mo po so = Some mo' /\
    wrote mo mo' po so out /\ length out = length x /\
    forall i v, nth_error out i = Some v -> fill_at (isnanb (a_cmp A)) (a_nan A) (gap_value AL up down) x i v.
Proof. exact @fillnan1d_correct. Qed.
Print Assumptions C17_fillnan1d_correct.

(** exact arithmetic: the straight line, and no nan is left *)
Theorem C17_fillnan1d_exact :
  forall mx px sx x mo po so,
  view mx px sx x -> writable mo po so (length x) -> (forall u, In u x -> fin_or_nan u) ->
  exists mo' out,
    fillnan1d_core earith earith (fun v => v) (fun v => v) (Z.of_nat (length x)) mx px sx mo po so = Some mo' /\
    wrote mo mo' po so out /\ length out = length x /\
    (forall i v, nth_error out i = Some v -> fill_at (isnanb ecmp) ENaN eline x i v) /\
    ((exists r, In (Fin r) x) -> forall v, In v out -> exists r, v = Fin r).
Proof. exact @fillnan1d_exact. Qed.
Print Assumptions C17_fillnan1d_exact.

(** running it again changes nothing *)
Theorem C17_fillnan1d_idempotent :
  forall {T L} (A : arith T) (AL : arith L) up down mx px sx x mo po so mx2 px2 sx2 mo2 po2 so2 out mo1,
  view mx px sx x -> writable mo po so (length x) ->
  fillnan1d_core A AL up down (Z.of_nat (length x)) mx px sx mo po so = Some mo1 ->
  length out = length x -> view mo1 po so out -> (forall v, In v out -> isnanb (a_cmp A) v = false) ->
  view mx2 px2 sx2 out -> writable mo2 po2 so2 (length out) ->
  exists mo', fillnan1d_core A AL up down (Z.of_nat (length out)) mx2 px2 sx2 mo2 po2 so2 = Some mo' /\
    wrote mo2 mo' po2 so2 out.
Proof. exact @fillnan1d_idempotent. Qed.
Print Assumptions C17_fillnan1d_idempotent.

(** every pair of IEEE formats (T, long double): finite-or-nan data with at least
    one real sample leaves no nan, and keeps the real samples bit for bit *)
Theorem C17_fillnan1d_ieee :
  forall (prec emax precL emaxL : Z) (Hp : Prec_gt_0 prec) (He : Prec_lt_emax prec emax) (HpL : Prec_gt_0 precL) (HeL : Prec_lt_emax precL emaxL) (up : binary_float prec emax -> binary_float precL emaxL) (down : binary_float precL emaxL -> binary_float prec emax) mx px sx (x : list (binary_float prec emax)) mo po so,
  (64 < emaxL)%Z ->
  (forall v, is_finite v = true -> is_finite (up v) = true) ->
  (forall v, is_nan v = false -> is_nan (down v) = false) ->
  view mx px sx x -> writable mo po so (length x) -> (Z.of_nat (length x) < 2 ^ 63)%Z ->
  (forall v, In v x -> is_nan v = true \/ is_finite v = true) ->
  (exists v, In v x /\ is_finite v = true) ->
  exists mo' out,
    fillnan1d_core (farith prec emax Hp He) (farith precL emaxL HpL HeL) up down
      (Z.of_nat (length x)) mx px sx mo po so = Some mo' /\
    wrote mo mo' po so out /\ length out = length x /\
    (forall v, In v out -> is_nan v = false) /\
    (forall i v, nth_error x i = Some v -> is_nan v = false -> nth_error out i = Some v).
Proof. exact @fillnan1d_no_new_nan. Qed.
Print Assumptions C17_fillnan1d_ieee.

(** the conversions used for double data meet the hypotheses of C17_fillnan1d_ieee *)
Lemma C17_conversions :
  (forall v, is_finite v = true -> is_finite (f64_to_f80 v) = true) /\
  (forall v, is_nan v = false -> is_nan (f80_to_f64 v) = false).
Proof.
  split; intros v H.
  - apply fconv_finite; [reflexivity|exact f64_Hp|unfold f80_emax, f80_prec, f64_emax; lia|exact H].
  - apply fconv_nonan. exact H.
Qed.

(** false next to an infinity: a nan stays *)
Theorem C17_inf_neighbour_refuted :
  exists (x : list f64) i, (i < length x)%nat /\ (exists v, In v x /\ is_nan v = false) /\
    option_map (fun mo : mem f64 => option_map is_nan (mo (Z.of_nat i * 8)))
      (fillnan1d_core f64_arith f80_arith f64_to_f80 f80_to_f64 (Z.of_nat (length x)) (mem_of 0 8 x) 0 8
                  (mem_of 0 8 x) 0 8) = Some (Some true).
Proof. exact @fillnan_inf_refuted. Qed.
Print Assumptions C17_inf_neighbour_refuted.

Example C17_ex :
  f64_outs 6 (fillnan1d_core f64_arith f80_arith f64_to_f80 f80_to_f64 6
               (mem_of 0 16 [B754_nan; f64_ofZ 1; B754_nan; B754_nan; f64_ofZ 7; B754_nan]) 0 16
               (mem_of 0 8 (repeat (f64_ofZ 0) 6)) 0 8)
  = Some (map (fun z => Some (B2SF (f64_ofZ z))) [1; 1; 3; 5; 7; 7]).
Proof. vm_compute. reflexivity. Qed.

(** ** C18 hysteresis_relay *)
Theorem C18_hysteresis_correct :
  forall {T} (cmp : T -> T -> option comparison) (lo hi lv hv : T) mx px sx x init mo po so,
  view mx px sx x -> writable mo po so (length x) ->
  exists mo' out,
    hysteresis_relay_core cmp (Z.of_nat (length x)) mx px sx lo hi lv hv init mo po so = Some mo' /\
    wrote mo mo' po so out /\ length out = length x /\
    forall i y, nth_error out i = Some y -> relay_at cmp lo hi lv hv init x i y.
Proof. exact @hysteresis_correct. Qed.
Print Assumptions C18_hysteresis_correct.

Theorem C18_hysteresis_chunks :
  forall {T} (cmp : T -> T -> option comparison) lo hi lv hv init x y mx px sx my py sy mz pz sz o1 po1 so1 o2 po2 so2 o3 po3 so3,
  view mx px sx x -> view my py sy y -> view mz pz sz (x ++ y) ->
  writable o1 po1 so1 (length x) -> writable o2 po2 so2 (length y) -> writable o3 po3 so3 (length (x ++ y)) ->
  exists out1 out2, length out1 = length x /\ length out2 = length y /\
    writes (hysteresis_relay_core cmp (Z.of_nat (length x)) mx px sx lo hi lv hv init o1 po1 so1) o1 po1 so1 out1 /\
    writes (hysteresis_relay_core cmp (Z.of_nat (length y)) my py sy lo hi lv hv (last_or init out1) o2 po2 so2)
           o2 po2 so2 out2 /\
    writes (hysteresis_relay_core cmp (Z.of_nat (length (x ++ y))) mz pz sz lo hi lv hv init o3 po3 so3)
           o3 po3 so3 (out1 ++ out2).
Proof. exact @hysteresis_chunks. Qed.
Print Assumptions C18_hysteresis_chunks.

Example C18_ex :
  outZ 7 8 (hysteresis_relay_core Zcmp 7 (mem_of 0 8 [0; 3; 0; -3; 0; 1; 2]) 0 8 (-1) 1 10 20 15 (mem_of 0 8 (repeat 0 7)) 0 8)
  = Some [Some 15; Some 20; Some 20; Some 10; Some 10; Some 10; Some 20].
Proof. vm_compute. reflexivity. Qed.

(** ** C19 backlash *)
Theorem C19_backlash_exact :
  forall mx px sx x w init mo po so,
  (0 <= w)%R -> view mx px sx (map Fin x) -> writable mo po so (length x) ->
  exists ys, length ys = length x /\
    writes (backlash_core earith (Z.of_nat (length x)) mx px sx (Fin w) (Fin init) mo po so) mo po so (map Fin ys) /\
    backlash_run (w / 2) init x ys /\
    (forall i xi xj yi yj, nth_error x i = Some xi -> nth_error x (S i) = Some xj ->
       nth_error ys i = Some yi -> nth_error ys (S i) = Some yj ->
       (xi <= xj -> yi <= yj)%R /\ (xj <= xi -> yj <= yi)%R).
Proof. exact @backlash_exact_full. Qed.
Print Assumptions C19_backlash_exact.

Theorem C19_backlash_chunks :
  forall {T} (A : arith T) w init x y mx px sx my py sy mz pz sz o1 po1 so1 o2 po2 so2 o3 po3 so3,
  view mx px sx x -> view my py sy y -> view mz pz sz (x ++ y) ->
  writable o1 po1 so1 (length x) -> writable o2 po2 so2 (length y) -> writable o3 po3 so3 (length (x ++ y)) ->
  exists out1 out2, length out1 = length x /\ length out2 = length y /\
    writes (backlash_core A (Z.of_nat (length x)) mx px sx w init o1 po1 so1) o1 po1 so1 out1 /\
    writes (backlash_core A (Z.of_nat (length y)) my py sy w (last_or init out1) o2 po2 so2) o2 po2 so2 out2 /\
    writes (backlash_core A (Z.of_nat (length (x ++ y))) mz pz sz w init o3 po3 so3) o3 po3 so3 (out1 ++ out2).
Proof. exact @backlash_chunks. Qed.
Print Assumptions C19_backlash_chunks.

(** IEEE: every output lies in the rounded band of its input and follows the
    direction of the input *)
Theorem C19_backlash_ieee :
  forall (prec emax : Z) (Hp : Prec_gt_0 prec) (He : Prec_lt_emax prec emax) mx px sx (x : list (binary_float prec emax)) w init mo po so,
  (1 < emax)%Z -> is_finite w = true -> (0 <= B2R w)%R -> is_nan init = false ->
  (forall a, In a x -> is_finite a = true) ->
  view mx px sx x -> writable mo po so (length x) ->
  exists ys h, length ys = length x /\ h = a_div (farith prec emax Hp He) w (a_ofZ (farith prec emax Hp He) 2) /\
    writes (backlash_core (farith prec emax Hp He) (Z.of_nat (length x)) mx px sx w init mo po so) mo po so ys /\
    (forall i a y, nth_error x i = Some a -> nth_error ys i = Some y ->
       leb (@Bcompare prec emax) (a_sub (farith prec emax Hp He) a h) y = true /\ leb (@Bcompare prec emax) y (a_add (farith prec emax Hp He) a h) = true) /\
    (forall i a a' y y', nth_error x i = Some a -> nth_error x (S i) = Some a' ->
       nth_error ys i = Some y -> nth_error ys (S i) = Some y' ->
       (leb (@Bcompare prec emax) a a' = true -> leb (@Bcompare prec emax) y y' = true) /\ (leb (@Bcompare prec emax) a' a = true -> leb (@Bcompare prec emax) y' y = true)).
Proof. exact @backlash_ieee. Qed.
Print Assumptions C19_backlash_ieee.

Example C19_ex :
  outZ 6 8 (backlash_core zarith 6 (mem_of 0 8 [0; 5; 4; 3; 1; 2]) 0 8 4 0 (mem_of 0 8 (repeat 0 6)) 0 8)
  = Some [Some 0; Some 3; Some 3; Some 3; Some 3; Some 3] /\
  (exists ys, writes (backlash_core earith 3 (mem_of 0 8 (map Fin [0; 5; 1]%R)) 0 8 (Fin 2) (Fin 0)
                 (mem_of 0 8 (map Fin [0; 0; 0]%R)) 0 8) (mem_of 0 8 (map Fin [0; 0; 0]%R)) 0 8 (map Fin ys) /\
              backlash_run (2 / 2) 0 [0; 5; 1]%R ys).
Proof.
  split; [vm_compute; reflexivity|].
  destruct (C19_backlash_exact (mem_of 0 8 (map Fin [0; 5; 1]%R)) 0 8 [0; 5; 1]%R 2%R 0%R (mem_of 0 8 (map Fin [0; 0; 0]%R)) 0 8)
    as (ys & _ & W & Rn & _).
  - lra.
  - apply view_mem_of; lia.
  - apply (writable_mem_of 0 8 (map Fin [0; 0; 0]%R)); lia.
  - exists ys. split; [exact W|exact Rn].
Qed.

(** ** C20 backlash_sum *)
Theorem C20_backlash_sum_correct :
  forall {T} (A : arith T) mx px sx x mw pw sw wl md pd sd dl mi pi si il mo po so mf pf sf,
  view mx px sx x -> view mw pw sw wl -> view md pd sd dl -> view mi pi si il ->
  length dl = length wl -> length il = length wl ->
  writable mo po so (length x) -> writable mf pf sf (length wl) ->
  exists mo' mf' out fin (B : list (list T)),
    backlash_sum_core A (Z.of_nat (length x)) (Z.of_nat (length wl)) mx px sx mw pw sw md pd sd mi pi si
      mo po so mf pf sf = Some (mo', mf') /\
    wrote mo mo' po so out /\ length out = length x /\
    wrote mf mf' pf sf fin /\ length fin = length wl /\
    length B = length wl /\
    (forall j d y b, nth_error dl j = Some d -> nth_error il j = Some y -> nth_error B j = Some b ->
       length b = length x /\
       writes (backlash_core A (Z.of_nat (length x)) mx px sx d y mo po so) mo po so b /\
       nth_error fin j = Some (last_or y b)) /\
    (forall i y dflt, nth_error out i = Some y ->
       y = fold_left (fun s q => a_add A s (a_mul A (fst q) (nth i (snd q) dflt))) (combine wl B) (a_ofZ A 0)).
Proof. exact @backlash_sum_correct. Qed.
Print Assumptions C20_backlash_sum_correct.

Theorem C20_backlash_sum_chunks :
  forall {T} (A : arith T) x y wl dl il mx px sx my py sy mz pz sz mw pw sw md pd sd mi pi si o1 po1 so1 f1 pf1 sf1 o2 po2 so2 f2 pf2 sf2 o3 po3 so3 f3 pf3 sf3,
  view mx px sx x -> view my py sy y -> view mz pz sz (x ++ y) ->
  view mw pw sw wl -> view md pd sd dl -> view mi pi si il -> length dl = length wl -> length il = length wl ->
  writable o1 po1 so1 (length x) -> writable o2 po2 so2 (length y) -> writable o3 po3 so3 (length (x ++ y)) ->
  writable f1 pf1 sf1 (length wl) -> writable f2 pf2 sf2 (length wl) -> writable f3 pf3 sf3 (length wl) ->
  exists m1 g1 m2 g2 m3 g3 out1 out2 fin,
    backlash_sum_core A (Z.of_nat (length x)) (Z.of_nat (length wl)) mx px sx mw pw sw md pd sd mi pi si
      o1 po1 so1 f1 pf1 sf1 = Some (m1, g1) /\
    backlash_sum_core A (Z.of_nat (length y)) (Z.of_nat (length wl)) my py sy mw pw sw md pd sd g1 pf1 sf1
      o2 po2 so2 f2 pf2 sf2 = Some (m2, g2) /\
    backlash_sum_core A (Z.of_nat (length (x ++ y))) (Z.of_nat (length wl)) mz pz sz mw pw sw md pd sd mi pi si
      o3 po3 so3 f3 pf3 sf3 = Some (m3, g3) /\
    length out1 = length x /\ length out2 = length y /\ length fin = length wl /\
    wrote o1 m1 po1 so1 out1 /\ wrote o2 m2 po2 so2 out2 /\ wrote o3 m3 po3 so3 (out1 ++ out2) /\
    wrote f2 g2 pf2 sf2 fin /\ wrote f3 g3 pf3 sf3 fin.
Proof. exact @backlash_sum_chunks. Qed.
Print Assumptions C20_backlash_sum_chunks.

Example C20_ex :
  match backlash_sum_core zarith 4 2 (mem_of 0 8 [0; 5; 4; -3]) 0 8 (mem_of 0 8 [1; 10]) 0 8 (mem_of 0 8 [2; 4]) 0 8
          (mem_of 0 8 [0; 0]) 0 8 (mem_of 0 8 (repeat 7 4)) 0 8 (mem_of 0 8 [9; 9]) 0 8 with
  | Some (mo, mf) => map (fun i => mo (Z.of_nat i * 8)) (seq 0 4) ++ map (fun i => mf (Z.of_nat i * 8)) (seq 0 2)
  | None => []
  end = [Some 0; Some 34; Some 34; Some (-12); Some (-2); Some (-1)].
Proof. vm_compute. reflexivity. Qed.

(** ** C21 unwrap.  Exact arithmetic, data for which the number of periods fits in
    an int: the first sample is kept, every later one is moved by a whole number of
    periods to within half a period of its predecessor. *)
Theorem C21_unwrap_exact :
  forall mx px sx x0 l P B mo po so,
  (0 < P)%R -> (forall v, In v (x0 :: l) -> Rabs v <= B)%R ->
  (2 * B / P + INR (length l) / 2 + / 2 < 2147483648)%R ->
  view mx px sx (map Fin (x0 :: l)) -> writable mo po so (length (x0 :: l)) ->
  exists ys, length ys = length l /\
    writes (eunwrap_core (Z.of_nat (length (x0 :: l))) mx px sx (Fin P) mo po so) mo po so (map Fin (x0 :: ys)) /\
    unwrap_run P x0 l ys.
Proof. exact @unwrap_exact. Qed.
Print Assumptions C21_unwrap_exact.

(** steps below half a period: nothing changes *)
Theorem C21_unwrap_unchanged :
  forall mx px sx x0 l P mo po so,
  (0 < P)%R -> small_steps P x0 l ->
  view mx px sx (map Fin (x0 :: l)) -> writable mo po so (length (x0 :: l)) ->
  writes (eunwrap_core (Z.of_nat (length (x0 :: l))) mx px sx (Fin P) mo po so) mo po so (map Fin (x0 :: l)).
Proof. exact @unwrap_unchanged. Qed.
Print Assumptions C21_unwrap_unchanged.

(** any arithmetic (IEEE included), whenever the computation is defined *)
Theorem C21_unwrap_any_type :
  forall {T D} (A : arith T) (AD : arith D) (up : T -> D) (signbit : D -> bool) (trunc : D -> option Z) mx px sx x0 l P mo po so mo',
  view mx px sx (x0 :: l) -> writable mo po so (length (x0 :: l)) ->
  (forall v, In v l -> isnanb (a_cmp A) v = false /\ a_isinf A v = false) ->
  unwrap_core A AD up signbit trunc (Z.of_nat (length (x0 :: l))) mx px sx P mo po so = Some mo' ->
  exists ys, length ys = length l /\ wrote mo mo' po so (x0 :: ys) /\
    forall i x y, nth_error l i = Some x -> nth_error ys i = Some y ->
      exists q, (- 2 ^ 31 <= q < 2 ^ 31) /\ y = a_sub A x (a_mul A (a_ofZ A q) P).
Proof. exact @unwrap_any_type. Qed.
Print Assumptions C21_unwrap_any_type.

(** a non-finite sample after the first: nan from there on, earlier output unaffected *)
Theorem C21_unwrap_nonfinite :
  forall {T D} (A : arith T) (AD : arith D) up sb tr x0 l bad rest P mx px sx my py sy mo po so m1 o2 po2 so2 ys,
  (forall v, In v l -> isnanb (a_cmp A) v = false /\ a_isinf A v = false) ->
  (isnanb (a_cmp A) bad = true \/ a_isinf A bad = true) ->
  view mx px sx (x0 :: l) -> writable mo po so (length (x0 :: l)) ->
  view my py sy (x0 :: l ++ bad :: rest) -> writable o2 po2 so2 (length (x0 :: l ++ bad :: rest)) ->
  unwrap_core A AD up sb tr (Z.of_nat (length (x0 :: l))) mx px sx P mo po so = Some m1 ->
  view m1 po so ys -> length ys = length (x0 :: l) ->
  writes (unwrap_core A AD up sb tr (Z.of_nat (length (x0 :: l ++ bad :: rest))) my py sy P o2 po2 so2)
    o2 po2 so2 (ys ++ repeat (a_nan A) (S (length rest))).
Proof. exact @unwrap_nonfinite. Qed.
Print Assumptions C21_unwrap_nonfinite.

Theorem C21_inf_first_refuted :
  exists x : list f64, is_nan (hd B754_nan x) = false /\ (length x = 2)%nat /\
    funwrap 2 x (f64_ofZ 1) (mem_of 0 8 x) = None.
Proof. exact @unwrap_inf_first_refuted. Qed.
Print Assumptions C21_inf_first_refuted.

Theorem C21_overflow_refuted :
  exists x : list f64, (forall v, In v x -> is_finite v = true) /\ funwrap (Z.of_nat (length x)) x (f64_ofZ 1) (mem_of 0 8 x) = None.
Proof. exact @unwrap_overflow_refuted. Qed.
Print Assumptions C21_overflow_refuted.

Theorem C21_idempotent_refuted :
  exists (x y z : list f64), length x = length y /\ length y = length z /\
    f64_outs (length x) (funwrap (Z.of_nat (length x)) x (f64_ofZ 4) (mem_of 0 8 x)) = Some (map (fun v => Some (B2SF v)) y) /\
    f64_outs (length y) (funwrap (Z.of_nat (length y)) y (f64_ofZ 4) (mem_of 0 8 y)) = Some (map (fun v => Some (B2SF v)) z) /\
    map B2SF y <> map B2SF z.
Proof. exact @unwrap_idempotent_refuted. Qed.
Print Assumptions C21_idempotent_refuted.

Theorem C21_small_step_ieee_refuted :
  exists x1 : f64, is_finite x1 = true /\ a_cmp f64_arith x1 (a_div f64_arith (f64_ofZ 1) (f64_ofZ 2)) = Some Lt /\
    a_cmp f64_arith (f64_ofZ 0) x1 = Some Lt /\
    f64_outs 2 (funwrap 2 [f64_ofZ 0; x1] (f64_ofZ 1) (mem_of 0 8 [f64_ofZ 0; x1])) =
      Some [Some (B2SF (f64_ofZ 0)); Some (B2SF (a_sub f64_arith x1 (f64_ofZ 1)))].
Proof. exact @unwrap_small_step_refuted. Qed.
Print Assumptions C21_small_step_ieee_refuted.

Example C21_ex :
  f64_outs 5 (funwrap 5 (map f64_ofZ [0; 3; 6; 1; 4]) (f64_ofZ 8) (mem_of 0 8 (repeat (f64_ofZ 0) 5)))
  = Some (map (fun z => Some (B2SF (f64_ofZ z))) [0; 3; 6; 9; 12]) /\
  (exists ys, writes (unwrap_core earith earith (fun v : ER => v) esignbit etrunc 3 (mem_of 0 8 (map Fin [0; 3; 6]%R)) 0 8 (Fin 4)
                 (mem_of 0 8 (map Fin [0; 0; 0]%R)) 0 8) (mem_of 0 8 (map Fin [0; 0; 0]%R)) 0 8 (map Fin (0%R :: ys)) /\
              unwrap_run 4 0 [3; 6]%R ys).
Proof.
  split; [vm_compute; reflexivity|].
  destruct (C21_unwrap_exact (mem_of 0 8 (map Fin [0; 3; 6]%R)) 0 8 0%R [3; 6]%R 4%R 6%R (mem_of 0 8 (map Fin [0; 0; 0]%R)) 0 8)
    as (ys & _ & W & Rn).
  - lra.
  - intros v [<-|[<-|[<-|[]]]]; rewrite Rabs_pos_eq; lra.
  - simpl. lra.
  - apply view_mem_of; lia.
  - apply (writable_mem_of 0 8 (map Fin [0; 0; 0]%R)); lia.
  - exists ys. split; [exact W|exact Rn].
Qed.

(** ** C22 sosfilter, sosfilter_ic, sosfilter_ic_contig.  Any arithmetic, bit for
    bit: the result is that of filtering the whole signal with the first section,
    then with the second, and so on. *)
Theorem C22_sosfilter_ic_correct :
  forall {T} (A : arith T) sz ms ps ss0 ss1 mx px sx mi pi is0 is1 my py sy mz pz zs0 zs1 secs zs xs,
  secs <> [] -> length zs = length secs ->
  view2 ms ps ss0 ss1 (map sec_row secs) -> view mx px sx xs -> view2 mi pi is0 is1 (map st_row zs) ->
  writable my py sy (length xs) -> writable2 mz pz zs0 zs1 (length secs) 2 ->
  exists my' mz',
    sosfilter_ic_core A sz (Z.of_nat (length secs)) (Z.of_nat (length xs)) ms ps ss0 ss1 mx px sx
      (Some (mi, pi, is0, is1)) my py sy mz pz zs0 zs1 = Some (my', mz') /\
    wrote my my' py sy (fst (cascade A secs zs xs)) /\
    wrote2 mz mz' pz zs0 zs1 2 (map st_row (snd (cascade A secs zs xs))).
Proof. exact @sosfilter_ic_correct. Qed.
Print Assumptions C22_sosfilter_ic_correct.

Theorem C22_sosfilter_ic_contig_correct :
  forall {T} (A : arith T) sz ms ps mx px mi pi my py mz pz secs zs xs,
  0 < sz -> secs <> [] -> length zs = length secs ->
  view2 ms ps (6 * sz) sz (map sec_row secs) -> view mx px sz xs -> view2 mi pi (2 * sz) sz (map st_row zs) ->
  writable my py sz (length xs) -> writable2 mz pz (2 * sz) sz (length secs) 2 ->
  exists my' mz',
    sosfilter_ic_contig_core A sz (Z.of_nat (length secs)) (Z.of_nat (length xs)) ms ps mx px
      (Some (mi, pi)) my py mz pz = Some (my', mz') /\
    wrote my my' py sz (fst (cascade A secs zs xs)) /\
    wrote2 mz mz' pz (2 * sz) sz 2 (map st_row (snd (cascade A secs zs xs))).
Proof. exact @sosfilter_ic_contig_correct. Qed.
Print Assumptions C22_sosfilter_ic_contig_correct.

(** sosfilter is sosfilter_ic started from zero, on both of its paths *)
Theorem C22_sosfilter_correct :
  forall {T} (A : arith T) sz ms ps ss0 ss1 mx px sx mo po so secs xs,
  0 < sz -> secs <> [] ->
  view2 ms ps ss0 ss1 (map sec_row secs) -> view mx px sx xs -> writable mo po so (length xs) ->
  writes (sosfilter_core A sz (Z.of_nat (length secs)) (Z.of_nat (length xs)) ms ps ss0 ss1 mx px sx mo po so)
    mo po so (fst (cascade A secs (repeat (a_ofZ A 0, a_ofZ A 0) (length secs)) xs)).
Proof. exact @sosfilter_correct. Qed.
Print Assumptions C22_sosfilter_correct.

(** filtering in blocks *)
Theorem C22_sosfilter_ic_chunks :
  forall {T} (A : arith T) sz ms ps ss0 ss1 secs zs mx1 px1 sx1 xs1 mx2 px2 sx2 xs2 mx px sx mi pi is0 is1 my1 py1 sy1 my2 py2 sy2 my py sy mz1 pz1 z1s0 z1s1 mz2 pz2 z2s0 z2s1 mz pz zs0 zs1,
  secs <> [] -> length zs = length secs ->
  view2 ms ps ss0 ss1 (map sec_row secs) -> view2 mi pi is0 is1 (map st_row zs) ->
  view mx1 px1 sx1 xs1 -> view mx2 px2 sx2 xs2 -> view mx px sx (xs1 ++ xs2) ->
  writable my1 py1 sy1 (length xs1) -> writable my2 py2 sy2 (length xs2) -> writable my py sy (length (xs1 ++ xs2)) ->
  writable2 mz1 pz1 z1s0 z1s1 (length secs) 2 -> writable2 mz2 pz2 z2s0 z2s1 (length secs) 2 ->
  writable2 mz pz zs0 zs1 (length secs) 2 ->
  exists my1' mz1' my2' mz2' my' mz' ys1 ys2 zf,
    sosfilter_ic_core A sz (Z.of_nat (length secs)) (Z.of_nat (length xs1)) ms ps ss0 ss1 mx1 px1 sx1
      (Some (mi, pi, is0, is1)) my1 py1 sy1 mz1 pz1 z1s0 z1s1 = Some (my1', mz1') /\
    sosfilter_ic_core A sz (Z.of_nat (length secs)) (Z.of_nat (length xs2)) ms ps ss0 ss1 mx2 px2 sx2
      (Some (mz1', pz1, z1s0, z1s1)) my2 py2 sy2 mz2 pz2 z2s0 z2s1 = Some (my2', mz2') /\
    sosfilter_ic_core A sz (Z.of_nat (length secs)) (Z.of_nat (length (xs1 ++ xs2))) ms ps ss0 ss1 mx px sx
      (Some (mi, pi, is0, is1)) my py sy mz pz zs0 zs1 = Some (my', mz') /\
    length ys1 = length xs1 /\ length ys2 = length xs2 /\ length zf = length secs /\
    view my1' py1 sy1 ys1 /\ view my2' py2 sy2 ys2 /\ view my' py sy (ys1 ++ ys2) /\
    view2 mz2' pz2 z2s0 z2s1 (map st_row zf) /\ view2 mz' pz zs0 zs1 (map st_row zf).
Proof. exact @sosfilter_ic_chunks. Qed.
Print Assumptions C22_sosfilter_ic_chunks.

(** exact arithmetic: the difference equation of each section *)
Theorem C22_sosfilter_exact :
  forall sz ms ps ss0 ss1 mx px sx mo po so secs xs,
  0 < sz -> secs <> [] ->
  view2 ms ps ss0 ss1 (map sec_row (map fsec secs)) -> view mx px sx (map Fin xs) -> writable mo po so (length xs) ->
  exists ys,
    writes (sosfilter_core earith sz (Z.of_nat (length secs)) (Z.of_nat (length xs)) ms ps ss0 ss1 mx px sx mo po so)
      mo po so (map Fin ys) /\ sos_eq secs xs ys.
Proof. exact @sosfilter_exact. Qed.
Print Assumptions C22_sosfilter_exact.

Theorem C22_sosfilter_linear :
  forall sz ms ps ss0 ss1 secs c1 c2 mx1 px1 sx1 xs1 mx2 px2 sx2 xs2 mx px sx m1 p1 s1 m2 p2 s2 mo po so,
  0 < sz -> secs <> [] -> length xs1 = length xs2 ->
  view2 ms ps ss0 ss1 (map sec_row (map fsec secs)) ->
  view mx1 px1 sx1 (map Fin xs1) -> view mx2 px2 sx2 (map Fin xs2) -> view mx px sx (map Fin (lin c1 xs1 c2 xs2)) ->
  writable m1 p1 s1 (length xs1) -> writable m2 p2 s2 (length xs2) -> writable mo po so (length xs1) ->
  exists ys1 ys2,
    writes (sosfilter_core earith sz (Z.of_nat (length secs)) (Z.of_nat (length xs1)) ms ps ss0 ss1 mx1 px1 sx1 m1 p1 s1)
      m1 p1 s1 (map Fin ys1) /\
    writes (sosfilter_core earith sz (Z.of_nat (length secs)) (Z.of_nat (length xs2)) ms ps ss0 ss1 mx2 px2 sx2 m2 p2 s2)
      m2 p2 s2 (map Fin ys2) /\
    writes (sosfilter_core earith sz (Z.of_nat (length secs)) (Z.of_nat (length xs1)) ms ps ss0 ss1 mx px sx mo po so)
      mo po so (map Fin (lin c1 ys1 c2 ys2)).
Proof. exact @sosfilter_linear. Qed.
Print Assumptions C22_sosfilter_linear.

(** linear in the signal and the initial state together *)
Theorem C22_sosfilter_ic_linear :
  forall sz ms ps ss0 ss1 secs c1 c2 mx1 px1 sx1 xs1 mx2 px2 sx2 xs2 mx px sx mi1 pi1 i1s0 i1s1 zs1 mi2 pi2 i2s0 i2s1 zs2 mi pi is0 is1 my1 py1 sy1 my2 py2 sy2 my py sy mz1 pz1 z1s0 z1s1 mz2 pz2 z2s0 z2s1 mz pz zs0 zs1',
  secs <> [] -> length xs1 = length xs2 -> length zs1 = length secs -> length zs2 = length secs ->
  view2 ms ps ss0 ss1 (map sec_row (map fsec secs)) ->
  view mx1 px1 sx1 (map Fin xs1) -> view mx2 px2 sx2 (map Fin xs2) -> view mx px sx (map Fin (lin c1 xs1 c2 xs2)) ->
  view2 mi1 pi1 i1s0 i1s1 (map st_row (map fst_st zs1)) -> view2 mi2 pi2 i2s0 i2s1 (map st_row (map fst_st zs2)) ->
  view2 mi pi is0 is1 (map st_row (map fst_st (lin2 c1 zs1 c2 zs2))) ->
  writable my1 py1 sy1 (length xs1) -> writable my2 py2 sy2 (length xs2) -> writable my py sy (length xs1) ->
  writable2 mz1 pz1 z1s0 z1s1 (length secs) 2 -> writable2 mz2 pz2 z2s0 z2s1 (length secs) 2 ->
  writable2 mz pz zs0 zs1' (length secs) 2 ->
  exists my1' mz1' my2' mz2' my' mz' ys1 ys2 zf1 zf2,
    sosfilter_ic_core earith sz (Z.of_nat (length secs)) (Z.of_nat (length xs1)) ms ps ss0 ss1 mx1 px1 sx1
      (Some (mi1, pi1, i1s0, i1s1)) my1 py1 sy1 mz1 pz1 z1s0 z1s1 = Some (my1', mz1') /\
    sosfilter_ic_core earith sz (Z.of_nat (length secs)) (Z.of_nat (length xs1)) ms ps ss0 ss1 mx2 px2 sx2
      (Some (mi2, pi2, i2s0, i2s1)) my2 py2 sy2 mz2 pz2 z2s0 z2s1 = Some (my2', mz2') /\
    sosfilter_ic_core earith sz (Z.of_nat (length secs)) (Z.of_nat (length xs1)) ms ps ss0 ss1 mx px sx
      (Some (mi, pi, is0, is1)) my py sy mz pz zs0 zs1' = Some (my', mz') /\
    wrote my1 my1' py1 sy1 (map Fin ys1) /\ wrote2 mz1 mz1' pz1 z1s0 z1s1 2 (map st_row (map fst_st zf1)) /\
    wrote my2 my2' py2 sy2 (map Fin ys2) /\ wrote2 mz2 mz2' pz2 z2s0 z2s1 2 (map st_row (map fst_st zf2)) /\
    wrote my my' py sy (map Fin (lin c1 ys1 c2 ys2)) /\
    wrote2 mz mz' pz zs0 zs1' 2 (map st_row (map fst_st (lin2 c1 zf1 c2 zf2))).
Proof. exact @sosfilter_ic_linear. Qed.
Print Assumptions C22_sosfilter_ic_linear.

(** with no sections the output is left unwritten (the identity would be expected) *)
Theorem C22_no_sections_unwritten :
  forall {T} (A : arith T) sz n ms ps ss0 ss1 mx px sx mo po so xs,
    Z.of_nat (length xs) = n -> view mx px sx xs ->
    sosfilter_core A sz 0 n ms ps ss0 ss1 mx px sx mo po so = Some mo.
Proof. exact @sosfilter_empty_refuted. Qed.
Print Assumptions C22_no_sections_unwritten.

Example C22_ex :
  (* impulse response of y[n] = x[n] + x[n-1] + 2 y[n-1], then y[n] = 3 x[n] + x[n-2] *)
  outZ 5 8 (sosfilter_core zarith 8 2 5 (mem_of 0 8 [1; 1; 0; 1; -2; 0;  3; 0; 1; 1; 0; 0]) 0 48 8
              (mem_of 0 8 [1; 0; 0; 0; 0]) 0 8 (mem_of 0 8 (repeat 7 5)) 0 8)
  = Some [Some 3; Some 9; Some 19; Some 39; Some 78] /\
  outZ 5 16 (sosfilter_core zarith 8 2 5 (mem_of 0 8 [1; 1; 0; 1; -2; 0;  3; 0; 1; 1; 0; 0]) 0 48 8
              (mem_of 0 8 [0; 0; 0; 0; 1]) 32 (-8) (mem_of 0 16 (repeat 7 5)) 0 16)
  = Some [Some 3; Some 9; Some 19; Some 39; Some 78].
Proof. vm_compute. auto. Qed.

(** ** C32 linear_interp1d.  Any arithmetic whose comparison is a C comparison:
    nan outside, the tabulated value at a node, the line formula in between. *)
Theorem C32_interp_general :
  forall {T} (A : arith T) (L : cmp_laws (a_cmp A)) n mx px sx0 mxp pxp sxp0 xps mfp pfp sfp0 fps mo po so rows,
  (0 < n)%nat -> (sx0 <> 0 \/ sxp0 <> 0) ->
  (forall j r, nth_error rows j = Some r -> row_ok A n mx px sx0 mxp pxp sxp0 xps mfp pfp sfp0 fps j r) ->
  writable mo po so (length rows) ->
  exists vs,
    writes (interp_loop A (Z.of_nat (length rows)) (Z.of_nat n) mx px sx0 mxp pxp sxp0 xps mfp pfp sfp0 fps mo po so)
      mo po so vs /\
    Forall2 (fun r v => let '(x, xs, fs) := r in interp_at A (line_general A) xs fs x v) rows vs.
Proof. exact @interp_general_loop. Qed.
Print Assumptions C32_interp_general.

Theorem C32_interp_fast :
  forall {T} (A : arith T) (L : cmp_laws (a_cmp A)) mx px mxp pxp xps mfp pfp sfp0 fps mo po so x xs fps_l,
  xs <> [] -> mx px = Some x -> view mxp pxp xps xs -> isnanb (a_cmp A) x = false -> (forall a, In a xs -> isnanb (a_cmp A) a = false) ->
  increasing (a_cmp A) xs ->
  (forall j fs, nth_error fps_l j = Some fs -> length fs = length xs /\ view mfp (pfp + Z.of_nat j * sfp0) fps fs) ->
  writable mo po so (length fps_l) ->
  exists vs,
    writes (interp_loop A (Z.of_nat (length fps_l)) (Z.of_nat (length xs)) mx px 0 mxp pxp 0 xps mfp pfp sfp0 fps mo po so)
      mo po so vs /\
    Forall2 (fun fs v => interp_at A (line_fast A) xs fs x v) fps_l vs.
Proof. exact @interp_fast_loop. Qed.
Print Assumptions C32_interp_fast.

(** exact arithmetic: both paths, any steps, give the interpolating line *)
Theorem C32_interp_exact :
  forall n mx px sx0 mxp pxp sxp0 xps mfp pfp sfp0 fps mo po so rows,
  (0 < n)%nat -> rows <> [] ->
  (forall j r, nth_error rows j = Some r -> rrow_ok n mx px sx0 mxp pxp sxp0 xps mfp pfp sfp0 fps j r) ->
  writable mo po so (length rows) ->
  exists vs,
    writes (interp_loop earith (Z.of_nat (length rows)) (Z.of_nat n) mx px sx0 mxp pxp sxp0 xps mfp pfp sfp0 fps mo po so)
      mo po so vs /\
    Forall2 (fun r v => let '(x, xs, fs) := r in rinterp_at xs fs x v) rows vs.
Proof. exact @interp_loop_exact. Qed.
Print Assumptions C32_interp_exact.

Theorem C32_interp_nan :
  forall mxp pxp xps mfp pfp fps xs fs,
  (2 <= length xs)%nat -> length fs = length xs ->
  view mxp pxp xps (map Fin xs) -> view mfp pfp fps (map Fin fs) ->
  interp_general earith (Z.of_nat (length xs)) (Some ENaN) mxp pxp xps mfp pfp fps = Some ENaN.
Proof. exact @interp_nan. Qed.
Print Assumptions C32_interp_nan.

(** the two paths are not bitwise equal in double precision *)
Theorem C32_paths_refuted :
  let xp := [f64_ofZ 0; f64_ofZ 3] in let fp := [f64_ofZ 0; f64_ofZ 10] in
  let x := [f64_ofZ 1] in let o := [f64_ofZ 0] in
  let run sx := f64_outs 1 (interp_loop f64_arith 1 2 (mem_of 0 8 x) 0 sx (mem_of 0 8 xp) 0 0 8 (mem_of 0 8 fp) 0 0 8 (mem_of 0 8 o) 0 8) in
  run 0 <> None /\ run 8 <> None /\ run 0 <> run 8.
Proof. exact @interp_paths_refuted. Qed.
Print Assumptions C32_paths_refuted.

Theorem C32_nan_one_node_refuted :
  exists xp fp x : f64, is_nan x = true /\
    interp_loop f64_arith 1 1 (mem_of 0 8 [x]) 0 8 (mem_of 0 8 [xp]) 0 8 8 (mem_of 0 8 [fp]) 0 8 8 (mem_of 0 8 [fp]) 0 8 = None.
Proof. exact @interp_nan_one_node_refuted. Qed.
Print Assumptions C32_nan_one_node_refuted.

Theorem C32_empty_refuted :
  exists x o : f64,
    f64_outs 1 (interp_loop f64_arith 1 0 (mem_of 0 8 [x]) 0 8 (mem_of 0 8 []) 0 0 8 (mem_of 0 8 []) 0 0 8 (mem_of 0 8 [o]) 0 8)
      = Some [Some S754_nan] /\
    interp_loop f64_arith 1 0 (mem_of 0 8 [x]) 0 0 (mem_of 0 8 []) 0 0 8 (mem_of 0 8 []) 0 0 8 (mem_of 0 8 [o]) 0 8 = None.
Proof. exact @interp_empty_refuted. Qed.
Print Assumptions C32_empty_refuted.

Example C32_ex :
  (* x = 0, 2, 3, 5, 9 on nodes (1,10) (3,30) (7,70): nan, 20, 30, 50, nan; stride of xp is -8 *)
  f64_outs 5 (interp_loop f64_arith 5 3 (mem_of 0 8 (map f64_ofZ [0; 2; 3; 5; 9])) 0 8
               (mem_of 0 8 (map f64_ofZ [7; 3; 1])) 16 0 (-8) (mem_of 0 8 (map f64_ofZ [10; 30; 70])) 0 0 8
               (mem_of 0 8 (repeat (f64_ofZ 0) 5)) 0 8)
  = Some [Some S754_nan; Some (B2SF (f64_ofZ 20)); Some (B2SF (f64_ofZ 30)); Some (B2SF (f64_ofZ 50)); Some S754_nan] /\
  rincreasing [1; 3; 7]%R.
Proof.
  split; [vm_compute; reflexivity|].
  intros i j a b Hij Ha Hb.
  destruct i as [|[|[|i]]]; cbn in Ha; try (destruct i; discriminate);
  destruct j as [|[|[|j]]]; cbn in Hb; try (destruct j; discriminate); try lia;
  injection Ha as <-; injection Hb as <-; lra.
Qed.

(** * S_Ref: what reference counting is about (specification for C65) *)
From Coq Require Import ZArith List Bool.
From Verif Require Import CSem M_Obj M_Geom M_Ref.
Import ListNotations.
Open Scope Z_scope.

(** the references held by the running call and its output operand *)
Definition own (h : heap) (o : obj) : Z := rc h o - ext h o.

(** Counts are consistent: nobody holds a negative number of references, and an element
    of an input array is a reference. *)
Definition sound (h : heap) : Prop :=
  (forall o, 0 <= ext h o) /\
  (forall o, 0 <= own h o) /\
  (forall a o, inp h a = Some o -> 1 <= ext h o).

(** Python code is honest: it may create and drop references and change the input
    arrays, but it gives away nobody else's references, and the result of an arithmetic
    operation is a new reference. *)
Definition honest (P : python) : Prop :=
  (forall c h, sound h ->
     let h' := cmp_eff P c h in
     sound h' /\ (forall o, own h' o = own h o) /\
     (forall a, inp h' a = None <-> inp h a = None)) /\
  (forall c h, sound h ->
     let h' := num_eff P c h in
     sound h' /\
     (forall o, own h' o = own h o + match num_ans P c with
                                      | Some r => if r =? o then 1 else 0
                                      | None => 0
                                      end) /\
     (forall a, inp h' a = None <-> inp h a = None)).

(** ... and gentle: it leaves the elements of the input arrays in place *)
Definition gentle (P : python) : Prop :=
  (forall c h a, inp (cmp_eff P c h) a = inp h a) /\
  (forall c h a, inp (num_eff P c h) a = inp h a).

(** number of the given cells that hold a reference to [o] *)
Fixpoint refs (cells : list Z) (m : mem (option obj)) (o : obj) : Z :=
  match cells with
  | [] => 0
  | a :: r => match m a with
              | Some (Some q) => if q =? o then 1 else 0
              | _ => 0
              end + refs r m o
  end.

(** all of the cells exist and hold NULL *)
Definition fresh (cells : list Z) (m : mem (option obj)) : Prop :=
  forall a, In a cells -> m a = Some None.

(** Between the two states the references held changed exactly as the references stored
    in the cells of the output operand: nothing leaks, nothing is released too often. *)
Definition balanced (cells : list Z) (s s' : pst) : Prop :=
  forall o, own (hp s') o - own (hp s) o = refs cells (outp s') o - refs cells (outp s) o.

(** nothing but the cells has been written *)
Definition only (cells : list Z) (s s' : pst) : Prop :=
  forall a, ~ In a cells -> outp s' a = outp s a.

(** One slice: either no cell was written and no reference is held, or every cell holds a
    new reference (or NULL).  What the cells held before is not released. *)
Definition delivers (cells : list Z) (s s' : pst) : Prop :=
  sound (hp s') /\ only cells s s' /\
  (outp s' = outp s /\ (forall o, own (hp s') o = own (hp s) o) \/
   (forall o, own (hp s') o = own (hp s) o + refs cells (outp s') o) /\
   (forall a, In a cells -> outp s' a <> None)).

(** the output memory [m] with the values [vs] put into the cells, in this order *)
Fixpoint put_all (cells : list Z) (vs : list (option obj)) (m : mem (option obj)) : mem (option obj) :=
  match cells, vs with
  | a :: r, v :: t => put_all r t (fun b => if b =? a then Some v else m b)
  | _, _ => m
  end.

(** the output memory [m] with the cells taken over from [mo] *)
Definition given (cells : list Z) (mo : mem obj) (m : mem (option obj)) : mem (option obj) :=
  fun a => if existsb (Z.eqb a) cells then option_map Some (mo a) else m a.

(** the state after a call: the counts are consistent, the input arrays are as before,
    the output is [m], and the calls made and the error indicator are those of [w], [v] *)
Definition after (mx : mem obj) (w : world) (v : aworld) (m : mem (option obj)) (s : pst) : Prop :=
  sound (hp s) /\ (forall a, inp (hp s) a = mx a) /\ (forall a, outp s a = m a) /\ cw s = w /\ aw s = v.

(** the cells of all slices *)
Definition all_cells (N : Z) (cells : Z -> list Z) : list Z :=
  flat_map cells (map Z.of_nat (seq 0 (Z.to_nat N))).

(** What a user expects of tensors and orientations as values (C103). *)
From Coq Require Import Arith Bool List.
From Verif Require Import Base.
From Verif Require Import StoModel.
Import ListNotations.

(** an object is a value of its own with n numbers, or a window on an array of the caller *)
Inductive vobj := VOwn (n : nat) (v : nat -> R) | VWin (b off n : nat).
(** the arrays of the caller and the objects in scope *)
Record vstate := mkV { v_arr : nat -> nat -> R; v_env : nat -> option vobj }.
Inductive vres := VOk (a : vstate) | VThrow | VIll.

Definition vsize (o : vobj) : nat := match o with VOwn n _ => n | VWin _ _ n => n end.
(** number i of an object *)
Definition vget (a : vstate) (o : vobj) (i : nat) : R :=
  match o with VOwn _ v => v i | VWin b off _ => v_arr a b (off + i)%nat end.
(** object x gets the numbers f: its own value, or the part of the array it is a window on *)
Definition vset (a : vstate) (x : nat) (o : vobj) (f : nat -> R) : vstate :=
  match o with
  | VOwn n _ => mkV (v_arr a) (fun y => if Nat.eqb y x then Some (VOwn n f) else v_env a y)
  | VWin b off n => mkV (fun b' j => if Nat.eqb b' b && (Nat.leb off j && Nat.ltb j (off + n))
                                     then f (j - off)%nat else v_arr a b' j) (v_env a)
  end.
Definition vmake (a : vstate) (x : nat) (o : option vobj) : vstate :=
  mkV (v_arr a) (fun y => if Nat.eqb y x then o else v_env a y).
Definition vfree (a : vstate) (x : nat) : bool := match v_env a x with None => true | Some _ => false end.

(** quaternions have four numbers; a tensor starts with zeros, a quaternion as (0, 0, 0, 1) *)
Definition suits (q : bool) (n : nat) : bool := if q then Nat.eqb n 4 else true.
Definition default_numbers (q : bool) (i : nat) : R := if q then match i with 3%nat => 1 | _ => 0 end else 0.

(** Copies are values of their own; a moved window is a window; both assignments give x the
    numbers of y and throw if the sizes differ. *)
Definition vstep (q : bool) (nb : nat) (a : vstate) (o : sop) : vres :=
  let assign x y :=
    match v_env a x, v_env a y with
    | Some t, Some u => if Nat.eqb (vsize t) (vsize u) then VOk (vset a x t (vget a u)) else VThrow
    | _, _ => VIll
    end in
  match o with
  | SNew x n => if vfree a x && suits q n then VOk (vmake a x (Some (VOwn n (default_numbers q)))) else VIll
  | SVec x n v => if vfree a x && suits q n then VOk (vmake a x (Some (VOwn n v))) else VIll
  | SView x b off n => if vfree a x && suits q n && Nat.ltb b nb then VOk (vmake a x (Some (VWin b off n))) else VIll
  | SCopy x y => match v_env a y with
                 | Some u => if vfree a x then VOk (vmake a x (Some (VOwn (vsize u) (vget a u)))) else VIll
                 | None => VIll end
  | SMove x y => match v_env a y with
                 | Some u => if vfree a x then
                     VOk (vmake a x (Some (match u with VOwn n v => VOwn n v | VWin b off n => VWin b off n end)))
                   else VIll
                 | None => VIll end
  | SAssign x y => assign x y
  | SMoveAssign x y => assign x y
  | SPut x i v => match v_env a x with
                  | Some t => if Nat.ltb i (vsize t)
                              then VOk (vset a x t (fun k => if Nat.eqb k i then v else vget a t k)) else VIll
                  | None => VIll end
  | SScale x k => match v_env a x with Some t => VOk (vset a x t (fun i => vget a t i * k)) | None => VIll end
  | SAdd x y => match v_env a x, v_env a y with
                | Some t, Some u => if Nat.eqb (vsize t) (vsize u)
                                    then VOk (vset a x t (fun i => vget a t i + vget a u i)) else VIll
                | _, _ => VIll end
  | SNeg x => match v_env a x with Some t => VOk (vset a x t (fun i => - vget a t i)) | None => VIll end
  | SDel x => match v_env a x with Some _ => VOk (vmake a x None) | None => VIll end
  end.
Fixpoint vruns (q : bool) (nb : nat) (a : vstate) (l : list sop) : vres :=
  match l with
  | [] => VOk a
  | o :: r => match vstep q nb a o with VOk a' => vruns q nb a' r | e => e end
  end.
Definition vstart (arr : nat -> nat -> R) : vstate := mkV arr (fun _ => None).

(** an object is a window *)
Definition is_window (a : vstate) (y : nat) : Prop := exists b off n, v_env a y = Some (VWin b off n).
(** the window y begins before the window x and reaches into it *)
Definition runs_into (a : vstate) (y x : nat) : Prop :=
  exists b i j n m, v_env a x = Some (VWin b i n) /\ v_env a y = Some (VWin b j m) /\ (j < i < j + m)%nat.
(** Programs that do not use the three operations that fail: moving the contents of a window
    into another tensor, copying a window on a quaternion, and adding to a window another one
    that runs into it *)
Definition spared (q : bool) (a : vstate) (o : sop) : Prop :=
  match o with
  | SMoveAssign x y => q = false -> ~ is_window a y
  | SCopy x y => q = true -> ~ is_window a y
  | SAdd x y => ~ runs_into a y x
  | _ => True
  end.
Fixpoint spares (q : bool) (nb : nat) (a : vstate) (l : list sop) : Prop :=
  match l with
  | [] => True
  | o :: r => spared q a o /\ match vstep q nb a o with VOk a' => spares q nb a' r | _ => True end
  end.

(** Same arrays, same objects with the same numbers, windows on the same places *)
Definition same_objects (nb : nat) (s : mstate) (a : vstate) : Prop :=
  (forall b j, (b < nb)%nat -> m_cell s b j = v_arr a b j) /\
  forall x, match m_env s x, v_env a x with
            | None, None => True
            | Some t, Some o => t_n t = vsize o /\ t_own t = (match o with VOwn _ _ => true | _ => false end) /\
                                (forall i, (i < vsize o)%nat -> rd s t i = vget a o i) /\
                                match o with VWin b off _ => t_blk t = b /\ t_off t = off | _ => True end
            | _, _ => False
            end.
(** Every block not yet deleted belongs to an object in scope *)
Definition no_leak (s : mstate) : Prop :=
  forall b, m_live s b = true -> exists x t, m_env s x = Some t /\ t_own t = true /\ t_blk t = b.

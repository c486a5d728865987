(** What a user expects of History objects as containers (C104). *)
From Coq Require Import Arith Bool List.
From Verif Require Import Base.
From Verif Require Import StoModel.
From Verif Require Import HstModel.
Import ListNotations.

(** a container with n numbers of its own, or a window of n numbers on an array of the caller;
    None is a number that has not been given yet *)
Inductive wobj := WOwn (n : nat) (v : nat -> option R) | WWin (b off n : nat).
Record wstate := mkW { w_arr : nat -> nat -> option R; w_env : nat -> option wobj }.
(** misuse (WIll): a name used twice or not there, an array of the caller that is too short, ... *)
Inductive wres := WOk (a : wstate) | WThrow | WIll.

Definition wsize (o : wobj) : nat := match o with WOwn n _ => n | WWin _ _ n => n end.
Definition wget (a : wstate) (o : wobj) (i : nat) : option R :=
  match o with WOwn _ v => v i | WWin b off _ => w_arr a b (off + i)%nat end.
Definition wset (a : wstate) (x : nat) (o : wobj) (f : nat -> option R) : wstate :=
  match o with
  | WOwn n _ => mkW (w_arr a) (fun y => if Nat.eqb y x then Some (WOwn n f) else w_env a y)
  | WWin b off n => mkW (fun b' j => if Nat.eqb b' b && (Nat.leb off j && Nat.ltb j (off + n))
                                     then f (j - off)%nat else w_arr a b' j) (w_env a)
  end.
Definition wmake (a : wstate) (x : nat) (o : option wobj) : wstate :=
  mkW (w_arr a) (fun y => if Nat.eqb y x then o else w_env a y).
Definition wfree (a : wstate) (x : nat) : bool := match w_env a x with None => true | Some _ => false end.
(** the array is long enough for the window *)
Definition wfits (len : nat -> nat) (o : wobj) : bool :=
  match o with WOwn _ _ => true | WWin b off n => Nat.leb (off + n) (len b) end.
Definition omap (f : R -> R) (a : option R) : option R := match a with Some v => Some (f v) | None => None end.
Definition oadd (a b : option R) : option R := match a, b with Some v, Some w => Some (v + w) | _, _ => None end.

(** Copies of windows are windows, deep copies never; growing keeps the numbers; set_data makes
    a window; assignments and sums throw if the sizes differ. *)
Definition wstep (nb : nat) (len : nat -> nat) (a : wstate) (o : hop) : wres :=
  let change x (f : wobj -> nat -> option R) :=
    match w_env a x with
    | Some t => if wfits len t then WOk (wset a x t (f t)) else WIll
    | None => WIll
    end in
  match o with
  | HNew x => if wfree a x then WOk (wmake a x (Some (WOwn 0 (fun _ => None)))) else WIll
  | HView x b off => if wfree a x && Nat.ltb b nb then WOk (wmake a x (Some (WWin b off 0))) else WIll
  | HGrow x k => match w_env a x with
                 | Some (WOwn n v) => WOk (wmake a x (Some (WOwn (n + k) (fun i => if Nat.ltb i n then v i else None))))
                 | Some (WWin b off n) => WOk (wmake a x (Some (WWin b off (n + k))))
                 | None => WIll end
  | HReserve x c => match w_env a x with
                    | Some (WOwn n v) => if Nat.leb n c then WOk a else WIll
                    | _ => WIll end
  | HSet x b off => match w_env a x with
                    | Some t => if Nat.ltb b nb then WOk (wmake a x (Some (WWin b off (wsize t)))) else WIll
                    | None => WIll end
  | HData x b off => match w_env a x with
                     | Some t => if Nat.ltb b nb && Nat.leb (off + wsize t) (len b)
                                 then change x (fun _ i => w_arr a b (off + i)%nat) else WIll
                     | None => WIll end
  | HMake x => match w_env a x with
               | Some (WOwn n v) => WOk a
               | Some (WWin b off n) => WOk (wmake a x (Some (WOwn n (fun _ => None))))
               | None => WIll end
  | HCopy x y => match w_env a y with
                 | Some u => if wfree a x then WOk (wmake a x (Some u)) else WIll
                 | None => WIll end
  | HDeep x y => match w_env a y with
                 | Some u => if wfree a x && wfits len u then WOk (wmake a x (Some (WOwn (wsize u) (wget a u)))) else WIll
                 | None => WIll end
  | HAssign x y => match w_env a x, w_env a y with
                   | Some t, Some u => if Nat.eqb (wsize t) (wsize u)
                                       then if wfits len u then change x (fun _ => wget a u) else WIll else WThrow
                   | _, _ => WIll end
  | HScale x k => change x (fun t i => omap (fun v => v * k) (wget a t i))
  | HPlus x y => match w_env a x, w_env a y with
                 | Some t, Some u => if Nat.eqb (wsize t) (wsize u)
                                     then if wfits len u then change x (fun t i => oadd (wget a t i) (wget a u i)) else WIll
                                     else WThrow
                 | _, _ => WIll end
  | HZero x => change x (fun _ _ => Some 0)
  | HPut x i v => match w_env a x with
                  | Some t => if Nat.ltb i (wsize t)
                              then change x (fun t k => if Nat.eqb k i then Some v else wget a t k) else WIll
                  | None => WIll end
  | HDel x => match w_env a x with Some _ => WOk (wmake a x None) | None => WIll end
  end.
Fixpoint wruns (nb : nat) (len : nat -> nat) (a : wstate) (l : list hop) : wres :=
  match l with
  | [] => WOk a
  | o :: r => match wstep nb len a o with WOk a' => wruns nb len a' r | e => e end
  end.
Definition wstart (arr : nat -> nat -> R) : wstate := mkW (fun b j => Some (arr b j)) (fun _ => None).

(** no sum to a window of another one that begins before it and reaches into it *)
Definition wspared (a : wstate) (o : hop) : Prop :=
  match o with
  | HPlus x y => ~ exists b i j n m, w_env a x = Some (WWin b i n) /\ w_env a y = Some (WWin b j m) /\ (j < i < j + m)%nat
  | _ => True
  end.
Fixpoint wspares (nb : nat) (len : nat -> nat) (a : wstate) (l : list hop) : Prop :=
  match l with
  | [] => True
  | o :: r => wspared a o /\ match wstep nb len a o with WOk a' => wspares nb len a' r | _ => True end
  end.

(** what must be a number is that number *)
Definition shows (v : option R) (r : R) : Prop := match v with Some w => r = w | None => True end.
(** Same arrays, same objects with the same numbers, windows on the same places *)
Definition same_histories (nb : nat) (s : hstate) (a : wstate) : Prop :=
  (forall b j, (b < nb)%nat -> shows (w_arr a b j) (s_cell s b j)) /\
  forall x, match s_env s x, w_env a x with
            | None, None => True
            | Some t, Some o => h_n t = wsize o /\ h_own t = (match o with WOwn _ _ => true | _ => false end) /\
                                (forall i, (i < wsize o)%nat -> shows (wget a o i) (hrd s t i)) /\
                                match o with WWin b off _ => h_blk t = b /\ h_off t = off | _ => True end
            | _, _ => False
            end.
(** Every block not yet deleted belongs to a history in scope *)
Definition nothing_lost (s : hstate) : Prop :=
  forall b, s_live s b = true -> exists x t, s_env s x = Some t /\ h_own t = true /\ h_blk t = b.

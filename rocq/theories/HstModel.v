(** Model of the storage of History objects, src/history.cxx:8-200, 256-260: histories that own
    their numbers and histories laid over an array of the caller.

    Simplifications: memory is a set of blocks of numbers with a length; blocks below [nb]
    belong to the caller, the others are made by new [] and contain [junk] at first.  The maps
    of names are left out (HistModel.v).  Histories laid over the numbers of another history
    (through rawptr or get_data), and History(false), whose pointer is indeterminate until
    set_data, are left out. *)
From Coq Require Import Arith Bool List.
From Verif Require Import Base.
From Verif Require Import StoModel.
Import ListNotations.

(** include/history.h:243-246: storage_, size_, storesize_, store_ *)
Record hobj := mkH { h_blk : nat; h_off : nat; h_n : nat; h_cap : nat; h_own : bool }.
(** memory and the objects in scope; no NEML code *)
Record hstate := mkHS { s_cell : nat -> nat -> R; s_live : nat -> bool; s_next : nat;
                        s_len : nat -> nat; s_env : nat -> option hobj }.
(** normal return, exception, or undefined behaviour; no NEML code *)
Inductive hres := HOk (s : hstate) | HThrow | HFault.

(** the operations, src/history.cxx:8-200, 256-260; x, y name histories *)
Inductive hop :=
| HNew (x : nat)                   (* History() *)
| HView (x b off : nat)            (* History(double * data) *)
| HGrow (x k : nat)                (* resize(k), as called by add *)
| HReserve (x c : nat)             (* increase_store(c) *)
| HSet (x b off : nat)             (* set_data *)
| HData (x b off : nat)            (* copy_data *)
| HMake (x : nat)                  (* make_store *)
| HCopy (x y : nat)                (* History(const History &), History(const History &&) *)
| HDeep (x y : nat)                (* x made as y.deepcopy() *)
| HAssign (x y : nat)              (* both operator= *)
| HScale (x : nat) (k : R)         (* scalar_multiply *)
| HPlus (x y : nat)                (* operator+= *)
| HZero (x : nat)                  (* zero *)
| HPut (x i : nat) (v : R)         (* get<double>(name) = v *)
| HDel (x : nat).                  (* ~History *)

(** all numbers of the object are in memory that may be used; no NEML code *)
Definition hready (nb : nat) (s : hstate) (t : hobj) : bool :=
  (Nat.ltb (h_blk t) nb || s_live s (h_blk t)) && Nat.leb (h_off t + h_n t) (s_len s (h_blk t)).
(** storage_[i], include/history.h:92-94, 262 *)
Definition hrd (s : hstate) (t : hobj) (i : nat) : R := s_cell s (h_blk t) (h_off t + i)%nat.
(** writes to storage_[0 .. size_), src/history.cxx:78, 110, 140, 187-189, 258 *)
Definition hinto (nb : nat) (s : hstate) (t : hobj) (f : nat -> R) : hres :=
  if hready nb s t
  then HOk (mkHS (wr (s_cell s) (h_blk t) (h_off t) (h_n t) f) (s_live s) (s_next s) (s_len s) (s_env s))
  else HFault.
(** new double [cap], the first m numbers filled with f, src/history.cxx:11, 29-30, 154, 179-180 *)
Definition alloc (junk : nat -> nat -> R) (s : hstate) (x m n cap : nat) (f : nat -> R) : hres :=
  let b := s_next s in
  HOk (mkHS (fun c j => if Nat.eqb c b then (if Nat.ltb j m then f j else junk b j) else s_cell s c j)
            (fun c => if Nat.eqb c b then true else s_live s c) (S b)
            (fun c => if Nat.eqb c b then cap else s_len s c)
            (bind (s_env s) x (Some (mkH b 0 n cap true)))).
(** delete [] storage_ if owned, src/history.cxx:62-68 *)
Definition hdel (nb : nat) (s : hstate) (x : nat) : hres :=
  match s_env s x with
  | None => HFault
  | Some t => if h_own t then
      if Nat.leb nb (h_blk t) && s_live s (h_blk t) && Nat.eqb (h_off t) 0
      then HOk (mkHS (s_cell s) (fun c => if Nat.eqb c (h_blk t) then false else s_live s c) (s_next s) (s_len s)
                     (bind (s_env s) x None))
      else HFault
    else HOk (mkHS (s_cell s) (s_live s) (s_next s) (s_len s) (bind (s_env s) x None))
  end.
(** the pointer, sizes and flag of x change, no memory does; no NEML code of its own *)
Definition rebind (s : hstate) (x : nat) (t : hobj) : hres :=
  HOk (mkHS (s_cell s) (s_live s) (s_next s) (s_len s) (bind (s_env s) x (Some t))).
(** increase_store, src/history.cxx:176-183, the size becoming n; storesize_ is c *)
Definition regrow (junk : nat -> nat -> R) (nb : nat) (s : hstate) (x : nat) (t : hobj) (n c : nat) : hres :=
  if hready nb s t && Nat.leb (h_n t) c && h_own t then
    match hdel nb s x with
    | HOk s1 => alloc junk s1 x (h_n t) n c (hrd s t)
    | e => e
    end
  else HFault.

(** src/history.cxx:8-200, 256-260, one operation *)
Definition hstep (junk : nat -> nat -> R) (nb : nat) (s : hstate) (o : hop) : hres :=
  match o with
  | HNew x => if free_name (s_env s) x then alloc junk s x 0 0 0 (fun _ => 0) else HFault      (* 8-13 *)
  | HView x b off => if free_name (s_env s) x && Nat.ltb b nb                                (* 50-60 *)
                     then rebind s x (mkH b off 0 0 false) else HFault
  | HGrow x k =>                                                                             (* 166-174 *)
    match s_env s x with
    | None => HFault
    | Some t => if h_own t then
        if Nat.ltb (h_cap t) (h_n t + k) then regrow junk nb s x t (h_n t + k) (h_n t + k)
        else rebind s x (mkH (h_blk t) (h_off t) (h_n t + k) (h_cap t) true)
      else rebind s x (mkH (h_blk t) (h_off t) (h_n t + k) (h_cap t) false)
    end
  | HReserve x c =>                                                                          (* 176-183 *)
    match s_env s x with None => HFault | Some t => regrow junk nb s x t (h_n t) c end
  | HSet x b off =>                                                                          (* 127-136 *)
    match s_env s x with
    | None => HFault
    | Some t => if Nat.ltb b nb then
        if h_own t then
          match hdel nb s x with HOk s1 => rebind s1 x (mkH b off (h_n t) 0 false) | e => e end
        else rebind s x (mkH b off (h_n t) (h_cap t) false)
      else HFault
    end
  | HData x b off =>                                                                         (* 138-141 *)
    match s_env s x with
    | None => HFault
    | Some t => if Nat.ltb b nb && Nat.leb (off + h_n t) (s_len s b)
                then hinto nb s t (fun i => s_cell s b (off + i)%nat) else HFault
    end
  | HMake x =>                                                                               (* 148-155 *)
    match s_env s x with
    | None => HFault
    | Some t => if h_own t then HOk s else alloc junk s x 0 (h_n t) (h_n t) (fun _ => 0)
    end
  | HCopy x y =>                                                                             (* 24-48 *)
    match s_env s y with
    | None => HFault
    | Some t => if free_name (s_env s) x then
        if h_own t then if hready nb s t then alloc junk s x (h_n t) (h_n t) (h_n t) (hrd s t) else HFault
        else rebind s x (mkH (h_blk t) (h_off t) (h_n t) (h_n t) false) else HFault
    end
  | HDeep x y =>                                                                             (* 117-125 *)
    match s_env s y with
    | None => HFault
    | Some t => if free_name (s_env s) x && hready nb s t
                then alloc junk s x (h_n t) (h_n t) (h_n t) (hrd s t) else HFault
    end
  | HAssign x y =>                                                                           (* 70-84, 103-115 *)
    match s_env s x, s_env s y with
    | Some t, Some u => if Nat.eqb (h_n t) (h_n u) then
                          if hready nb s u then hinto nb s t (hrd s u) else HFault else HThrow
    | _, _ => HFault
    end
  | HScale x k => match s_env s x with                                                       (* 185-190 *)
                  | Some t => hinto nb s t (fun i => hrd s t i * k) | None => HFault end
  | HPlus x y =>                                                                             (* 192-201 *)
    match s_env s x, s_env s y with
    | Some t, Some u => if Nat.eqb (h_n t) (h_n u) then
        if hready nb s u && hready nb s t then
          HOk (mkHS (add_loop (s_cell s) (mkT (h_blk t) (h_off t) (h_n t) (h_own t))
                              (mkT (h_blk u) (h_off u) (h_n u) (h_own u)) (h_n t))
                    (s_live s) (s_next s) (s_len s) (s_env s)) else HFault else HThrow
    | _, _ => HFault
    end
  | HZero x => match s_env s x with                                                          (* 256-260 *)
               | Some t => hinto nb s t (fun _ => 0) | None => HFault end
  | HPut x i v =>                                                           (* include/history.h:256-262 *)
    match s_env s x with
    | Some t => if Nat.ltb i (h_n t)
                then hinto nb s t (fun k => if Nat.eqb k i then v else hrd s t k) else HFault
    | None => HFault
    end
  | HDel x => hdel nb s x                                                                    (* 62-68 *)
  end.
(** a program, src/history.cxx:8-200, 256-260 *)
Fixpoint hruns (junk : nat -> nat -> R) (nb : nat) (s : hstate) (l : list hop) : hres :=
  match l with
  | [] => HOk s
  | o :: r => match hstep junk nb s o with HOk s' => hruns junk nb s' r | e => e end
  end.
(** the caller's arrays, with their lengths, and nothing else; no NEML code *)
Definition hstart (nb : nat) (len : nat -> nat) (arr : nat -> nat -> R) : hstate :=
  mkHS arr (fun _ => false) nb len (fun _ => None).

(** Model of src/history.cxx and include/history.h: the History container.

    Simplifications: the storage array of a history that owns its memory is the
    list [hdata] of its first size() cells; a cell is [None] while it is
    uninitialised heap memory.  Histories that wrap a caller's array
    (store() == false) have the same operations on the caller's cells; their
    sharing of memory is in HstModel.v.  TYPE_BLANK, which no template add() can
    produce and which has no storage size, is left out.  The error checks are
    those of the default (non PRODUCTION) build. *)
From Coq Require Import String.
From Verif Require Import Base.

(** include/history.h:15-24 *)
Inductive stype := TVector | TScalar | TRankTwo | TSymmetric | TSkew | TRot | TSymSym.
(** equality of the enum of include/history.h; no code of its own *)
Definition stype_eqb (a b : stype) : bool :=
  match a, b with
  | TVector, TVector | TScalar, TScalar | TRankTwo, TRankTwo | TSymmetric, TSymmetric
  | TSkew, TSkew | TRot, TRot | TSymSym, TSymSym => true
  | _, _ => false
  end.
(** include/history.h:37-44 storage_size *)
Definition ssize (t : stype) : nat :=
  match t with
  | TVector => 3 | TScalar => 1 | TRankTwo => 9 | TSymmetric => 6 | TSkew => 3 | TRot => 4 | TSymSym => 36
  end.
(** include/history.h:50-62 derivative_type; [None]: at() throws out_of_range *)
Definition derivative_type (a b : stype) : option stype :=
  match a, b with
  | TScalar, TSymSym => None
  | TScalar, t => Some t
  | TSymmetric, TScalar => Some TSymmetric
  | TSymmetric, TSymmetric => Some TSymSym
  | _, _ => None
  end.

(** std::unordered_map: find, insert (keeps an existing entry), operator[] += *)
(** std::unordered_map, used in src/history.cxx:86-101 and 157-183; no NEML code *)
Definition amap (A : Type) := list (string * A).
(** std::unordered_map, used in src/history.cxx:86-101 and 157-183; no NEML code *)
Fixpoint find {A} (k : string) (m : amap A) : option A :=
  match m with [] => None | (k', v) :: r => if String.eqb k k' then Some v else find k r end.
(** std::unordered_map, used in src/history.cxx:86-101 and 157-183; no NEML code *)
Definition insert {A} (k : string) (v : A) (m : amap A) : amap A :=
  match find k m with Some _ => m | None => m ++ [(k, v)] end.
(** std::unordered_map, used in src/history.cxx:86-101 and 157-183; no NEML code *)
Definition insert_all {A} (src m : amap A) : amap A :=
  fold_left (fun m kv => insert (fst kv) (snd kv) m) src m.
(** std::unordered_map, used in src/history.cxx:86-101 and 157-183; no NEML code *)
Fixpoint add_at (k : string) (inc : nat) (m : amap nat) : amap nat :=
  match m with
  | [] => [(k, inc)]
  | (k', v) :: r => if String.eqb k k' then (k', (v + inc)%nat) :: r else (k', v) :: add_at k inc r
  end.

(** a double of the storage, None: never written (src/history.cxx:148-155) *)
Definition cell := option R.
(** the data members of class History, include/history.h and src/history.cxx:8-60 *)
Record hist := mkHist {
  horder : list string;          (* order_ *)
  hloc : amap nat;               (* loc_ *)
  htype : amap stype;            (* type_ *)
  hdata : list cell }.           (* storage_[0 .. size_-1] *)
(** history.cxx:143-146 *)
Definition hsize (h : hist) : nat := length (hdata h).

(** exceptions of src/history.cxx:227-260 and undefined behaviour; no code of its own *)
Inductive herr := EExists | ENotExists | EWrongType | EOutOfRange | EInvalid | EContiguous | ESize | EUndefined.
(** exceptions of src/history.cxx:227-260 and undefined behaviour; no code of its own *)
Inductive hres (A : Type) := HOk (a : A) | HErr (e : herr).
Arguments HOk {A} _.  Arguments HErr {A} _.
(** exceptions of src/history.cxx:227-260 and undefined behaviour; no code of its own *)
Definition hbind {A B} (r : hres A) (f : A -> hres B) : hres B :=
  match r with HOk a => f a | HErr e => HErr e end.

(** history.cxx:8-13 *)
Definition hempty : hist := mkHist [] [] [] [].

(** include/history.h:222-223 *)
Definition hcontains (n : string) (h : hist) : bool :=
  match find n (hloc h) with Some _ => true | None => false end.

(** history.cxx:157-174 add, resize (new cells are uninitialised) *)
Definition hadd (n : string) (t : stype) (h : hist) : hres hist :=
  if hcontains n h then HErr EExists
  else HOk (mkHist (horder h ++ [n]) (insert n (hsize h) (hloc h)) (insert n t (htype h))
                   (hdata h ++ repeat None (ssize t))).

(** a part of the storage, as used at a location of src/history.cxx:157-183; no code of its own *)
Definition slice {A} (o n : nat) (d : list A) : list A := firstn n (skipn o d).
(** a part of the storage, as used at a location of src/history.cxx:157-183; no code of its own *)
Definition overwrite {A} (o : nat) (vs d : list A) : list A :=
  firstn o d ++ vs ++ skipn (o + length vs) d.

(** The checks of get<T>: include/history.h:121-127, 257-263, history.cxx:238-260.
    Returns the offset. *)
Definition hlookup (t : stype) (n : string) (h : hist) : hres nat :=
  match find n (hloc h) with
  | None => HErr ENotExists
  | Some o =>
    match find n (htype h) with
    | None => HErr EOutOfRange
    | Some t' => if stype_eqb t t' then HOk o else HErr EWrongType
    end
  end.
(** get<T>(name) read *)
(** include/history.h:120-131: get with the checks of src/history.cxx:238-260 *)
Definition hget (t : stype) (n : string) (h : hist) : hres (list cell) :=
  hbind (hlookup t n h) (fun o => HOk (slice o (ssize t) (hdata h))).
(** get<T>(name) = vs: the returned object refers to the storage *)
(** include/history.h:120-131: get with the checks of src/history.cxx:238-260 *)
Definition hset (t : stype) (n : string) (vs : list cell) (h : hist) : hres hist :=
  hbind (hlookup t n h) (fun o => HOk (mkHist (horder h) (hloc h) (htype h) (overwrite o vs (hdata h)))).

(** history.cxx:262-266, 185-190 *)
Definition hzero (h : hist) : hist :=
  mkHist (horder h) (hloc h) (htype h) (map (fun _ => Some 0) (hdata h)).
(** src/history.cxx:185-190 (scalar_multiply) *)
Definition hscale (k : R) (h : hist) : hist :=
  mkHist (horder h) (hloc h) (htype h) (map (option_map (fun v => v * k)) (hdata h)).
(** history.cxx:192-201 *)
Definition cell_add (a b : cell) : cell :=
  match a, b with Some x, Some y => Some (x + y) | _, _ => None end.
(** src/history.cxx:192-201 *)
Definition hplus (h other : hist) : hres hist :=
  if Nat.eqb (hsize h) (hsize other) then
    HOk (mkHist (horder h) (hloc h) (htype h)
           (map (fun ab => cell_add (fst ab) (snd ab)) (combine (hdata h) (hdata other))))
  else HErr ESize.

(** history.cxx:220-225 copy_maps *)
Definition copy_maps (other h : hist) : hist :=
  mkHist (horder other) (insert_all (hloc other) (hloc h)) (insert_all (htype other) (htype h)) (hdata h).
(** history.cxx:117-125 deepcopy *)
Definition hdeepcopy (h : hist) : hist :=
  copy_maps h (mkHist [] [] [] (hdata h)).
(** history.cxx:70-84 operator= *)
Definition hassign (h other : hist) : hres hist :=
  if Nat.eqb (hsize h) (hsize other) then
    HOk (copy_maps other (mkHist (horder h) (hloc h) (htype h) (hdata other)))
  else HErr EInvalid.

(** type_.at(name) *)
(** std::unordered_map::at, used in src/history.cxx:287-354; no NEML code *)
Definition htype_at (n : string) (h : hist) : hres stype :=
  match find n (htype h) with Some t => HOk t | None => HErr EOutOfRange end.
(** std::unordered_map::at, used in src/history.cxx:287-354; no NEML code *)
Definition hloc_at (n : string) (h : hist) : hres nat :=
  match find n (hloc h) with Some o => HOk o | None => HErr EOutOfRange end.

(** add each name of the list with its type in [src] (history.cxx:207-213, 310-317) *)
Fixpoint add_from (src : hist) (names : list string) (acc : hist) : hres hist :=
  match names with
  | [] => HOk acc
  | n :: r => hbind (htype_at n src) (fun t => hbind (hadd n t acc) (add_from src r))
  end.

(** std::find in a vector of names, src/history.cxx:287-340 *)
Definition mem (n : string) (l : list string) : bool := existsb (String.eqb n) l.
(** history.cxx:203-218 copy_blank *)
Definition hcopy_blank (exclude : list string) (h : hist) : hres hist :=
  hbind (add_from h (filter (fun n => negb (mem n exclude)) (horder h)) hempty)
        (fun c => HOk (hzero c)).

(** history.cxx:342-354 subset *)
Fixpoint subset_loop (h : hist) (vars : list string) (acc : hist) : hres hist :=
  match vars with
  | [] => HOk acc
  | v :: r =>
    if hcontains v h then
      hbind (htype_at v h) (fun t =>
      hbind (hadd v t acc) (fun acc1 =>
      hbind (hloc_at v h) (fun o =>
      hbind (hloc_at v acc1) (fun o1 =>
      subset_loop h r (mkHist (horder acc1) (hloc acc1) (htype acc1)
                         (overwrite o1 (slice o (ssize t) (hdata h)) (hdata acc1)))))))
    else HErr ENotExists
  end.
(** src/history.cxx:342-354 (subset) *)
Definition hsubset (vars : list string) (h : hist) : hres hist := subset_loop h vars hempty.

(** history.cxx:356-365 reorder; copying size() cells out of a smaller subset is
    an out of range read *)
Definition hreorder (vars : list string) (h : hist) : hres hist :=
  hbind (hsubset vars h) (fun nh =>
    if Nat.leb (hsize h) (hsize nh) then
      let h1 := copy_maps nh h in
      HOk (mkHist (horder h1) (hloc h1) (htype h1) (firstn (hsize h) (hdata nh)))
    else HErr EUndefined).

(** history.cxx:287-295: sep must be a prefix of order_ (reading order_[i] past
    the end is undefined) *)
Fixpoint check_prefix (sep order : list string) : hres unit :=
  match sep, order with
  | [], _ => HOk tt
  | s :: sep', o :: order' => if String.eqb s o then check_prefix sep' order' else HErr EContiguous
  | _ :: _, [] => HErr EUndefined
  end.
(** history.cxx:287-340 split (owning case) *)
Definition hsplit (sep : list string) (after : bool) (h : hist) : hres hist :=
  hbind (check_prefix sep (horder h)) (fun _ =>
    let i := length sep in
    if (Nat.eqb i (length (horder h)) && after) || (Nat.eqb i 0 && negb after) then HOk hempty
    else
      let names := if after then skipn i (horder h) else firstn i (horder h) in
      hbind (add_from h names hempty) (fun res =>
      match nth_error (horder h) (if after then i else 0) with
      | None => HErr EUndefined
      | Some first =>
        hbind (hloc_at first h) (fun o =>
        HOk (mkHist (horder res) (hloc res) (htype res) (slice o (hsize res) (hdata h))))
      end)).

(** history.cxx:86-101 add_union *)
Definition hunion (h other : hist) : hist :=
  mkHist (horder h ++ horder other)
         (fold_left (fun m v => add_at v (hsize h) m) (horder other) (insert_all (hloc other) (hloc h)))
         (insert_all (htype other) (htype h))
         (hdata h ++ hdata other).

(** include/history.h:181-207 derivative<T>() *)
Fixpoint deriv_loop (dt : stype) (src : hist) (names : list string) (acc : hist) : hres hist :=
  match names with
  | [] => HOk acc
  | n :: r =>
    hbind (htype_at n src) (fun t =>
    match derivative_type t dt with
    | None => HErr EOutOfRange
    | Some nt => hbind (hadd n nt acc) (deriv_loop dt src r)
    end)
  end.
(** include/history.h:180-208: derivative *)
Definition hderivative (dt : stype) (h : hist) : hres hist :=
  hbind (deriv_loop dt h (horder h) hempty) (fun d => HOk (hzero d)).

(** history.cxx:268-285 history_derivative *)
Definition pairs (a b : list string) : list (string * string) := list_prod a b.
(** src/history.cxx:268-285 (history_derivative): the name of an entry *)
Definition dname (p : string * string) : string := (fst p ++ "_" ++ snd p)%string.
(** src/history.cxx:268-285 (history_derivative) *)
Fixpoint hderiv_loop (h other : hist) (ps : list (string * string)) (acc : hist) : hres hist :=
  match ps with
  | [] => HOk acc
  | p :: r =>
    hbind (htype_at (fst p) h) (fun t1 =>
    hbind (htype_at (snd p) other) (fun t2 =>
    match derivative_type t1 t2 with
    | None => HErr EOutOfRange
    | Some nt => hbind (hadd (dname p) nt acc) (hderiv_loop h other r)
    end))
  end.
(** src/history.cxx:268-285 (history_derivative) *)
Definition hhist_derivative (h other : hist) : hres hist :=
  hbind (hderiv_loop h other (pairs (horder h) (horder other)) hempty) (fun d => HOk (hzero d)).

(** history.cxx:391-414 unravel_hh: [d] is the derivative history, the array is
    indexed (row, column).  The two inner loops (406-411) write the block
    [o1,o1+s1) x [o2,o2+s2) in row-major order. *)
Definition write_block (o1 s1 o2 s2 start : nat) (data : list cell) (a : nat -> nat -> option cell)
    : nat -> nat -> option cell :=
  fun r c =>
    if (Nat.leb o1 r && Nat.ltb r (o1 + s1) && Nat.leb o2 c && Nat.ltb c (o2 + s2))%bool
    then nth_error data (start + ((r - o1) * s2 + (c - o2))) else a r c.
(** src/history.cxx:391-414 (unravel_hh) *)
Fixpoint unravel_loop (d base : hist) (ps : list (string * string)) (a : nat -> nat -> option cell)
    : hres (nat -> nat -> option cell) :=
  match ps with
  | [] => HOk a
  | p :: r =>
    hbind (htype_at (fst p) base) (fun t1 => hbind (hloc_at (fst p) base) (fun o1 =>
    hbind (htype_at (snd p) base) (fun t2 => hbind (hloc_at (snd p) base) (fun o2 =>
    hbind (hloc_at (dname p) d) (fun start =>
    unravel_loop d base r (write_block o1 (ssize t1) o2 (ssize t2) start (hdata d) a))))))
  end.
(** src/history.cxx:391-414 (unravel_hh) *)
Definition hunravel (d base : hist) : hres (nat -> nat -> option cell) :=
  unravel_loop d base (pairs (horder base) (horder base)) (fun _ _ => None).

(** history.cxx:422-435 formatted_names (to_string is abstract) *)
Definition formatted_names (to_string : nat -> string) (h : hist) : hres (list string) :=
  fold_left (fun acc n => hbind acc (fun l => hbind (htype_at n h) (fun t =>
     HOk (l ++ (if Nat.eqb (ssize t) 1 then [n]
                else map (fun i => (n ++ "_" ++ to_string i)%string) (seq 0 (ssize t)))))))
    (horder h) (HOk []).

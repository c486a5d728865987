(** Model of the arrays and indices that come from Python: include/pyhelp.h:34-38 (arr2ptr) and how the wrappers (src/*_wrap.cxx, src/cp/*_wrap.cxx, src/math/*_wrap.cxx) use them.

    A numpy array is a window on a block of memory: offset, shape, strides (here in entries) and the type
    of its entries.  A block has a length and is freed at some point; reading or writing outside of a block
    or in a freed one is undefined ([Wild]).  What pybind11 and numpy do (no copy of either is in the
    repository): an argument declared py::array_t<double, py::array::c_style> becomes a new array of
    doubles in C order, alive until the call returns, unless it already is one; numpy's test for C order
    ignores axes of length one and accepts every empty array.  A temporary lives until the end of the full
    expression it is made in.  Values are real numbers whatever the type of the entries. *)
From Coq Require Import ZArith List Arith.
From Verif Require Import Base.
From Coq Require Import List.
Import ListNotations.

(** numpy arrays, reached through include/pyhelp.h:34-38; no NEML code *)
Inductive dtype := DDouble | DSingle | DInt.
(** numpy arrays, reached through include/pyhelp.h:34-38; no NEML code *)
Record buf := mkBuf { bf_data : list R; bf_live : bool }.
(** numpy arrays, reached through include/pyhelp.h:34-38; no NEML code *)
Definition amem := list buf.
(** numpy arrays, reached through include/pyhelp.h:34-38; no NEML code *)
Record arr := mkArr { ar_buf : nat; ar_off : Z; ar_shape : list nat; ar_strides : list Z; ar_dtype : dtype }.

(** all indices, last one fastest *)
(** how numpy reads the entries of an array; no NEML code *)
Fixpoint indices (s : list nat) : list (list nat) :=
  match s with [] => [[]] | n :: s => flat_map (fun i => map (cons i) (indices s)) (seq 0 n) end.
(** how numpy reads the entries of an array; no NEML code *)
Fixpoint shift (strides : list Z) (ix : list nat) : Z :=
  match strides, ix with k :: strides, i :: ix => (k * Z.of_nat i + shift strides ix)%Z | _, _ => 0%Z end.
(** an entry of a block, None: undefined *)
(** how numpy reads the entries of an array; no NEML code *)
Definition rd (m : amem) (b : nat) (k : Z) : option R :=
  match nth_error m b with
  | Some B => if andb (bf_live B) (Z.leb 0 k) then nth_error (bf_data B) (Z.to_nat k) else None
  | None => None end.
(** how numpy reads the entries of an array; no NEML code *)
Fixpoint all_some {A} (l : list (option A)) : option (list A) :=
  match l with [] => Some [] | x :: l => match x, all_some l with Some a, Some r => Some (a :: r) | _, _ => None end end.
(** what Python shows: the entries in the order of the indices *)
(** how numpy reads the entries of an array; no NEML code *)
Definition contents (m : amem) (a : arr) : option (list R) :=
  all_some (map (fun ix => rd m (ar_buf a) (ar_off a + shift (ar_strides a) ix)) (indices (ar_shape a))).

(** how numpy reads the entries of an array; no NEML code *)
Definition total (s : list nat) : nat := fold_right Nat.mul 1%nat s.
(** numpy: the flag C_CONTIGUOUS; the stride an axis should have is the size of the axes after it *)
(** the flags of a numpy array; no NEML code *)
Fixpoint strides_ok (s : list nat) (t : list Z) : bool :=
  match s, t with
  | [], _ => true
  | n :: s, k :: t => andb (orb (Nat.eqb n 1) (Z.eqb k (Z.of_nat (total s)))) (strides_ok s t)
  | _, _ => false end.
(** the flags of a numpy array; no NEML code *)
Definition c_order (a : arr) : bool := orb (existsb (Nat.eqb 0) (ar_shape a)) (strides_ok (ar_shape a) (ar_strides a)).
(** the flags of a numpy array; no NEML code *)
Fixpoint c_strides (s : list nat) : list Z := match s with [] => [] | _ :: s => Z.of_nat (total s) :: c_strides s end.
(** the flags of a numpy array; no NEML code *)
Definition is_double (d : dtype) : bool := match d with DDouble => true | _ => false end.

(** writing to and releasing a block of memory; no NEML code *)
Definition put (m : amem) (b : nat) (B : buf) : amem := firstn b m ++ B :: skipn (S b) m.
(** writing to and releasing a block of memory; no NEML code *)
Definition free (b : nat) (m : amem) : amem := match nth_error m b with Some B => put m b (mkBuf (bf_data B) false) | None => m end.
(** the conversion to array_t<double, c_style>: the memory, the array, the blocks made for it *)
(** pybind11's conversion of an argument declared py::array_t<double, py::array::c_style>, as in src/models_wrap.cxx:23-49; no NEML code *)
Definition as_c (m : amem) (a : arr) : option (amem * arr * list nat) :=
  if andb (is_double (ar_dtype a)) (c_order a) then Some (m, a, [])
  else match contents m a with
       | Some l => Some (m ++ [mkBuf l true], mkArr (length m) 0 (ar_shape a) (c_strides (ar_shape a)) DDouble, [length m])
       | None => None end.
(** pybind11's conversion of an argument declared py::array_t<double, py::array::c_style>, as in src/models_wrap.cxx:23-49; no NEML code *)
Fixpoint as_c_all (m : amem) (l : list arr) : option (amem * list arr * list nat) :=
  match l with
  | [] => Some (m, [], [])
  | a :: l => match as_c m a with
              | Some (m, a, t) => match as_c_all m l with Some (m, l, u) => Some (m, a :: l, t ++ u) | None => None end
              | None => None end
  end.
(** pyhelp.h:34-38 arr2ptr, and n entries from there *)
Definition ptr : Type := nat * Z.
(** include/pyhelp.h:34-38 *)
Definition arr2ptr (a : arr) : ptr := (ar_buf a, ar_off a).
(** include/pyhelp.h:34-38 *)
Definition pread (m : amem) (p : ptr) (n : nat) : option (list R) := all_some (map (fun k => rd m (fst p) (snd p + Z.of_nat k)) (seq 0 n)).
(** include/pyhelp.h:34-38 *)
Definition pwrite (m : amem) (p : ptr) (l : list R) : option amem :=
  if Nat.eqb (length l) 0 then Some m else
  match nth_error m (fst p) with
  | Some B => if andb (bf_live B) (andb (Z.leb 0 (snd p)) (Nat.leb (Z.to_nat (snd p) + length l) (length (bf_data B))))
              then let o := Z.to_nat (snd p) in Some (put m (fst p) (mkBuf (firstn o (bf_data B) ++ l ++ skipn (o + length l) (bf_data B)) true))
              else None
  | None => None end.
(** what a call from Python can do; no code of its own *)
Inductive outcome (A : Type) := Done (x : A) (m : amem) | Raise | Wild.
Arguments Done {A}. Arguments Raise {A}. Arguments Wild {A}.

(** ** Arguments that are only read, with no check of their sizes.  models_wrap.cxx:23-35 update_sd, 36-49
    update_ld_inc, 52-73; singlecrystal_wrap.cxx:30-64, polycrystal_wrap.cxx:20-29; creep, damage, flow rule,
    hardening and surface wrappers: the function [f] reads the given number of entries from each pointer *)
Fixpoint preads (m : amem) (l : list (arr * nat)) : option (list (list R)) :=
  match l with [] => Some [] | (a, n) :: l => match pread m (arr2ptr a) n, preads m l with Some x, Some r => Some (x :: r) | _, _ => None end end.
(** src/models_wrap.cxx:23-49: and the other wrappers named above *)
Definition py_call {A} (f : list (list R) -> A) (args : list (arr * nat)) (m : amem) : outcome A :=
  match as_c_all m (map fst args) with
  | Some (m, l, t) => match preads m (combine l (map snd args)) with Some x => Done (f x) (fold_right free m t) | None => Wild end
  | None => Wild end.
(** ** An argument changed in place, with no check: singlecrystal_wrap.cxx:70-75, 81-86, 88-92 set_passive_orientation,
    set_active_orientation, update_nye: [g] gives the new entries *)
Definition py_update (g : list R -> list R) (n : nat) (a : arr) (m : amem) : outcome unit :=
  match as_c m a with
  | Some (m, c, t) => match pread m (arr2ptr c) n with
                      | Some x => match pwrite m (arr2ptr c) (firstn n (g x)) with Some m => Done tt (fold_right free m t) | None => Wild end
                      | None => Wild end
  | None => Wild end.
(** ** block_wrap.cxx:49-160 block_evaluate: all arrays checked, the results written into arguments.
    75-87: the first axis of every array in turn; 68: shape[0] of an array without axes is undefined.
    93-132: the axes after the first.  The update is a function [f] of the entries of all arrays: reading
    them comes before writing the results, as for arrays that do not overlap. *)
Fixpoint lead_ok (n : nat) (l : list arr) : option bool :=
  match l with [] => Some true | a :: l => match ar_shape a with [] => None | k :: _ => if Nat.eqb k n then lead_ok n l else Some false end end.
(** equality of shapes; no code of its own, used for src/block_wrap.cxx:93-132 *)
Fixpoint list_eqb (a b : list nat) : bool := match a, b with [], [] => true | x :: a, y :: b => andb (Nat.eqb x y) (list_eqb a b) | _, _ => false end.
(** src/block_wrap.cxx:93-132 *)
Definition shapes_ok (l : list (arr * list nat)) : bool := forallb (fun p => list_eqb (tl (ar_shape (fst p))) (snd p)) l.
(** 93-132 and the direction of each argument: e_np1, e_n, T_np1, T_n, s_np1, s_n, h_np1, h_n, A_np1, u_np1, u_n, p_np1, p_n *)
Definition block_tails (nhist : nat) : list (list nat) := [[3; 3]; [3; 3]; []; []; [3; 3]; [3; 3]; [nhist]; [nhist]; [3; 3; 3; 3]; []; []; []; []]%nat.
(** src/block_wrap.cxx:49-160 *)
Definition block_outs : list bool := [false; false; false; false; true; false; true; false; true; true; false; true; false].
(** src/block_wrap.cxx:49-160 *)
Fixpoint pwrites (m : amem) (outs : list bool) (l : list arr) (ys : list (list R)) : option amem :=
  match outs, l, ys with
  | o :: outs, a :: l, y :: ys => match (if o then pwrite m (arr2ptr a) y else Some m) with Some m => pwrites m outs l ys | None => None end
  | _, _, _ => Some m end.
(** src/block_wrap.cxx:49-160 *)
Definition py_block (nhist : nat) (f : nat -> list (list R) -> list (list R)) (args : list arr) (m : amem) : outcome unit :=
  match as_c_all m args with
  | Some (m, l, t) =>
      match l with
      | [] => Raise
      | a0 :: _ =>
        match ar_shape a0 with
        | [] => Wild
        | n :: _ =>
          match lead_ok n l with
          | None => Wild
          | Some false => Raise
          | Some true =>
            if shapes_ok (combine l (block_tails nhist)) then
              match preads m (map (fun a => (a, total (ar_shape a))) l) with
              | Some x => match pwrites m block_outs l (f n x) with Some m => Done tt (fold_right free m t) | None => Wild end
              | None => Wild end
            else Raise
          end
        end
      end
  | None => Wild end.
(** ** rotations_wrap.cxx:92-115, for an array of doubles: declared py::array_t<double>, so a copy is made
    only inside arr2ptr and freed at the end of that expression: before the read at 102 for four numbers,
    after it at 98 and 109.  No check of the sizes of a matrix. *)
Inductive orient := ORodrigues (v : list R) | OQuat (q : list R) | OMatrix (M : list R).
(** src/math/rotations_wrap.cxx:92-115 *)
Definition py_orientation (a : arr) (m : amem) : outcome orient :=
  match as_c m a with
  | Some (m1, c, t) =>
    match ar_shape a with
    | [3%nat] => match pread m1 (arr2ptr c) 3 with Some v => Done (ORodrigues v) (fold_right free m1 t) | None => Wild end
    | [4%nat] => let m2 := fold_right free m1 t in match pread m2 (arr2ptr c) 4 with Some v => Done (OQuat v) m2 | None => Wild end
    | [_] => Raise
    | [_; _] => match pread m1 (arr2ptr c) 9 with Some v => Done (OMatrix v) (fold_right free m1 t) | None => Wild end
    | _ => Raise
    end
  | None => Wild end.
(** ** history_wrap.cxx:32-41, for arrays of doubles: set_data keeps the pointer (history.cxx:127-136), copy_data
    copies n entries at once *)
Definition py_set_data (a : arr) (m : amem) : outcome ptr := match as_c m a with Some (m, c, t) => Done (arr2ptr c) (fold_right free m t) | None => Wild end.
(** src/history_wrap.cxx:32-41 *)
Definition py_copy_data (n : nat) (a : arr) (m : amem) : outcome (list R) :=
  match as_c m a with Some (m, c, t) => match pread m (arr2ptr c) n with Some x => Done x (fold_right free m t) | None => Wild end | None => Wild end.
(** Python drops its last reference to an array *)
(** Python drops an array; no NEML code *)
Definition drop (a : arr) (m : amem) : amem := free (ar_buf a) m.

(** ** Indexing: tensors_wrap.cxx:72-80, 163-175, 474-490; the inner None: an exception, the outer: undefined *)
Definition vector_get (v : list R) (i : nat) : option (option R) := if Nat.leb (length v) i then Some None else match nth_error v i with Some x => Some (Some x) | None => None end.
(** src/math/tensors_wrap.cxx:163-175 *)
Definition ranktwo_get (M : list R) (i j : nat) : option (option R) :=
  if orb (Nat.leb 3 i) (Nat.ltb 3 j) then Some None else match nth_error M (i * 3 + j) with Some x => Some (Some x) | None => None end.
(** src/math/tensors_wrap.cxx:474-490 *)
Definition rankfour_get (M : list R) (i j k l : nat) : option (option R) :=
  if orb (Nat.leb 3 i) (orb (Nat.ltb 3 j) (orb (Nat.ltb 3 k) (Nat.ltb 3 l))) then Some None
  else match nth_error M (i * 27 + j * 9 + k * 3 + l) with Some x => Some (Some x) | None => None end.
(** assignment to an entry, for src/math/tensors_wrap.cxx:163-175 *)
Definition set_nth (l : list R) (k : nat) (x : R) : option (list R) := if Nat.ltb k (length l) then Some (firstn k l ++ x :: skipn (S k) l) else None.
(** src/math/tensors_wrap.cxx:163-175 *)
Definition ranktwo_set (M : list R) (i j : nat) (x : R) : option (option (list R)) :=
  if orb (Nat.leb 3 i) (Nat.ltb 3 j) then Some None else match set_nth M (i * 3 + j) x with Some r => Some (Some r) | None => None end.

(** Dense vectors and matrices: src/math/matrix.cxx, include/math/matrix.h. *)
From Verif Require Import Base.
From Coq Require Import List Lia String.
Import ListNotations.
Open Scope R_scope.

(** A block of memory: what is stored at each place. *)
(** a block of memory, as used in src/math/matrix.cxx:9-57; no code of its own *)
Definition cells := nat -> R.
(** a block of memory, as used in src/math/matrix.cxx:9-57; no code of its own *)
Definition put (d : cells) (k : nat) (v : R) : cells := fun k' => if Nat.eqb k' k then v else d k'.
(** std::fill(data_, data_ + n, v) *)
(** a block of memory, as used in src/math/matrix.cxx:9-57; no code of its own *)
Definition fill (n : nat) (v : R) (d : cells) : cells := fun k => if Nat.ltb k n then v else d k.
(** CINDEX, include/math/nemlmath.h:11 *)
Definition cindex (i j n : nat) : nat := (j + i * n)%nat.

(** Matrix: m_, n_ and data_ (include/math/matrix.h:40-62); the constructor leaves the data as found (matrix.cxx:47-51) *)
Record matrix := { mx_m : nat; mx_n : nat; mx_d : cells }.
(** operator(), matrix.cxx:75-83: the row length used is m_ *)
Definition mx_at (A : matrix) (i j : nat) : R := mx_d A (cindex i j (mx_m A)).
(** src/math/matrix.cxx:75-78 *)
Definition mx_set (A : matrix) (i j : nat) (v : R) : matrix := {| mx_m := mx_m A; mx_n := mx_n A; mx_d := put (mx_d A) (cindex i j (mx_m A)) v |}.
(** matvec, matrix.cxx:66-73, and dot, 59-64; mat_vec (nemlmath.cxx:860-864) has dgemv multiply the transpose of the
    column major n by m array, with row length n.  None is the thrown exception *)
Definition mx_dot (A : matrix) (x : list R) : option (list R) :=
  if Nat.eqb (List.length x) (mx_n A) then Some (map (fun i => rsum (mx_n A) (fun j => mx_d A (cindex i j (mx_n A)) * nth j x 0)) (seq 0 (mx_m A))) else None.

(** SquareMatrix; [d] is the uninitialised memory.  setup_id_, matrix.cxx:144-150 *)
Definition setup_id (m : nat) (d : cells) : cells := fold_left (fun d i => put d (cindex i i m) 1) (seq 0 m) (fill (m * m) 0 d).
(** setup_diagonal_, 152-162 *)
Definition setup_diagonal (m : nat) (data : list R) (d : cells) : option cells :=
  if Nat.eqb (List.length data) m then Some (fold_left (fun d i => put d (cindex i i m) (nth i data 0)) (seq 0 m) (fill (m * m) 0 d)) else None.
(** check_blocks_, 210-220 *)
Definition check_blocks (m : nat) (blocks : list nat) : bool := Nat.eqb (fold_left Nat.add blocks 0%nat) m.
(** setup_diagonal_blocks_, 164-185: ci counts rows, cb blocks *)
Definition setup_diagonal_blocks (m : nat) (data : list R) (blocks : list nat) (d : cells) : option cells :=
  if negb (Nat.eqb (List.length blocks) (List.length data)) then None else
  if negb (check_blocks m blocks) then None else
  Some (snd (fold_left (fun x bs => let '(ci, cb, d) := x in
    let y := fold_left (fun z _ => let '(c, d) := z in (S c, put d (cindex c c m) (nth cb data 0))) (seq 0 bs) (ci, d) in (fst y, S cb, snd y)) blocks (0%nat, 0%nat, fill (m * m) 0 d))).
(** offsets_, 222-228 *)
Fixpoint partial_sum (acc : nat) (l : list nat) : list nat := match l with [] => [] | x :: r => (acc + x)%nat :: partial_sum (acc + x) r end.
(** src/math/matrix.cxx:222-228 (offsets_) *)
Definition offsets (blocks : list nat) : list nat := 0%nat :: partial_sum 0 blocks.
(** for (i = a; i < b; i++) *)
(** a for loop, as in src/math/matrix.cxx:144-208 *)
Definition loop {A} (a b : nat) (f : nat -> A -> A) (x : A) : A := fold_left (fun x i => f i x) (seq a (b - a)) x.
(** setup_block_, 186-208 *)
Definition setup_block (m : nat) (data : list R) (blocks : list nat) (d : cells) : option cells :=
  let nb := List.length blocks in
  if negb (Nat.eqb (List.length data) (nb * nb)) then None else
  if negb (check_blocks m blocks) then None else
  let off := fun b => nth b (offsets blocks) 0%nat in
  Some (loop 0 nb (fun bi => loop 0 nb (fun bj => let co := cindex bi bj nb in
    loop (off bi) (off (S bi)) (fun i => loop (off bj) (off (S bj)) (fun j d => put d (cindex i j m) (nth co data 0))))) d).
(** the constructor, 85-119 *)
Definition square (m : nat) (type : string) (data : list R) (blocks : list nat) (d : cells) : option matrix :=
  option_map (fun d => {| mx_m := m; mx_n := m; mx_d := d |})
  (if String.eqb type "zero" then Some (fill (m * m) 0 d)
   else if String.eqb type "identity" then Some (setup_id m d)
   else if String.eqb type "diagonal" then setup_diagonal m data d
   else if String.eqb type "diagonal_blocks" then setup_diagonal_blocks m data blocks d
   else if String.eqb type "block" then setup_block m data blocks d
   else if String.eqb type "dense" then
     if Nat.eqb (List.length data) (m * m) then Some (fun k => if Nat.ltb k (m * m) then nth k data 0 else d k) else None
   else None).

(** Ownership of the storage.  A vector or matrix holds a pointer and whether it must free it; pointers to memory
    of the caller are numbered apart.  [live]: allocated blocks; [next]: the next block the allocator returns. *)
(** src/math/matrix.cxx:9-57: which memory an object holds and frees *)
Inductive pointer := Heap (n : nat) | Callers (n : nat).
(** src/math/matrix.cxx:9-57: which memory an object holds and frees *)
Record holder := { hd_p : pointer; hd_own : bool }.
(** src/math/matrix.cxx:9-57: which memory an object holds and frees *)
Record store := { so_live : list nat; so_next : nat; so_obj : list (option holder) }.
Inductive action :=
  | Make                (* FlatVector(n), FlatVector(std::vector), Matrix(m, n): matrix.cxx:9-13, 21-25, 47-51 *)
  | Wrap (p : nat)      (* FlatVector(n, data): 15-19 *)
  | Copy (i : nat)      (* FlatVector(const FlatVector &): 27-32 *)
  | Drop (i : nat)      (* the destructors: 34-40, 53-57 (a Matrix always owns) *)
  | Assign (i j : nat)  (* FlatVector::operator=, generated by the compiler: copies n_, data_ and own_ *)
  | Shallow (i : nat).  (* Matrix(const Matrix &), generated by the compiler: copies the pointer *)
Definition alloc (s : store) : store * holder :=
  ({| so_live := so_next s :: so_live s; so_next := S (so_next s); so_obj := so_obj s |}, {| hd_p := Heap (so_next s); hd_own := true |}).
(** src/math/matrix.cxx:9-57: which memory an object holds and frees *)
Definition push (s : store) (h : holder) : store := {| so_live := so_live s; so_next := so_next s; so_obj := so_obj s ++ [Some h] |}.
(** src/math/matrix.cxx:9-57: which memory an object holds and frees *)
Fixpoint upd {A} (l : list A) (i : nat) (x : A) : list A := match l, i with [], _ => [] | _ :: r, O => x :: r | y :: r, S j => y :: upd r j x end.
(** src/math/matrix.cxx:9-57: which memory an object holds and frees *)
Definition obj (s : store) (i : nat) : option holder := nth i (so_obj s) None.
(** None: undefined behaviour (memory freed twice, or an object that does not exist any more) *)
(** src/math/matrix.cxx:9-57: which memory an object holds and frees *)
Definition act (s : store) (a : action) : option store :=
  match a with
  | Make => let (s', h) := alloc s in Some (push s' h)
  | Wrap p => Some (push s {| hd_p := Callers p; hd_own := false |})
  | Copy i => match obj s i with Some _ => let (s', h) := alloc s in Some (push s' h) | None => None end
  | Drop i => match obj s i with
              | Some h => let s' := {| so_live := so_live s; so_next := so_next s; so_obj := upd (so_obj s) i None |} in
                  if hd_own h then match hd_p h with
                    | Heap n => if existsb (Nat.eqb n) (so_live s) then Some {| so_live := List.filter (fun x => negb (Nat.eqb x n)) (so_live s); so_next := so_next s; so_obj := upd (so_obj s) i None |} else None
                    | Callers _ => None end
                  else Some s'
              | None => None end
  | Assign i j => match obj s i, obj s j with Some _, Some h => Some {| so_live := so_live s; so_next := so_next s; so_obj := upd (so_obj s) i (Some h) |} | _, _ => None end
  | Shallow i => match obj s i with Some h => Some (push s h) | None => None end
  end.
(** src/math/matrix.cxx:9-57: which memory an object holds and frees *)
Fixpoint acts (s : store) (l : list action) : option store := match l with [] => Some s | a :: r => match act s a with Some s' => acts s' r | None => None end end.
(** src/math/matrix.cxx:9-57: which memory an object holds and frees *)
Definition empty_store : store := {| so_live := []; so_next := 0; so_obj := [] |}.

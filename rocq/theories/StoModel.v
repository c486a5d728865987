(** Model of the storage of tensors and quaternions, src/math/tensors.cxx:11-119 and
    src/math/rotations.cxx:15-100, 345-358: objects that own their numbers, and objects laid
    over an array of the caller.

    Simplifications: memory is a set of blocks of numbers; blocks below [nb] belong to the
    caller and live for ever, the others are made by new [].  Objects laid over the numbers
    of another object (through s() or data()) are left out.  std::copy reads all of its
    operand before it writes (the library uses memmove for doubles; the standard leaves
    overlapping ranges open); add_ reads and writes number by number, as written.
    [q = true] is a quaternion, [q = false] a tensor; a program has one kind of object. *)
From Coq Require Import Arith Bool List.
From Verif Require Import Base.
Import ListNotations.

(** include/math/tensors.h:54-57, include/math/rotations.h (quat_, store_): where the numbers
    are, how many, and whether the object owns them *)
Record tobj := mkT { t_blk : nat; t_off : nat; t_n : nat; t_own : bool }.
(** the memory: contents, blocks made by new [] and not deleted, next free block; and the
    objects in scope; no NEML code *)
Record mstate := mkM { m_cell : nat -> nat -> R; m_live : nat -> bool; m_next : nat;
                       m_env : nat -> option tobj }.
(** normal return, std::invalid_argument, or undefined behaviour (a read, write or delete []
    of memory that is not there); no NEML code *)
Inductive mres := MOk (s : mstate) | MThrow | MFault.

(** The operations: constructors, assignments, arithmetic and destructor,
    src/math/tensors.cxx:11-119, src/math/rotations.cxx:15-83; x, y name objects *)
Inductive sop :=
| SNew (x n : nat)                          (* Tensor(n) *)
| SVec (x n : nat) (v : nat -> R)           (* Tensor(std::vector) *)
| SView (x b off n : nat)                   (* Tensor(double *, n) *)
| SCopy (x y : nat)                         (* Tensor(const Tensor &) *)
| SMove (x y : nat)                         (* Tensor(Tensor &&) *)
| SAssign (x y : nat)                       (* operator=(const Tensor &) *)
| SMoveAssign (x y : nat)                   (* operator=(Tensor &&) *)
| SPut (x i : nat) (v : R)                  (* operator()(i) = v *)
| SScale (x : nat) (k : R)                  (* operator*= *)
| SAdd (x y : nat)                          (* operator+= *)
| SNeg (x : nat)                            (* negate_ *)
| SDel (x : nat).                           (* ~Tensor *)

(** scoping of names; no NEML code *)
Definition bind {A} (env : nat -> option A) (x : nat) (o : option A) : nat -> option A :=
  fun y => if Nat.eqb y x then o else env y.
(** the n numbers from off of block b become f; no NEML code *)
Definition wr (cell : nat -> nat -> R) (b off n : nat) (f : nat -> R) : nat -> nat -> R :=
  fun b' j => if Nat.eqb b' b && (Nat.leb off j && Nat.ltb j (off + n)) then f (j - off)%nat else cell b' j.
(** memory that may be used: the arrays of the caller and undeleted blocks; no NEML code *)
Definition usable (nb : nat) (s : mstate) (t : tobj) : bool := Nat.ltb (t_blk t) nb || m_live s (t_blk t).
(** number i of an object, include/math/tensors.h:41 (data) *)
Definition rd (s : mstate) (t : tobj) (i : nat) : R := m_cell s (t_blk t) (t_off t + i)%nat.
(** the loops and copies into s_, src/math/tensors.cxx:71, 77-80, 89, 100-102, 114-116, 121-123;
    src/math/rotations.cxx:72, 80 *)
Definition into (nb : nat) (s : mstate) (t : tobj) (f : nat -> R) : mres :=
  if usable nb s t then MOk (mkM (wr (m_cell s) (t_blk t) (t_off t) (t_n t) f) (m_live s) (m_next s) (m_env s))
  else MFault.
(** new double [n] filled with f, src/math/tensors.cxx:11-23, 37-42; src/math/rotations.cxx:24-28, 354-358 *)
Definition fresh (s : mstate) (x n : nat) (f : nat -> R) : mres :=
  let b := m_next s in
  MOk (mkM (wr (m_cell s) b 0 n f) (fun c => if Nat.eqb c b then true else m_live s c) (S b)
           (bind (m_env s) x (Some (mkT b 0 n true)))).
(** an object that is to be made is not there yet; no NEML code *)
Definition free_name {A} (env : nat -> option A) (x : nat) : bool := match env x with None => true | Some _ => false end.

(** the loop of add_, src/math/tensors.cxx:112-117: the first k numbers, each read after the
    ones before it have been written *)
Fixpoint add_loop (cell : nat -> nat -> R) (t u : tobj) (k : nat) : nat -> nat -> R :=
  match k with
  | O => cell
  | S i => let c := add_loop cell t u i in
           wr c (t_blk t) (t_off t + i) 1
              (fun _ => c (t_blk t) (t_off t + i)%nat + c (t_blk u) (t_off u + i)%nat)
  end.
(** a quaternion has four numbers, src/math/rotations.cxx:354-358; a vector of another length
    would overrun them or leave some indeterminate *)
Definition sized (q : bool) (n : nat) : bool := negb q || Nat.eqb n 4.

(** src/math/tensors.cxx:11-124, src/math/rotations.cxx:15-83, one operation.  A quaternion has
    no += and no negate_: for [q = true] SAdd and SNeg are no NEML code. *)
Definition sstep (q : bool) (nb : nat) (s : mstate) (o : sop) : mres :=
  match o with
  | SNew x n =>                                        (* tensors.cxx:11-16, rotations.cxx:15-22 *)
    if free_name (m_env s) x && sized q n
    then fresh s x n (fun i => if q && Nat.eqb i 3 then 1 else 0) else MFault
  | SVec x n v =>                                      (* tensors.cxx:37-42, rotations.cxx:24-28 *)
    if free_name (m_env s) x && sized q n then fresh s x n v else MFault
  | SView x b off n =>                                 (* tensors.cxx:44-54, rotations.cxx:30-34 *)
    if free_name (m_env s) x && sized q n && Nat.ltb b nb
    then MOk (mkM (m_cell s) (m_live s) (m_next s) (bind (m_env s) x (Some (mkT b off n false)))) else MFault
  | SCopy x y =>                                       (* tensors.cxx:18-23, rotations.cxx:36-46 *)
    match m_env s y with
    | None => MFault
    | Some t => if free_name (m_env s) x && usable nb s t then
        if q && negb (t_own t) then
          MOk (mkM (m_cell s) (m_live s) (m_next s) (bind (m_env s) x (Some t)))
        else fresh s x (t_n t) (rd s t) else MFault
    end
  | SMove x y =>                                       (* tensors.cxx:25-35, rotations.cxx:48-58 *)
    match m_env s y with
    | None => MFault
    | Some t => if free_name (m_env s) x && usable nb s t then
        if t_own t then fresh s x (t_n t) (rd s t)
        else MOk (mkM (m_cell s) (m_live s) (m_next s) (bind (m_env s) x (Some t))) else MFault
    end
  | SAssign x y =>                                     (* tensors.cxx:64-75, rotations.cxx:68-75 *)
    match m_env s x, m_env s y with
    | Some t, Some u => if Nat.eqb (t_n t) (t_n u) then
                          if usable nb s u then into nb s t (rd s u) else MFault else MThrow
    | _, _ => MFault
    end
  | SMoveAssign x y =>                                 (* tensors.cxx:82-96, rotations.cxx:77-82 *)
    match m_env s x, m_env s y with
    | Some t, Some u => if Nat.eqb (t_n t) (t_n u) then
        if q || t_own u then
          if usable nb s u then into nb s t (rd s u) else MFault
        else MOk (mkM (m_cell s) (m_live s) (m_next s)
                      (bind (m_env s) x (Some (mkT (t_blk u) (t_off u) (t_n t) (t_own t))))) else MThrow
    | _, _ => MFault
    end
  | SPut x i v =>                                      (* tensors.cxx:187-190 *)
    match m_env s x with
    | Some t => if Nat.ltb i (t_n t) then into nb s t (fun k => if Nat.eqb k i then v else rd s t k) else MFault
    | None => MFault
    end
  | SScale x k => match m_env s x with                 (* tensors.cxx:98-105, rotations.cxx:345-352 *)
                  | Some t => into nb s t (fun i => rd s t i * k) | None => MFault end
  | SAdd x y =>                                        (* tensors.cxx:112-117 *)
    match m_env s x, m_env s y with
    | Some t, Some u => if Nat.eqb (t_n t) (t_n u) && usable nb s u
                        then if usable nb s t
                             then MOk (mkM (add_loop (m_cell s) t u (t_n t)) (m_live s) (m_next s) (m_env s))
                             else MFault else MFault
    | _, _ => MFault
    end
  | SNeg x => match m_env s x with                     (* tensors.cxx:119-124 *)
              | Some t => into nb s t (fun i => - rd s t i) | None => MFault end
  | SDel x =>                                          (* tensors.cxx:56-62, rotations.cxx:60-66 *)
    match m_env s x with
    | None => MFault
    | Some t => if t_own t then
        if Nat.leb nb (t_blk t) && m_live s (t_blk t) && Nat.eqb (t_off t) 0
        then MOk (mkM (m_cell s) (fun c => if Nat.eqb c (t_blk t) then false else m_live s c) (m_next s)
                      (bind (m_env s) x None))
        else MFault
      else MOk (mkM (m_cell s) (m_live s) (m_next s) (bind (m_env s) x None))
    end
  end.
(** a program, src/math/tensors.cxx:11-124, src/math/rotations.cxx:15-83 *)
Fixpoint sruns (q : bool) (nb : nat) (s : mstate) (l : list sop) : mres :=
  match l with
  | [] => MOk s
  | o :: r => match sstep q nb s o with MOk s' => sruns q nb s' r | e => e end
  end.
(** the caller's arrays and nothing else; no NEML code *)
Definition sstart (nb : nat) (arr : nat -> nat -> R) : mstate := mkM arr (fun _ => false) nb (fun _ => None).

(** Model of include/pyhelp.h: building objects from Python arguments, and pickling.

    Python values are floats, integers, booleans, strings, sequences (lists and tuples) and NEML
    objects.  None, which becomes a null pointer, and arrays are left out.  What py::cast accepts is
    pybind11's rule with conversions allowed: anything with __float__ or an integer is a double; an
    integer or boolean, but no float, in range is an int or size_t; numbers have a truth value, strings and
    sequences do not; a string is no sequence.  A failed cast and std::runtime_error both arrive in
    Python as RuntimeError ([StdException]). *)
From Coq Require Import String Ascii ZArith List Arith.
From Verif Require Import Base.
From Verif Require Import HistModel InterpModel TextModel ParseModel.
Import ListNotations.

(** values of Python and pybind11's casts, used in include/pyhelp.h:112-181; no NEML code *)
Inductive pyv := PyFloat (x : R) | PyInt (z : Z) | PyBool (b : bool) | PyStr (s : text) | PySeq (l : list pyv) | PyObj (o : object).

(** values of Python and pybind11's casts, used in include/pyhelp.h:112-181; no NEML code *)
Definition b2z (b : bool) : Z := if b then 1%Z else 0%Z.
(** values of Python and pybind11's casts, used in include/pyhelp.h:112-181; no NEML code *)
Definition to_double (v : pyv) : option R := match v with PyFloat x => Some x | PyInt z => Some (IZR z) | PyBool b => Some (IZR (b2z b)) | _ => None end.
(** values of Python and pybind11's casts, used in include/pyhelp.h:112-181; no NEML code *)
Definition to_int (v : pyv) : option Z :=
  match v with PyInt z => if andb (Z.leb (- 2 ^ 31) z) (Z.ltb z (2 ^ 31)) then Some z else None | PyBool b => Some (b2z b) | _ => None end.
(** values of Python and pybind11's casts, used in include/pyhelp.h:112-181; no NEML code *)
Definition to_size (v : pyv) : option Z :=
  match v with PyInt z => if andb (Z.leb 0 z) (Z.ltb z (2 ^ 64)) then Some z else None | PyBool b => Some (b2z b) | _ => None end.
(** values of Python and pybind11's casts, used in include/pyhelp.h:112-181; no NEML code *)
Definition to_bool (v : pyv) : option bool :=
  match v with PyBool b => Some b | PyInt z => Some (negb (Z.eqb z 0)) | PyFloat x => Some (if Req_EM_T x 0 then false else true) | _ => None end.
(** values of Python and pybind11's casts, used in include/pyhelp.h:112-181; no NEML code *)
Definition to_str (v : pyv) : option text := match v with PyStr s => Some s | _ => None end.
(** values of Python and pybind11's casts, used in include/pyhelp.h:112-181; no NEML code *)
Definition to_obj (v : pyv) : option object := match v with PyObj o => Some o | _ => None end.
(** values of Python and pybind11's casts, used in include/pyhelp.h:112-181; no NEML code *)
Fixpoint all_of {A} (f : pyv -> option A) (l : list pyv) : option (list A) :=
  match l with [] => Some [] | v :: l => match f v, all_of f l with Some a, Some r => Some (a :: r) | _, _ => None end end.
(** values of Python and pybind11's casts, used in include/pyhelp.h:112-181; no NEML code *)
Definition to_list {A} (f : pyv -> option A) (v : pyv) : option (list A) := match v with PySeq l => all_of f l | _ => None end.
(** std::pair and std::tuple of four integer vectors *)
(** values of Python and pybind11's casts, used in include/pyhelp.h:112-181; no NEML code *)
Definition to_slip (v : pyv) : option slip :=
  match v with PySeq [a; b] => match to_list to_int a, to_list to_int b with Some a, Some b => Some (a, b) | _, _ => None end | _ => None end.
(** values of Python and pybind11's casts, used in include/pyhelp.h:112-181; no NEML code *)
Definition to_twin (v : pyv) : option twin :=
  match v with
  | PySeq [a; b; c; d] => match to_list to_int a, to_list to_int b, to_list to_int c, to_list to_int d with
      | Some a, Some b, Some c, Some d => Some (a, b, c, d) | _, _, _, _ => None end
  | _ => None end.
(** values of Python and pybind11's casts, used in include/pyhelp.h:112-181; no NEML code *)
Definition omap {A B} (f : A -> B) (x : option A) : option B := match x with Some a => Some (f a) | None => None end.

(** 113-180 assign_python_parameter; the cast by the declared type *)
Definition cast (ty : ptype) (v : pyv) : option pval :=
  match ty with
  | PT_double => omap VDouble (to_double v)
  | PT_int => omap VInt (to_int v)
  | PT_bool => omap VBool (to_bool v)
  | PT_vec_double => omap VVecDouble (to_list to_double v)
  | PT_object => match to_double v with Some x => Some (VObject (make_constant x)) | None => omap VObject (to_obj v) end
  | PT_vec_object => match to_list to_double v with Some l => Some (VVecObject (map make_constant l)) | None => omap VVecObject (to_list to_obj v) end
  | PT_string => omap VString (to_str v)
  | PT_slip => omap VSlip (to_list to_slip v)
  | PT_twin => omap VTwin (to_list to_twin v)
  | PT_size => omap VSize (to_size v)
  | PT_vec_size => omap VVecSize (to_list to_size v)
  end.
(** include/pyhelp.h:112-181 *)
Definition assign_python (n : string) (v : pyv) (p : pset) : pres pset :=
  match cast (get_object_type n p) v with Some x => assign_parameter n x p | None => PErr StdException end.
(** include/pyhelp.h:184-206: the loops *)
Fixpoint assign_all (l : list (string * pyv)) (p : pset) : pres pset :=
  match l with [] => POk p | (n, v) :: l => pbind (assign_python n v p) (assign_all l) end.
(** 184-206 create_object_python; [req] are the names the wrapper gives to the positional arguments,
    [kw] the keyword arguments in the order of the call *)
Definition create_python (F : factory) (t : string) (req : list string) (args : list pyv) (kw : list (string * pyv)) : pres object :=
  pbind (provide_parameters F t) (fun p =>
    if negb (Nat.eqb (length args) (length req)) then PErr StdException
    else pbind (assign_all (combine req args) p) (fun p => pbind (assign_all kw p) (create F))).
(** 19-27 PICKLEABLE *)
Definition getstate (o : object) : node := make_object_node "object" o.
(** include/pyhelp.h:19-27 *)
Definition setstate (F : factory) (n : node) : pres object := get_object F n.

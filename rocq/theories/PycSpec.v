(** What the arguments of a Python constructor mean. *)
From Coq Require Import String Ascii ZArith List Arith.
From Verif Require Import Base.
From Verif Require Import HistModel InterpModel TextModel ParseModel TextProofs ParseSpec PycModel.
Import ListNotations.

(** numbers: floats, integers and booleans *)
Inductive number : pyv -> R -> Prop :=
| nu_float : forall x, number (PyFloat x) x
| nu_int : forall z, number (PyInt z) (IZR z)
| nu_true : number (PyBool true) 1
| nu_false : number (PyBool false) 0.
Inductive whole : pyv -> Z -> Prop :=
| wh_int : forall z, whole (PyInt z) z
| wh_true : whole (PyBool true) 1
| wh_false : whole (PyBool false) 0.
Definition int_in (P : Z -> Prop) (v : pyv) (z : Z) : Prop := whole v z /\ P z.
(** a sequence, element by element *)
Definition seq_of {A} (P : pyv -> A -> Prop) (v : pyv) (l : list A) : Prop := exists vs, v = PySeq vs /\ Forall2 P vs l.
Definition an_object (v : pyv) (o : object) : Prop := v = PyObj o.
Definition a_slip (v : pyv) (s : slip) : Prop :=
  exists a b, v = PySeq [a; b] /\ seq_of (int_in int32) a (fst s) /\ seq_of (int_in int32) b (snd s).
Definition a_twin (v : pyv) (s : twin) : Prop :=
  exists a b c d, v = PySeq [a; b; c; d] /\ seq_of (int_in int32) a (fst (fst (fst s))) /\ seq_of (int_in int32) b (snd (fst (fst s))) /\
    seq_of (int_in int32) c (snd (fst s)) /\ seq_of (int_in int32) d (snd s).
(** the constant interpolation of a number *)
Definition constant (x : R) : object := Obj "ConstantInterpolate" [("v"%string, VDouble x)].
(** a value given for a parameter of type ty stands for a value of that type: numbers given for an object
    or a list of objects stand for constants, otherwise like for like *)
Inductive means : ptype -> pyv -> pval -> Prop :=
| me_double : forall v x, number v x -> means PT_double v (VDouble x)
| me_int : forall v z, int_in int32 v z -> means PT_int v (VInt z)
| me_size : forall v z, int_in uint64 v z -> means PT_size v (VSize z)
| me_bool : forall b, means PT_bool (PyBool b) (VBool b)
| me_yes : forall v x, number v x -> x <> 0 -> means PT_bool v (VBool true)
| me_no : forall v, number v 0 -> means PT_bool v (VBool false)
| me_str : forall s, means PT_string (PyStr s) (VString s)
| me_vec_double : forall v l, seq_of number v l -> means PT_vec_double v (VVecDouble l)
| me_vec_size : forall v l, seq_of (int_in uint64) v l -> means PT_vec_size v (VVecSize l)
| me_slip : forall v l, seq_of a_slip v l -> means PT_slip v (VSlip l)
| me_twin : forall v l, seq_of a_twin v l -> means PT_twin v (VTwin l)
| me_const : forall v x, number v x -> means PT_object v (VObject (constant x))
| me_object : forall v o, an_object v o -> means PT_object v (VObject o)
| me_consts : forall v l, seq_of number v l -> means PT_vec_object v (VVecObject (map constant l))
| me_objects : forall v l, seq_of an_object v l -> means PT_vec_object v (VVecObject l).
(** the argument that counts for parameter n: the keyword, else the positional *)
Definition arg_for (pos kw : list (string * pyv)) (n : string) (v : pyv) : Prop :=
  In (n, v) kw \/ (~ In n (map fst kw) /\ In (n, v) pos).
Definition no_arg (pos kw : list (string * pyv)) (n : string) : Prop := ~ In n (map fst kw) /\ ~ In n (map fst pos).
(** the object a call describes *)
Definition described (F : factory) (t : string) (s : schema) (pos kw : list (string * pyv)) (o : object) : Prop :=
  (forall n v, In (n, v) (pos ++ kw) -> exists ty d x, In (n, ty, d) s /\ means ty v x) /\
  exists ps, o = Obj t ps /\ map fst ps = declared s /\ accepts F t ps = true /\
    forall n x, In (n, x) ps -> exists ty d, In (n, ty, d) s /\ ((exists v, arg_for pos kw n v /\ means ty v x) \/ (no_arg pos kw n /\ d = Some x)).
(** a factory whose classes can be written and read: legal names, defaults of the declared types, and
    constructors that do not mind the rounding *)
Definition sound_factory (F : factory) : Prop :=
  (forall t s, setups F t = Some s -> t <> "none"%string /\ NoDup (declared s) /\ ~ In "text"%string (declared s) /\
     forall n ty x, In (n, ty, Some x) s -> wf_val F ty x) /\
  (exists d, setups F "ConstantInterpolate" = Some [("v"%string, PT_double, d)]) /\
  (forall x, accepts F "ConstantInterpolate" [("v"%string, VDouble x)] = true) /\
  (forall t ps, accepts F t ps = true -> accepts F t (map (fun kv => (fst kv, round_val (snd kv))) ps) = true).
(** arguments that can be written: objects that can, strings that are not blank *)
Inductive writable (F : factory) : pyv -> Prop :=
| wr_float : forall x, writable F (PyFloat x)
| wr_int : forall z, writable F (PyInt z)
| wr_bool : forall b, writable F (PyBool b)
| wr_str : forall s, blank s = false -> writable F (PyStr s)
| wr_seq : forall l, (forall v, In v l -> writable F v) -> writable F (PySeq l)
| wr_obj : forall o, wf_obj F o -> writable F (PyObj o).

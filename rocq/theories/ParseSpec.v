(** Independent specification for saving and loading objects. *)
From Coq Require Import String Ascii ZArith.
From Verif Require Import Base.
From Verif Require Import HistModel.
From Verif Require Import TextModel.
From Verif Require Import ParseModel.
From Verif Require Import TextProofs.

Definition int32 (z : Z) : Prop := (- 2 ^ 31 <= z < 2 ^ 31)%Z.
Definition uint64 (z : Z) : Prop := (0 <= z < 2 ^ 64)%Z.

(** A parameter value or object with every double replaced by the number its six
    significant digits denote; nothing else changes. *)
Fixpoint round_val (v : pval) : pval :=
  match v with
  | VDouble x => VDouble (round6 x)
  | VVecDouble l => VVecDouble (map round6 l)
  | VObject o => VObject (round_obj o)
  | VVecObject l => VVecObject (map round_obj l)
  | _ => v
  end
with round_obj (o : object) : object :=
  match o with Obj t ps => Obj t (map (fun kv => (fst kv, round_val (snd kv))) ps) end.

(** Objects the factory can have produced: a registered type, one value of the
    declared type for every declared parameter, in declaration order. *)
Inductive wf_obj (F : factory) : object -> Prop :=
| WF_obj : forall t ps s, t <> "none"%string -> setups F t = Some s ->
    map fst ps = map (fun e => fst (fst e)) s -> NoDup (map fst ps) -> ~ In "text"%string (map fst ps) ->
    (forall k v, In (k, v) ps -> exists ty d, In (k, ty, d) s /\ wf_val F ty v) ->
    accepts F t (map (fun kv => (fst kv, round_val (snd kv))) ps) = true ->
    wf_obj F (Obj t ps)
with wf_val (F : factory) : ptype -> pval -> Prop :=
| WF_double : forall x, wf_val F PT_double (VDouble x)
| WF_int : forall z, int32 z -> wf_val F PT_int (VInt z)
| WF_bool : forall b, wf_val F PT_bool (VBool b)
| WF_vec_double : forall l, wf_val F PT_vec_double (VVecDouble l)
| WF_object : forall o, wf_obj F o -> wf_val F PT_object (VObject o)
| WF_vec_object : forall l, (forall o, In o l -> wf_obj F o) -> wf_val F PT_vec_object (VVecObject l)
| WF_string : forall s, blank s = false -> wf_val F PT_string (VString s)
| WF_slip : forall l, (forall a b, In (a, b) l -> List.Forall int32 a /\ List.Forall int32 b) ->
    wf_val F PT_slip (VSlip l)
| WF_size : forall z, uint64 z -> wf_val F PT_size (VSize z)
| WF_vec_size : forall l, List.Forall uint64 l -> wf_val F PT_vec_size (VVecSize l)
| WF_twin : forall l, (forall a b c d, In (a, b, c, d) l ->
    List.Forall int32 a /\ List.Forall int32 b /\ List.Forall int32 c /\ List.Forall int32 d) ->
    wf_val F PT_twin (VTwin l).

(** Every double in the object has at most six significant digits. *)
Definition six_digits (x : R) : Prop := exists k z, (Z.abs k < 1000000)%Z /\ x = IZR k * powerRZ 10 z.
Fixpoint short_val (v : pval) : Prop :=
  match v with
  | VDouble x => six_digits x
  | VVecDouble l => List.Forall six_digits l
  | VObject o => short_obj o
  | VVecObject l => (fix all (l : list object) := match l with [] => True | o :: r => short_obj o /\ all r end) l
  | _ => True
  end
with short_obj (o : object) : Prop :=
  match o with Obj t ps => (fix all (l : list (string * pval)) := match l with [] => True | kv :: r => short_val (snd kv) /\ all r end) ps end.

(** Reading one parameter of a declared type from its node. *)
Fixpoint vec_loop (F : factory) (xs : list node) : pres (list object) :=
  match xs with
  | [] => POk []
  | x :: q =>
    if String.eqb (node_name x) "text" then vec_loop F q
    else pbind (get_object F x) (fun o => pbind (vec_loop F q) (fun os => POk (o :: os)))
  end.
Definition load_val (F : factory) (ty : ptype) (c : node) : pres pval :=
  match ty with
  | PT_double => pbind (get_double c) (fun x => POk (VDouble x))
  | PT_int => pbind (get_int c) (fun x => POk (VInt x))
  | PT_bool => pbind (get_bool c) (fun x => POk (VBool x))
  | PT_vec_double => pbind (get_vector_double c) (fun x => POk (VVecDouble x))
  | PT_object => pbind (get_object F c) (fun x => POk (VObject x))
  | PT_vec_object =>
    pbind (match c with
      | Data _ => POk []
      | Elem _ _ [] => POk []
      | Elem _ _ [Data _] => pbind (get_vector_double c) (fun l => POk (map make_constant l))
      | Elem _ _ cc => vec_loop F cc
      end) (fun l => POk (VVecObject l))
  | PT_string => pbind (get_string c) (fun x => POk (VString x))
  | PT_slip => pbind (get_slip c) (fun x => POk (VSlip x))
  | PT_twin => pbind (get_twin c) (fun x => POk (VTwin x))
  | PT_size => pbind (get_size_type c) (fun x => POk (VSize x))
  | PT_vec_size => pbind (get_vector_size_type c) (fun x => POk (VVecSize x))
  end.

(** The declared parameter names. *)
Definition declared (s : schema) : list string := map (fun e => fst (fst e)) s.
(** The declared parameters with neither a default nor a child node. *)
Definition missing (s : schema) (ch : list node) : list string :=
  filter (fun n => negb (mem n (map node_name ch)))
    (map (fun e => fst (fst e)) (filter (fun e => match snd e with None => true | Some _ => false end) s)).

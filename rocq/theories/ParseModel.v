(** Model of src/objects.cxx, src/parse.cxx, src/deparse.cxx: parameter sets, the
    factory, reading objects from an XML tree and writing them to one.

    Simplifications: rapidxml's printing of a tree to characters and parsing back
    is not modelled: reading a printed tree is taken to give the tree [reread]
    (an element's text becomes a data child unless it is blank).  An object is its
    type and its current parameters; constructors (creators_) are modelled by
    whether they accept the parameters.  Deferred parameters are left out. *)
From Coq Require Import String Ascii ZArith.
From Verif Require Import Base.
From Verif Require Import HistModel.
From Verif Require Import InterpModel.
From Verif Require Import TextModel.

(** include/objects.h:86-98 *)
Inductive ptype := PT_double | PT_int | PT_bool | PT_vec_double | PT_object | PT_vec_object
                 | PT_string | PT_slip | PT_size | PT_vec_size | PT_twin.
(** src/parse.cxx:306-340, 342-392: the values read there *)
Definition slip := (list Z * list Z)%type.
(** src/parse.cxx:306-340, 342-392: the values read there *)
Definition twin := (list Z * list Z * list Z * list Z)%type.
(** include/objects.h:35-66 param_type, tagged by its current member *)
Inductive pval :=
| VDouble (x : R) | VInt (z : Z) | VBool (b : bool) | VVecDouble (l : list R)
| VObject (o : object) | VVecObject (l : list object) | VString (s : text)
| VSlip (l : list slip) | VSize (z : Z) | VVecSize (l : list Z) | VTwin (l : list twin)
with object := Obj (type : string) (params : list (string * pval)).

(** An element of a registered parameter set: name, type, default *)
(** the parameters added by a class in its parameters(), include/objects.h *)
(** the result of a class's parameters(), include/objects.h; no code of its own *)
Definition schema := list (string * ptype * option pval).
(** The factory: setups_ and creators_ (include/objects.h:316-318); [accepts t ps]:
    the constructor of t does not throw WrongTypeError on these parameters. *)
Record factory := mkFactory { setups : string -> option schema; accepts : string -> list (string * pval) -> bool }.

(** exceptions of src/parse.cxx and src/objects.cxx; no code of its own *)
Inductive perr :=
| BadFunctionCall              (* calling the empty std::function made by operator[] *)
| UnregisteredError | UnregisteredXML
| UnknownParameter (name : string) | UnknownParameterXML (node name : string)
| UndefinedParameters (type : string) (missing : list string)
| InvalidType (node type expected : string)
| WrongTypeError | StdException | NullDeref.
(** exceptions of src/parse.cxx and src/objects.cxx; no code of its own *)
Inductive pres (A : Type) := POk (a : A) | PErr (e : perr).
Arguments POk {A} _.  Arguments PErr {A} _.
(** exceptions of src/parse.cxx and src/objects.cxx; no code of its own *)
Definition pbind {A B} (r : pres A) (f : A -> pres B) : pres B :=
  match r with POk a => f a | PErr e => PErr e end.

(** ** Parameter sets (objects.cxx:25-87, objects.h:176-207) *)
Record pset := mkPset { ps_type : string; ps_schema : list (string * ptype); ps_vals : amap pval }.
(** operator[] of std::map on the parameter values, include/objects.h; no NEML code *)
Fixpoint put (k : string) (v : pval) (m : amap pval) : amap pval :=
  match m with
  | [] => [(k, v)]
  | (k', w) :: r => if String.eqb k k' then (k', v) :: r else (k', w) :: put k v r
  end.
(** the names in declaration order, src/objects.cxx:63-76 *)
Definition names (s : list (string * ptype)) : list string := map fst s.
(** objects.cxx:57-61 *)
Definition is_parameter (n : string) (p : pset) : bool := mem n (names (ps_schema p)).
(** objects.cxx:52-55: an unknown name gets the default enum value TYPE_DOUBLE *)
Definition get_object_type (n : string) (p : pset) : ptype :=
  match find n (ps_schema p) with Some t => t | None => PT_double end.
(** objects.h:184-192 *)
Definition assign_parameter (n : string) (v : pval) (p : pset) : pres pset :=
  if is_parameter n p then POk (mkPset (ps_type p) (ps_schema p) (put n v (ps_vals p)))
  else PErr (UnknownParameter n).
(** objects.cxx:63-76, 78-87 *)
Definition unassigned_parameters (p : pset) : list string :=
  filter (fun n => match find n (ps_vals p) with None => true | Some _ => false end) (names (ps_schema p)).
(** src/objects.cxx:78-87 (fully_assigned) *)
Definition fully_assigned (p : pset) : bool :=
  forallb (fun n => match find n (ps_vals p) with None => false | Some _ => true end) (names (ps_schema p)).
(** The parameter set made by T::parameters() *)
(** a ParameterSet as T::parameters() fills it, include/objects.h; src/objects.cxx:25-35 *)
Definition fresh (t : string) (s : schema) : pset :=
  mkPset t (map fst s)
    (flat_map (fun e => match snd e with Some v => [(fst (fst e), v)] | None => [] end) s).

(** objects.cxx:103-107 *)
Definition provide_parameters (F : factory) (t : string) : pres pset :=
  match setups F t with Some s => POk (fresh t s) | None => PErr BadFunctionCall end.
(** The parameters of an object in declaration order *)
(** the values in declaration order, as read by the constructors; src/objects.cxx:109-125 *)
Definition ordered (p : pset) : list (string * pval) :=
  flat_map (fun n => match find n (ps_vals p) with Some v => [(n, v)] | None => [] end) (names (ps_schema p)).
(** objects.cxx:109-125 *)
Definition create (F : factory) (p : pset) : pres object :=
  if fully_assigned p then
    match setups F (ps_type p) with
    | None => PErr BadFunctionCall
    | Some _ => if accepts F (ps_type p) (ordered p) then POk (Obj (ps_type p) (ordered p)) else PErr WrongTypeError
    end
  else PErr (UndefinedParameters (ps_type p) (unassigned_parameters p)).

(** ** XML trees *)
(** an XML tree of the rapidxml library, used in src/parse.cxx; no NEML code *)
Inductive node :=
| Elem (name : string) (attrs : list (string * string)) (children : list node)
| Data (s : text).
(** an XML tree of the rapidxml library, used in src/parse.cxx; no NEML code *)
Definition node_name (n : node) : string := match n with Elem nm _ _ => nm | Data _ => EmptyString end.
(** an XML tree of the rapidxml library, used in src/parse.cxx; no NEML code *)
Definition children (n : node) : list node := match n with Elem _ _ c => c | Data _ => [] end.
(** parse.cxx:417-427 *)
Definition get_type_of_node (n : node) : string :=
  match n with
  | Elem _ at_ _ => match find "type" at_ with Some t => t | None => "none"%string end
  | Data _ => "none"%string
  end.
(** throw InvalidType, src/parse.cxx:246-266 *)
Definition invalid {A} (n : node) (expected : string) : pres A :=
  PErr (InvalidType (node_name n) (get_type_of_node n) expected).
(** parse.cxx:296-304: first_node()->value(); an element child has its own text as
    value, which is "" unless it has a data child first *)
Definition node_value (n : node) : text :=
  match n with Data s => s | Elem _ _ (Data s :: _) => s | Elem _ _ _ => [] end.
(** src/parse.cxx:296-304 (get_string) *)
Definition get_string (n : node) : pres text :=
  match children n with
  | [] => PErr NullDeref
  | c :: _ => match node_value c with [] => invalid n "string" | s => POk s end
  end.
(** a std::exception thrown by the conversion is replaced by InvalidType; reading
    through the null pointer is not an exception *)
(** src/parse.cxx:246-266: the try blocks *)
Definition convert {A} (n : node) (expected : string) (f : text -> option A) : pres A :=
  match get_string n with
  | POk s => match f s with Some a => POk a | None => invalid n expected end
  | PErr NullDeref => PErr NullDeref
  | PErr _ => invalid n expected
  end.
(** parse.cxx:246-266 *)
Definition get_double (n : node) : pres R := convert n "double" stod.
(** src/parse.cxx:257-266 (get_int) *)
Definition get_int (n : node) : pres Z := convert n "int" stoi.
(** src/parse.cxx:480-484 (is_empty) *)
Definition is_empty (n : node) : bool := match children n with [] => true | _ => false end.
(** parse.cxx:268-279, 394-415 *)
Definition get_vector_double (n : node) : pres (list R) :=
  if is_empty n then POk [] else convert n "vector<double>" split_string_double.
(** src/parse.cxx:394-403 (get_size_type) *)
Definition get_size_type (n : node) : pres Z := convert n "size_t" stoul.
(** src/parse.cxx:405-415 (get_vector_size_type) *)
Definition get_vector_size_type (n : node) : pres (list Z) :=
  if is_empty n then POk [] else convert n "vector<size_t>" split_string_size_type.
(** strings as lists of characters; no code of its own *)
Definition t_of (s : string) : text := list_ascii_of_string s.
(** strings as lists of characters; no code of its own *)
Fixpoint text_eqb (a b : text) : bool :=
  match a, b with
  | [], [] => true
  | x :: a', y :: b' => ceq x y && text_eqb a' b'
  | _, _ => false
  end.
(** parse.cxx:281-304 *)
Definition get_bool (n : node) : pres bool :=
  pbind (get_string n) (fun s =>
    if text_eqb s (t_of "true") || text_eqb s (t_of "True") || text_eqb s (t_of "T") || text_eqb s (t_of "1") then POk true
    else if text_eqb s (t_of "false") || text_eqb s (t_of "False") || text_eqb s (t_of "F") || text_eqb s (t_of "0") then POk false
    else invalid n "bool").
(** parse.cxx:321-340: one group of get_slip; [None]: std::stoi throws *)
Definition read_slip (to : text) : option slip :=
  let next := find_from c_semi 0 to in
  let dir := strip (substr_to 0 next to) in
  let nor := strip (skipn (after next) to) in
  match split_string_int dir, split_string_int nor with
  | Some d, Some k => Some (d, k)
  | _, _ => None
  end.
(** parse.cxx:357-392: one group of get_twin *)
Definition read_twin (to : text) : option twin :=
  let n1 := find_from c_semi 0 to in
  let eta1 := strip (substr_to 0 n1 to) in
  let n2 := find_from c_semi (after n1) to in
  let K1 := strip (substr_to (after n1) n2 to) in
  let n3 := find_from c_semi (after n2) to in
  let eta2 := strip (substr_to (after n2) n3 to) in
  let K2 := strip (skipn (after n3) to) in
  match split_string_int eta1, split_string_int K1, split_string_int eta2, split_string_int K2 with
  | Some a, Some b, Some c, Some d => Some (a, b, c, d)
  | _, _, _, _ => None
  end.
(** parse.cxx:306-321, 342-357: groups are separated by commas, blank ones skipped *)
Definition groups (s : text) : list text :=
  filter (fun g => match g with [] => false | _ => true end) (map strip (getlines c_comma [] s)).
(** src/parse.cxx:306-392: the loop of get_slip and get_twin *)
Definition get_groups {A} (read : text -> option A) (n : node) : pres (list A) :=
  match node_value n with
  | [] => POk []
  | _ => pbind (get_string n) (fun s => match mapM read (groups s) with Some l => POk l | None => PErr StdException end)
  end.
(** src/parse.cxx:306-340 (get_slip) *)
Definition get_slip : node -> pres (list slip) := get_groups read_slip.
(** src/parse.cxx:342-392 (get_twin) *)
Definition get_twin : node -> pres (list twin) := get_groups read_twin.

(** interpolate.cxx:638-644 *)
Definition make_constant (v : R) : object := Obj "ConstantInterpolate" [("v"%string, VDouble v)].

(** parse.cxx:136-147 get_object, 149-216 get_parameters, 218-243 get_vector_object *)
Fixpoint get_object (F : factory) (n : node) {struct n} : pres object :=
  if String.eqb (get_type_of_node n) "none" then
    pbind (get_double n) (fun x => POk (make_constant x))
  else
    match n with
    | Data _ => PErr NullDeref
    | Elem nm at_ ch =>
      pbind (provide_parameters F (get_type_of_node n)) (fun p0 =>
      pbind ((fix loop (cs : list node) (p : pset) {struct cs} : pres pset :=
        match cs with
        | [] => POk p
        | c :: r =>
          if String.eqb (node_name c) "text" then loop r p
          else if is_parameter (node_name c) p then
            pbind (match get_object_type (node_name c) p with
              | PT_double => pbind (get_double c) (fun x => POk (VDouble x))
              | PT_int => pbind (get_int c) (fun x => POk (VInt x))
              | PT_bool => pbind (get_bool c) (fun x => POk (VBool x))
              | PT_vec_double => pbind (get_vector_double c) (fun x => POk (VVecDouble x))
              | PT_object => pbind (get_object F c) (fun x => POk (VObject x))
              | PT_vec_object =>
                pbind (match c with
                  | Data _ => POk []
                  | Elem _ _ [] => POk []
                  | Elem _ _ [Data _] => pbind (get_vector_double c) (fun l => POk (map make_constant l))
                  | Elem _ _ cc =>
                    (fix vec (xs : list node) {struct xs} : pres (list object) :=
                      match xs with
                      | [] => POk []
                      | x :: q =>
                        if String.eqb (node_name x) "text" then vec q
                        else pbind (get_object F x) (fun o => pbind (vec q) (fun os => POk (o :: os)))
                      end) cc
                  end) (fun l => POk (VVecObject l))
              | PT_string => pbind (get_string c) (fun x => POk (VString x))
              | PT_slip => pbind (get_slip c) (fun x => POk (VSlip x))
              | PT_twin => pbind (get_twin c) (fun x => POk (VTwin x))
              | PT_size => pbind (get_size_type c) (fun x => POk (VSize x))
              | PT_vec_size => pbind (get_vector_size_type c) (fun x => POk (VVecSize x))
              end) (fun v =>
            pbind (assign_parameter (node_name c) v p) (loop r))
          else PErr (UnknownParameterXML nm (node_name c))
        end) ch p0) (create F))
    end.

(** ** Writing *)
(** A printed element whose text is blank has no data child when read back; any
    other text becomes a single data child. *)
(** a text element as rapidxml prints and reads it back; no NEML code *)
Definition blank (s : text) : bool := forallb isspace s.
(** a text element as rapidxml prints and reads it back; no NEML code *)
Definition leaf (nm : string) (s : text) : node :=
  Elem nm [] (if blank s then [] else [Data s]).
(** src/deparse.cxx:153-193: the loops over indices *)
Definition show_ints (l : list Z) : text := flat_map (fun z => show_int z ++ [c_space]) l.
(** deparse.cxx:153-169 *)
Definition show_slip (e : slip) : text :=
  show_ints (fst e) ++ [c_semi; c_space] ++ show_ints (snd e) ++ [c_comma].
(** deparse.cxx:171-193 *)
Definition show_twin (e : twin) : text :=
  let '(a, b, c, d) := e in
  show_ints a ++ [c_semi] ++ show_ints b ++ [c_semi] ++ show_ints c ++ [c_semi] ++ show_ints d ++ [c_comma].
(** std::to_string, used in src/deparse.cxx:195-209; no NEML code *)
Definition string_of_int (i : nat) : string := string_of_list_ascii (show_int (Z.of_nat i)).

(** deparse.cxx:39-105 make_object_node, 107-209 *)
Fixpoint make_object_node (nm : string) (o : object) {struct o} : node :=
  match o with
  | Obj t ps =>
    Elem nm [("type"%string, t)]
      ((fix go (l : list (string * pval)) : list node :=
        match l with
        | [] => []
        | (k, v) :: r =>
          (match v with
           | VDouble x => leaf k (show_double x)
           | VInt z => leaf k (show_int z)
           | VBool b => leaf k (if b then t_of "true" else t_of "false")
           | VVecDouble xs => leaf k (flat_map (fun x => show_double x ++ [c_space]) xs)
           | VObject o' => make_object_node k o'
           | VVecObject os =>
             Elem k [] ((fix vec (i : nat) (l : list object) : list node :=
               match l with
               | [] => []
               | o' :: q => make_object_node (append k (string_of_int i)) o' :: vec (S i) q
               end) 0%nat os)
           | VString s => leaf k s
           | VSlip l' => leaf k (flat_map show_slip l')
           | VTwin l' => leaf k (flat_map show_twin l')
           | VSize z => leaf k (show_int z)
           | VVecSize zs => leaf k (flat_map (fun z => show_int z ++ [c_space]) zs)
           end) :: go r
        end) ps)
  end.

(** Model of include/objects.h and src/objects.cxx: what a constructor receives when it
    reads its parameters, for a table of classes as in DeclTable.v.

    Simplifications: an object is the name of its class and a text telling how it was made;
    a class reads the parameters of its base classes first and then its own in the order of
    the source text (members are initialised in the order of the header, which matters only
    for which of two equal exceptions comes first); parameters assigned as sets to be built
    later (assign_defered_parameter, called nowhere in /repo) are left out; what a
    constructor does with the values is not modelled here. *)
From Coq Require Import String Ascii ZArith List Bool.
From Verif Require Import Base.
Import ListNotations.

(** include/objects.h:86-98 *)
Inductive dtype := DTdouble | DTint | DTbool | DTvecdouble | DTobj | DTvecobj
                 | DTstring | DTslip | DTsize | DTvecsize | DTtwin.
(** equality of the enum, include/objects.h:86-98; no NEML code *)
Definition dtype_eq (a b : dtype) : bool :=
  match a, b with
  | DTdouble, DTdouble | DTint, DTint | DTbool, DTbool | DTvecdouble, DTvecdouble
  | DTobj, DTobj | DTvecobj, DTvecobj | DTstring, DTstring | DTslip, DTslip
  | DTsize, DTsize | DTvecsize, DTvecsize | DTtwin, DTtwin => true
  | _, _ => false
  end.

(** a NEMLObject, include/objects.h:337-357: its dynamic class and how it was made *)
Record dobj := mkDobj { o_class : string; o_made : string }.
(** include/objects.h:21-25 *)
Definition dslip := (list Z * list Z)%type.
(** include/objects.h:21-25 *)
Definition dtwin := (list Z * list Z * list Z * list Z)%type.

(** a C++ value handed to assign_parameter, include/objects.h:42-45; [None] is a null pointer *)
Inductive dval :=
| Xdouble (x : R) | Xint (z : Z) | Xbool (b : bool) | Xvecdouble (l : list R)
| Xobj (o : option dobj) | Xvecobj (l : list (option dobj)) | Xstring (s : string)
| Xslip (l : list dslip) | Xsize (n : nat) | Xvecsize (l : list nat) | Xtwin (l : list dtwin).

(** include/objects.h:55-67 the members of param_type.  [None] of a number is an
    indeterminate value: the constructor of param_type leaves it uninitialised. *)
Record slot := mkSlot {
  m_double : option R; m_int : option Z; m_bool : option bool; m_vecdouble : list R;
  m_obj : option dobj; m_vecobj : list (option dobj); m_string : string;
  m_slip : list dslip; m_twin : list dtwin; m_size : option nat; m_vecsize : list nat }.

(** include/objects.h:41 param_type() *)
Definition blank : slot :=
  mkSlot None None None [] None [] EmptyString [] [] None [].

(** include/objects.h:43-46, 70-80 param_type(val): sets the member of the type of val *)
Definition slot_of (v : dval) : slot :=
  match v with
  | Xdouble x => mkSlot (Some x) None None [] None [] EmptyString [] [] None []
  | Xint z => mkSlot None (Some z) None [] None [] EmptyString [] [] None []
  | Xbool b => mkSlot None None (Some b) [] None [] EmptyString [] [] None []
  | Xvecdouble l => mkSlot None None None l None [] EmptyString [] [] None []
  | Xobj o => mkSlot None None None [] o [] EmptyString [] [] None []
  | Xvecobj l => mkSlot None None None [] None l EmptyString [] [] None []
  | Xstring s => mkSlot None None None [] None [] s [] [] None []
  | Xslip l => mkSlot None None None [] None [] EmptyString l [] None []
  | Xtwin l => mkSlot None None None [] None [] EmptyString [] l None []
  | Xsize n => mkSlot None None None [] None [] EmptyString [] [] (Some n) []
  | Xvecsize l => mkSlot None None None [] None [] EmptyString [] [] None l
  end.

(** include/objects.h:42, 82 param_type(const char * val): data<std::string>() = *val
    assigns the first character (the terminating zero of an empty literal) *)
Definition slot_of_literal (s : string) : slot :=
  slot_of (Xstring (String (match s with EmptyString => "000"%char | String c _ => c end) EmptyString)).

(** include/objects.h:38-39, 70-80 get<T>(): the member of the type asked for, whichever
    was set; [None] is an indeterminate number *)
Definition slot_get (t : dtype) (s : slot) : option dval :=
  match t with
  | DTdouble => option_map Xdouble (m_double s)
  | DTint => option_map Xint (m_int s)
  | DTbool => option_map Xbool (m_bool s)
  | DTvecdouble => Some (Xvecdouble (m_vecdouble s))
  | DTobj => Some (Xobj (m_obj s))
  | DTvecobj => Some (Xvecobj (m_vecobj s))
  | DTstring => Some (Xstring (m_string s))
  | DTslip => Some (Xslip (m_slip s))
  | DTsize => option_map Xsize (m_size s)
  | DTvecsize => Some (Xvecsize (m_vecsize s))
  | DTtwin => Some (Xtwin (m_twin s))
  end.

(** The expressions given as defaults in the parameters() of the classes, for instance
    src/cp/crystaldamage.cxx:549-551 (each cited in DeclTable.v): [Ddouble m e] is the literal m times ten to the e, [Dlit] a
    character literal, [Dstring] a std::string, [Dbrace] the empty braces, [Dvecdouble],
    [Dvecsize], [Dslip] and [Dtwin] empty lists of a type, [Dmake] a function call making an object of a class. *)
Inductive dflt :=
| Ddouble (m e : Z) | Dint (z : Z) | Dbool (b : bool) | Dsize (n : nat) | Dlit (s : string)
| Dstring (s : string) | Dbrace | Dvecdouble | Dvecsize | Dslip | Dtwin | Dmake (cls how : string).

(** src/*.cxx, the conversion of a default to param_type in the call of
    add_optional_parameter, include/objects.h:41-46, 194-200 *)
Definition slot_of_default (d : dflt) : slot :=
  match d with
  | Ddouble m e => slot_of (Xdouble (IZR m * powerRZ 10 e))
  | Dint z => slot_of (Xint z)
  | Dbool b => slot_of (Xbool b)
  | Dsize n => slot_of (Xsize n)
  | Dlit s => slot_of_literal s
  | Dstring s => slot_of (Xstring s)
  | Dbrace => blank
  | Dvecdouble => slot_of (Xvecdouble [])
  | Dvecsize => slot_of (Xvecsize [])
  | Dslip => slot_of (Xslip [])
  | Dtwin => slot_of (Xtwin [])
  | Dmake c h => slot_of (Xobj (Some (mkDobj c h)))
  end.

(** one add_parameter or add_optional_parameter of a parameters(), include/objects.h:177-200 *)
Record decl := mkDecl { d_name : string; d_type : dtype; d_default : option dflt }.
(** one get_parameter, get_object_parameter or get_object_parameter_vector of a
    constructor, include/objects.h:203-248 *)
Inductive ask := Plain (t : dtype) | Object (cls : string) | Objects (cls : string).
(** the type of the member it returns, include/objects.h:203-248 *)
Definition ask_type (a : ask) : dtype :=
  match a with Plain t => t | Object _ => DTobj | Objects _ => DTvecobj end.

(** A registered class, include/objects.h:329-335: its name, what type() returns, the type
    its parameters() name, the class its initialize() makes, the parameters it adds and the
    parameters its constructor and those of its bases read *)
Record cls := mkCls { c_name : string; c_type : string; c_pset : string; c_init : string;
                      c_decls : list decl; c_reads : list (string * ask) }.

(** std::map with string keys, include/objects.h:269-271; no NEML code *)
Definition dmap (A : Type) := list (string * A).
(** std::map::find, include/objects.h:269-271; no NEML code *)
Fixpoint dfind {A} (k : string) (m : dmap A) : option A :=
  match m with
  | [] => None
  | (k', x) :: r => if String.eqb k k' then Some x else dfind k r
  end.
(** std::map::operator[] assigned to, include/objects.h:269-271; no NEML code *)
Fixpoint dput {A} (k : string) (x : A) (m : dmap A) : dmap A :=
  match m with
  | [] => [(k, x)]
  | (k', y) :: r => if String.eqb k k' then (k', x) :: r else (k', y) :: dput k x r
  end.

(** include/objects.h:162-272 ParameterSet *)
Record dset := mkDset { ds_type : string; ds_names : list string;
                        ds_types : dmap dtype; ds_vals : dmap slot }.

(** exceptions, include/objects.h:119-160; [BadCall] is the call of an empty std::function *)
Inductive derr := DUnknown (type name : string) | DUndefined (type : string) (names : list string)
                | DWrongType | BadCall.
(** a value or an exception; no NEML code *)
Inductive dres (A : Type) := DOk (a : A) | DErr (e : derr).
Arguments DOk {A} _.  Arguments DErr {A} _.

(** src/objects.cxx:30-34 ParameterSet(type) *)
Definition ds_new (t : string) : dset := mkDset t [] [] [].
(** include/objects.h:177-181 add_parameter *)
Definition ds_add (n : string) (t : dtype) (p : dset) : dset :=
  mkDset (ds_type p) (ds_names p ++ [n]) (dput n t (ds_types p)) (ds_vals p).
(** include/objects.h:184-190 assign_parameter *)
Definition ds_assign (n : string) (s : slot) (p : dset) : dres dset :=
  if existsb (String.eqb n) (ds_names p)
  then DOk (mkDset (ds_type p) (ds_names p) (ds_types p) (dput n s (ds_vals p)))
  else DErr (DUnknown (ds_type p) n).
(** include/objects.h:176-200: one line of a parameters() *)
Definition ds_declare (d : decl) (p : dset) : dres dset :=
  let p' := ds_add (d_name d) (d_type d) p in
  match d_default d with
  | None => DOk p'
  | Some v => ds_assign (d_name d) (slot_of_default v) p'
  end.
(** the body of a parameters(), for instance src/cp/crystaldamage.cxx:161-171; all are cited in
    DeclTable.v *)
Fixpoint ds_declare_all (l : list decl) (p : dset) : dres dset :=
  match l with
  | [] => DOk p
  | d :: r => match ds_declare d p with DOk p' => ds_declare_all r p' | DErr e => DErr e end
  end.

(** include/objects.h:314-318, 329-335, src/objects.cxx:124-130 the class registered under
    a type: a later registration replaces an earlier one *)
Definition dclass (tab : list cls) (t : string) : option cls :=
  List.find (fun c => String.eqb (c_type c) t) (rev tab).
(** the class of a name; no NEML code *)
Definition dnamed (tab : list cls) (n : string) : option cls :=
  List.find (fun c => String.eqb (c_name c) n) tab.

(** src/objects.cxx:98-102 Factory::provide_parameters; the type named by the parameters()
    of the class is that of [c_pset] *)
Definition dprovide (tab : list cls) (t : string) : dres dset :=
  match dclass tab t with
  | None => DErr BadCall
  | Some c => match dnamed tab (c_pset c) with
              | None => DErr BadCall
              | Some c' => ds_declare_all (c_decls c) (ds_new (c_type c'))
              end
  end.

(** src/objects.cxx:63-76 unassigned_parameters *)
Definition ds_unassigned (p : dset) : list string :=
  filter (fun n => match dfind n (ds_vals p) with None => true | Some _ => false end) (ds_names p).
(** src/objects.cxx:78-87 fully_assigned *)
Definition ds_full (p : dset) : bool :=
  forallb (fun n => match dfind n (ds_vals p) with None => false | Some _ => true end) (ds_names p).
(** include/objects.h:203-208 get_parameter: params_[name] of an unknown name is made blank *)
Definition ds_get (t : dtype) (n : string) (p : dset) : option dval :=
  slot_get t (match dfind n (ds_vals p) with Some s => s | None => blank end).

(** the direct bases of each class, for instance include/cp/crystaldamage.h:127; all are cited
    in DeclTable.v *)
Definition dbases := list (string * list string).
(** std::dynamic_pointer_cast, include/objects.h:217, 236: whether class c is d or derives
    from it, following at most [fuel] steps *)
Fixpoint derives (h : dbases) (fuel : nat) (c d : string) : bool :=
  String.eqb c d ||
  match fuel with
  | O => false
  | S k => match dfind c h with
           | None => false
           | Some bs => existsb (fun b => derives h k b d) bs
           end
  end.
(** the cast of a pointer, include/objects.h:217, 236: a null pointer stays null *)
Definition casts (h : dbases) (d : string) (o : option dobj) : bool :=
  match o with None => false | Some x => derives h (length h) (o_class x) d end.

(** include/objects.h:203-248 one read of a constructor; [None] an indeterminate number *)
Definition ds_read (h : dbases) (p : dset) (n : string) (a : ask) : dres (option dval) :=
  match a with
  | Plain t => DOk (ds_get t n p)
  | Object d => match ds_get DTobj n p with
                | Some (Xobj o) => if casts h d o then DOk (Some (Xobj o)) else DErr DWrongType
                | _ => DErr DWrongType
                end
  | Objects d => match ds_get DTvecobj n p with
                 | Some (Xvecobj l) => if forallb (casts h d) l then DOk (Some (Xvecobj l))
                                       else DErr DWrongType
                 | _ => DErr DWrongType
                 end
  end.
(** the constructor of a class: all its reads, for instance src/cp/crystaldamage.cxx:138-149;
    all are cited in DeclTable.v *)
Fixpoint ds_reads (h : dbases) (p : dset) (l : list (string * ask))
  : dres (list (string * option dval)) :=
  match l with
  | [] => DOk []
  | (n, a) :: r =>
    match ds_read h p n a with
    | DErr e => DErr e
    | DOk v => match ds_reads h p r with DErr e => DErr e | DOk vs => DOk ((n, v) :: vs) end
    end
  end.

(** src/objects.cxx:104-112 Factory::create: the class made and the values it read *)
Definition dcreate (tab : list cls) (h : dbases) (p : dset)
  : dres (string * list (string * option dval)) :=
  if ds_full p then
    match dclass tab (ds_type p) with
    | None => DErr BadCall
    | Some c => match dnamed tab (c_init c) with
                | None => DErr BadCall
                | Some k => match ds_reads h p (c_reads k) with
                            | DErr e => DErr e
                            | DOk vs => DOk (c_name k, vs)
                            end
                end
    end
  else DErr (DUndefined (ds_type p) (ds_unassigned p)).

(** The calls a user of the library makes: provide_parameters, assign_parameter for each
    value in turn, create (include/objects.h:184-190, src/objects.cxx:98-112) *)
Fixpoint dassign_all (l : list (string * dval)) (p : dset) : dres dset :=
  match l with
  | [] => DOk p
  | (n, v) :: r => match ds_assign n (slot_of v) p with
                   | DErr e => DErr e
                   | DOk p' => dassign_all r p'
                   end
  end.
(** include/objects.h:184-190, src/objects.cxx:98-112 as above *)
Definition dbuild (tab : list cls) (h : dbases) (t : string) (l : list (string * dval))
  : dres (string * list (string * option dval)) :=
  match dprovide tab t with
  | DErr e => DErr e
  | DOk p => match dassign_all l p with DErr e => DErr e | DOk p' => dcreate tab h p' end
  end.

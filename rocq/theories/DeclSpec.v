(** What it means for a class to receive the parameters it declares (C102). *)
From Coq Require Import String Ascii ZArith List Bool.
From Verif Require Import Base.
From Verif Require Import DeclModel.
Import ListNotations.

(** the type of a C++ value, include/objects.h:70-80 *)
Definition type_of (v : dval) : dtype :=
  match v with
  | Xdouble _ => DTdouble | Xint _ => DTint | Xbool _ => DTbool | Xvecdouble _ => DTvecdouble
  | Xobj _ => DTobj | Xvecobj _ => DTvecobj | Xstring _ => DTstring | Xslip _ => DTslip
  | Xsize _ => DTsize | Xvecsize _ => DTvecsize | Xtwin _ => DTtwin
  end.

(** What a default written in a parameters() is meant to be, for a parameter of type t *)
Definition meant (t : dtype) (d : dflt) : dval :=
  match d with
  | Ddouble m e => Xdouble (IZR m * powerRZ 10 e)
  | Dint z => Xint z
  | Dbool b => Xbool b
  | Dsize n => Xsize n
  | Dlit s => Xstring s
  | Dstring s => Xstring s
  | Dbrace => match t with DTvecdouble => Xvecdouble [] | _ => Xvecobj [] end
  | Dvecdouble => Xvecdouble []
  | Dvecsize => Xvecsize []
  | Dslip => Xslip []
  | Dtwin => Xtwin []
  | Dmake c h => Xobj (Some (mkDobj c h))
  end.

(** The last value the user gave to parameter n is v *)
Definition given (l : list (string * dval)) (n : string) (v : dval) : Prop :=
  exists l1 l2, l = l1 ++ (n, v) :: l2 /\ forall w, ~ In (n, w) l2.
(** The user gave no value to parameter n *)
Definition not_given (l : list (string * dval)) (n : string) : Prop := forall w, ~ In (n, w) l.

(** The value parameter n of class c should have: the last one given, else its default *)
Definition wanted (c : cls) (l : list (string * dval)) (n : string) (v : dval) : Prop :=
  given l n v \/
  (not_given l n /\ exists d df, In d (c_decls c) /\ d_name d = n /\ d_default d = Some df /\
                                 v = meant (d_type d) df).
(** Parameter n of class c has no default and was not given *)
Definition missing (c : cls) (l : list (string * dval)) (n : string) : Prop :=
  not_given l n /\ exists d, In d (c_decls c) /\ d_name d = n /\ d_default d = None.
(** Class c has a parameter n *)
Definition has_parameter (c : cls) (n : string) : Prop := exists d, In d (c_decls c) /\ d_name d = n.
(** Every value the user gives is for a parameter of the class and of the declared type *)
Definition well_typed (c : cls) (l : list (string * dval)) : Prop :=
  forall n v, In (n, v) l -> exists d, In d (c_decls c) /\ d_name d = n /\ d_type d = type_of v.

(** Class c is d or derives from it *)
Inductive is_a (h : dbases) : string -> string -> Prop :=
| is_a_self c : is_a h c c
| is_a_base c bs b d : In (c, bs) h -> In b bs -> is_a h b d -> is_a h c d.

(** The value suits what the constructor asks for: objects must be of the class it needs *)
Definition suits (h : dbases) (a : ask) (v : dval) : Prop :=
  match a with
  | Plain _ => True
  | Object d => exists o, v = Xobj (Some o) /\ is_a h (o_class o) d
  | Objects d => exists l, v = Xvecobj l /\
                           forall x, In x l -> exists o, x = Some o /\ is_a h (o_class o) d
  end.

(** The two classes for which the property fails *)
Definition odd (c : cls) : Prop := c_name c = "GeneralLattice"%string \/ c_name c = "CubicLattice"%string.

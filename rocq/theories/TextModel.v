(** Model of the character-level text conversions used by src/parse.cxx and
    src/deparse.cxx: std::to_string, ostream << double, std::stoi, std::stoul,
    std::stod, stream splitting, getline, strip.

    Simplifications: doubles are reals; ostream's default format (six significant
    digits) rounds ties upwards instead of to even; stod returns the exact decimal
    value (no final rounding to binary) and does not read hexadecimal, inf and nan. *)
From Coq Require Import String Ascii ZArith.
From Verif Require Import Base.
From Verif Require Import InterpModel.

(** characters and strings of the C++ library; no NEML code *)
Definition text := list ascii.
(** characters and strings of the C++ library; no NEML code *)
Definition code (c : ascii) : nat := nat_of_ascii c.
(** C isspace in the default locale *)
(** characters and strings of the C++ library; no NEML code *)
Definition isspace (c : ascii) : bool := Nat.eqb (code c) 32 || (Nat.leb 9 (code c) && Nat.leb (code c) 13).
(** characters and strings of the C++ library; no NEML code *)
Definition isdigit (c : ascii) : bool := Nat.leb 48 (code c) && Nat.leb (code c) 57.
(** characters and strings of the C++ library; no NEML code *)
Definition ch (n : nat) : ascii := ascii_of_nat n.
(** characters used in src/parse.cxx:429-478 and src/deparse.cxx:107-209 *)
Definition c_space := ch 32.  Definition c_minus := ch 45.  Definition c_plus := ch 43.
(** characters used in src/parse.cxx:429-478 and src/deparse.cxx:107-209 *)
Definition c_dot := ch 46.    Definition c_comma := ch 44.  Definition c_semi := ch 59.
(** characters used in src/parse.cxx:429-478 and src/deparse.cxx:107-209 *)
Definition c_e := ch 101.     Definition c_E := ch 69.
(** characters and strings of the C++ library; no NEML code *)
Definition ceq (a b : ascii) : bool := Nat.eqb (code a) (code b).

(** ** Integers *)
(** decimal digits of the C++ library's conversions; no NEML code *)
Definition dchar (d : Z) : ascii := ch (48 + Z.to_nat d).
(** decimal digits of the C++ library's conversions; no NEML code *)
Fixpoint digs (fuel : nat) (n : Z) : list Z :=
  match fuel with
  | O => []
  | S f => if (n <? 10)%Z then [n] else digs f (n / 10) ++ [(n mod 10)%Z]
  end.
(** decimal digits of the C++ library's conversions; no NEML code *)
Definition digits (n : Z) : list Z := digs (S (Z.to_nat (Z.log2 n))) n.
(** std::to_string (deparse.h:38-44, 60-71; deparse.cxx:204) and ostream << int
    (deparse.cxx:153-193) *)
Definition show_int (z : Z) : text :=
  if (z <? 0)%Z then c_minus :: map dchar (digits (- z)) else map dchar (digits z).

(** decimal digits of the C++ library's conversions; no NEML code *)
Fixpoint dropwhile (f : ascii -> bool) (s : text) : text :=
  match s with [] => [] | c :: r => if f c then dropwhile f r else s end.
(** decimal digits of the C++ library's conversions; no NEML code *)
Fixpoint take_digits (s : text) : list Z * text :=
  match s with
  | [] => ([], [])
  | c :: r => if isdigit c then let (d, q) := take_digits r in (Z.of_nat (code c - 48) :: d, q) else ([], s)
  end.
(** decimal digits of the C++ library's conversions; no NEML code *)
Definition value (ds : list Z) : Z := fold_left (fun a d => (a * 10 + d)%Z) ds 0%Z.
(** decimal digits of the C++ library's conversions; no NEML code *)
Definition take_sign (s : text) : bool * text :=
  match s with
  | [] => (false, [])
  | c :: r => if ceq c c_minus then (true, r) else if ceq c c_plus then (false, r) else (false, s)
  end.
(** strtol base 10: [None] when no conversion (std::invalid_argument); trailing
    characters are ignored *)
(** the C++ library functions called in src/parse.cxx:440-468; no NEML code *)
Definition strtol (s : text) : option Z :=
  let (neg, s1) := take_sign (dropwhile isspace s) in
  match take_digits s1 with
  | ([], _) => None
  | (ds, _) => Some (if neg then (- value ds)%Z else value ds)
  end.
(** std::stoi (32 bit int; [None]: invalid_argument or out_of_range) *)
(** the C++ library functions called in src/parse.cxx:440-468; no NEML code *)
Definition stoi (s : text) : option Z :=
  match strtol s with
  | Some z => if ((- 2 ^ 31 <=? z) && (z <? 2 ^ 31))%Z then Some z else None
  | None => None
  end.
(** std::stoul (64 bit; a minus sign wraps around) *)
(** the C++ library functions called in src/parse.cxx:440-468; no NEML code *)
Definition stoul (s : text) : option Z :=
  match strtol s with
  | Some z => if (Z.abs z <? 2 ^ 64)%Z then Some (z mod 2 ^ 64)%Z else None
  | None => None
  end.

(** ** Doubles *)
(** ostream << with the default precision 6: decimal exponent and six digit mantissa
    of a positive number *)
(** operator<< of the C++ library, used in src/deparse.cxx:107-151; no NEML code *)
Definition sig6 (x : R) : Z * Z :=
  let e := Int_part (log10 x) in
  let m := Int_part (x * powerRZ 10 (5 - e) + / 2) in
  if (m <? 1000000)%Z then (m, e) else (100000%Z, (e + 1)%Z).
(** operator<< of the C++ library, used in src/deparse.cxx:107-151; no NEML code *)
Fixpoint strip0 (ds : list Z) : list Z :=
  match ds with
  | [] => []
  | d :: r => match strip0 r with [] => if (d =? 0)%Z then [] else [d] | r' => d :: r' end
  end.
(** operator<< of the C++ library, used in src/deparse.cxx:107-151; no NEML code *)
Definition with_frac (ip fp : list Z) : text :=
  map dchar ip ++ (match strip0 fp with [] => [] | f => c_dot :: map dchar f end).
(** operator<< of the C++ library, used in src/deparse.cxx:107-151; no NEML code *)
Definition show_exp (e : Z) : text :=
  (if (e <? 0)%Z then c_minus else c_plus) ::
  (if (Z.abs e <? 10)%Z then [dchar 0] else []) ++ map dchar (digits (Z.abs e)).
(** operator<< of the C++ library, used in src/deparse.cxx:107-151; no NEML code *)
Definition render6 (m e : Z) : text :=
  let ds := digits m in
  if ((e <? -4) || (6 <=? e))%Z then
    with_frac (firstn 1 ds) (skipn 1 ds) ++ c_e :: show_exp e
  else if (0 <=? e)%Z then
    with_frac (firstn (Z.to_nat e + 1) ds) (skipn (Z.to_nat e + 1) ds)
  else with_frac [0%Z] (repeat 0%Z (Z.to_nat (- e - 1)) ++ ds).
(** deparse.cxx:110-111, 146-147: ss << input *)
Definition show_double (x : R) : text :=
  if Req_EM_T x 0 then [dchar 0]
  else if Rlt_dec x 0 then c_minus :: (let (m, e) := sig6 (- x) in render6 m e)
  else let (m, e) := sig6 x in render6 m e.

(** std::stod / strtod: longest decimal prefix *)
(** std::stod of the C++ library, called in src/parse.cxx:440-468; no NEML code *)
Definition take_frac (s : text) : list Z * text :=
  match s with
  | c :: r => if ceq c c_dot then take_digits r else ([], s)
  | [] => ([], [])
  end.
(** std::stod of the C++ library, called in src/parse.cxx:440-468; no NEML code *)
Definition take_exp (s : text) : Z :=
  match s with
  | c :: r =>
    if ceq c c_e || ceq c c_E then
      let (neg, r1) := take_sign r in
      match take_digits r1 with
      | ([], _) => 0%Z
      | (ds, _) => if neg then (- value ds)%Z else value ds
      end
    else 0%Z
  | [] => 0%Z
  end.
(** std::stod of the C++ library, called in src/parse.cxx:440-468; no NEML code *)
Definition stod (s : text) : option R :=
  let (neg, s1) := take_sign (dropwhile isspace s) in
  let (ip, s2) := take_digits s1 in
  let (fp, s3) := take_frac s2 in
  match ip ++ fp with
  | [] => None
  | ds =>
    let v := IZR (value ds) * powerRZ 10 (take_exp s3 - Z.of_nat (length fp)) in
    Some (if neg then - v else v)
  end.

(** ** Splitting *)
(** parse.cxx:429-438 split_string (operator>> splits at white space) *)
Fixpoint split_ws (cur : text) (s : text) : list text :=
  match s with
  | [] => match cur with [] => [] | _ => [rev cur] end
  | c :: r =>
    if isspace c then match cur with [] => split_ws [] r | _ => rev cur :: split_ws [] r end
    else split_ws (c :: cur) r
  end.
(** src/parse.cxx:429-438 (split_string) *)
Definition split_string (s : text) : list text := split_ws [] s.
(** std::getline(ss, to, d) until it fails *)
(** std::getline, called in src/parse.cxx; no NEML code *)
Fixpoint getlines (d : ascii) (cur : text) (s : text) : list text :=
  match s with
  | [] => match cur with [] => [] | _ => [rev cur] end
  | c :: r => if ceq c d then rev cur :: getlines d [] r else getlines d (c :: cur) r
  end.
(** parse.cxx:470-478 strip *)
Definition strip (s : text) : text := rev (dropwhile isspace (rev (dropwhile isspace s))).
(** std::string::find(c, from) and substr(pos, len); [None] is npos, for which
    npos + 1 wraps to 0 *)
(** std::string::find and substr, called in src/parse.cxx; no NEML code *)
Fixpoint find_char (c : ascii) (s : text) : option nat :=
  match s with [] => None | x :: r => if ceq x c then Some 0%nat else option_map S (find_char c r) end.
(** std::string::find and substr, called in src/parse.cxx; no NEML code *)
Definition find_from (c : ascii) (from : nat) (s : text) : option nat :=
  option_map (Nat.add from) (find_char c (skipn from s)).
(** std::string::find and substr, called in src/parse.cxx; no NEML code *)
Definition substr_to (from : nat) (next : option nat) (s : text) : text :=
  match next with Some k => firstn (k - from) (skipn from s) | None => skipn from s end.
(** std::string::find and substr, called in src/parse.cxx; no NEML code *)
Definition after (next : option nat) : nat := match next with Some k => (k + 1)%nat | None => 0%nat end.

(** the loop over the pieces in src/parse.cxx:440-468 *)
Fixpoint mapM {A B} (f : A -> option B) (l : list A) : option (list B) :=
  match l with
  | [] => Some []
  | a :: r => match f a with None => None | Some b => match mapM f r with None => None | Some bs => Some (b :: bs) end end
  end.
(** parse.cxx:440-468 *)
Definition split_string_double (s : text) : option (list R) := mapM stod (split_string s).
(** src/parse.cxx:450-458 (split_string_size_type) *)
Definition split_string_size_type (s : text) : option (list Z) := mapM stoul (split_string s).
(** src/parse.cxx:460-468 (split_string_int) *)
Definition split_string_int (s : text) : option (list Z) := mapM stoi (split_string s).

Arguments isdigit : simpl never.
Arguments isspace : simpl never.
Arguments code : simpl never.
Arguments ceq : simpl never.
Arguments ch : simpl never.
Arguments dchar : simpl never.
Arguments digits : simpl never.

(** Numbers in hand written input files: what the characters mean, stated without the reader. *)
From Coq Require Import String Ascii ZArith List.
From Verif Require Import Base.
From Verif Require Import TextModel.
Import ListNotations.

(** blanks of the C locale: tab, line feed, vertical tab, form feed, carriage return, space *)
Definition blanks : list ascii := map ascii_of_nat [9; 10; 11; 12; 13; 32]%nat.
Definition all_blank (s : text) : Prop := List.Forall (fun c => In c blanks) s.
(** a digit and its value *)
Definition is_digit (c : ascii) (d : Z) : Prop := In (c, d)
  [("0"%char, 0); ("1"%char, 1); ("2"%char, 2); ("3"%char, 3); ("4"%char, 4); ("5"%char, 5); ("6"%char, 6); ("7"%char, 7); ("8"%char, 8); ("9"%char, 9)]%Z.
Definition digit_text (s : text) (ds : list Z) : Prop := Forall2 is_digit s ds.
(** 123 is 1*10^2 + 2*10 + 3 *)
Fixpoint positional (ds : list Z) : Z := match ds with [] => 0%Z | d :: r => (d * 10 ^ Z.of_nat (length r) + positional r)%Z end.
Inductive sign_text : text -> Z -> Prop :=
| sg_none : sign_text [] 1
| sg_plus : sign_text ["+"%char] 1
| sg_minus : sign_text ["-"%char] (-1).
(** 12 or 12.34 or 12. or .34 *)
Inductive mantissa : text -> R -> Prop :=
| ma_int : forall x ds, digit_text x ds -> x <> [] -> mantissa x (IZR (positional ds))
| ma_frac : forall x ds y es, digit_text x ds -> digit_text y es -> x ++ y <> [] ->
    mantissa (x ++ "."%char :: y) (IZR (positional ds) + IZR (positional es) / 10 ^ length es).
(** nothing, or e-05 *)
Inductive exponent : text -> Z -> Prop :=
| ex_none : exponent [] 0
| ex_some : forall c sg k x ds, In c ["e"%char; "E"%char] -> sign_text sg k -> digit_text x ds -> x <> [] -> exponent (c :: sg ++ x) (k * positional ds).
(** a number in decimal notation and its value *)
Definition decimal (s : text) (v : R) : Prop := exists sg k m a ex n, s = sg ++ m ++ ex /\ sign_text sg k /\ mantissa m a /\ exponent ex n /\ v = IZR k * a * powerRZ 10 n.
(** a whole number and its value *)
Definition whole_number (s : text) (z : Z) : Prop := exists sg k x ds, s = sg ++ x /\ sign_text sg k /\ digit_text x ds /\ x <> [] /\ z = (k * positional ds)%Z.
(** items separated by blanks, with blanks before and after allowed *)
Inductive spaced_items {A} (P : text -> A -> Prop) : text -> list A -> Prop :=
| sp_nil : forall b, all_blank b -> spaced_items P b []
| sp_last : forall b w x, all_blank b -> P w x -> spaced_items P (b ++ w) [x]
| sp_cons : forall b w x c s l, all_blank b -> P w x -> In c blanks -> spaced_items P s l -> spaced_items P (b ++ w ++ c :: s) (x :: l).
(** a text that is a number as a whole *)
Definition is_number (s : text) : Prop := exists b n r v, s = b ++ n ++ r /\ all_blank b /\ decimal n v /\ all_blank r.
(** none of the letters of hexadecimal numbers, infinities and nan *)
Definition no_letters (s : text) : Prop := List.Forall (fun c => ~ In c ["x"%char; "X"%char; "i"%char; "I"%char; "n"%char; "N"%char]) s.

(** Property theorems about numbers and switches written by hand in input files (C100). *)
From Coq Require Import String Ascii ZArith List Lia Lra.
From Verif Require Import Base.
From Verif Require Import TextModel ParseModel ParseSpec TxtSpec TxtProofs.
Import ListNotations.

(** every decimal number, with blanks around it, is read as its value *)
Theorem C100_double : forall nm at_ b s v r, all_blank b -> decimal s v -> all_blank r -> get_double (Elem nm at_ [Data (b ++ s ++ r)]) = POk v.
Proof. exact @leaf_double. Qed.
Print Assumptions C100_double.
(** what is read is the longest decimal number the text starts with, after blanks *)
Theorem C100_longest : forall nm at_ s v, no_letters s -> get_double (Elem nm at_ [Data s]) = POk v -> exists b n r, s = b ++ n ++ r /\ all_blank b /\ decimal n v /\
  (forall b' n' r' v', s = b' ++ n' ++ r' -> all_blank b' -> decimal n' v' -> b' = b /\ (length n' <= length n)%nat).
Proof. intros nm at_ s v _. exact (leaf_longest nm at_ s v). Qed.
Print Assumptions C100_longest.
(** a text that does not start with a number is refused, naming the element and the type wanted *)
Theorem C100_refused : forall nm at_ s, no_letters s -> s <> [] -> (forall b n r v, s = b ++ n ++ r -> all_blank b -> ~ decimal n v) ->
  exists t, get_double (Elem nm at_ [Data s]) = PErr (InvalidType nm t "double").
Proof. intros nm at_ s _. exact (leaf_refused nm at_ s). Qed.
Print Assumptions C100_refused.
(** whole numbers: read exactly in the range of int, refused outside it *)
Theorem C100_int : forall nm at_ b s z r, all_blank b -> whole_number s z -> all_blank r -> int32 z -> get_int (Elem nm at_ [Data (b ++ s ++ r)]) = POk z.
Proof. exact @leaf_int. Qed.
Print Assumptions C100_int.
Theorem C100_int_range : forall nm at_ b s z r, all_blank b -> whole_number s z -> all_blank r -> ~ int32 z ->
  exists t, get_int (Elem nm at_ [Data (b ++ s ++ r)]) = PErr (InvalidType nm t "int").
Proof. exact @leaf_int_out. Qed.
Print Assumptions C100_int_range.
(** sizes *)
Theorem C100_size : forall nm at_ b s z r, all_blank b -> whole_number s z -> all_blank r -> uint64 z -> get_size_type (Elem nm at_ [Data (b ++ s ++ r)]) = POk z.
Proof. exact @leaf_size. Qed.
Print Assumptions C100_size.
Theorem C100_size_range : forall nm at_ b s z r, all_blank b -> whole_number s z -> all_blank r -> (2 ^ 64 <= Z.abs z)%Z ->
  exists t, get_size_type (Elem nm at_ [Data (b ++ s ++ r)]) = PErr (InvalidType nm t "size_t").
Proof. exact @leaf_size_out. Qed.
Print Assumptions C100_size_range.
(** but a negative size is not refused: every one becomes a huge positive size *)
Theorem C100_size_refuted : forall nm at_ b s z r, all_blank b -> whole_number s z -> all_blank r -> (- 2 ^ 64 < z < 0)%Z ->
  get_size_type (Elem nm at_ [Data (b ++ s ++ r)]) = POk (2 ^ 64 + z)%Z.
Proof. exact @leaf_size_negative. Qed.
Print Assumptions C100_size_refuted.
(** lists: numbers separated by any blanks, in order, none lost *)
Theorem C100_list : forall nm at_ s l, s <> [] -> spaced_items decimal s l -> get_vector_double (Elem nm at_ [Data s]) = POk l.
Proof. exact @leaf_vector. Qed.
Print Assumptions C100_list.
Theorem C100_list_size : forall nm at_ s l, s <> [] -> spaced_items (fun w z => whole_number w z /\ uint64 z) s l -> get_vector_size_type (Elem nm at_ [Data s]) = POk l.
Proof. exact @leaf_vector_size. Qed.
Print Assumptions C100_list_size.
Theorem C100_list_empty : forall nm at_, get_vector_double (Elem nm at_ []) = POk [] /\ get_vector_size_type (Elem nm at_ []) = POk [].
Proof. intros nm at_. split; reflexivity. Qed.
Print Assumptions C100_list_empty.
(** a number where a function of temperature is wanted is that constant *)
Theorem C100_constant : forall F nm at_ b s v r, (forall t, ~ In ("type"%string, t) at_) -> all_blank b -> decimal s v -> all_blank r ->
  get_object F (Elem nm at_ [Data (b ++ s ++ r)]) = POk (Obj "ConstantInterpolate" [("v"%string, VDouble v)]).
Proof. exact @leaf_object. Qed.
Print Assumptions C100_constant.
(** switches: exactly these eight words, nothing around them *)
Theorem C100_bool : forall nm at_ s v, get_bool (Elem nm at_ [Data s]) = POk v <-> In (s, v) (map (fun w => (list_ascii_of_string (fst w), snd w))
  [("true", true); ("True", true); ("T", true); ("1", true); ("false", false); ("False", false); ("F", false); ("0", false)]%string).
Proof. exact @leaf_bool. Qed.
Print Assumptions C100_bool.
(** so a switch with a blank before it, harmless around numbers, is refused *)
Theorem C100_bool_blank_refuted : exists b s, all_blank b /\ get_bool (Elem "p" [] [Data s]) = POk true /\ get_bool (Elem "p" [] [Data (b ++ s)]) = PErr (InvalidType "p" "none" "bool").
Proof. exists [" "%char], (list_ascii_of_string "true"). split; [repeat constructor; cbn; tauto|]. split; reflexivity. Qed.
Print Assumptions C100_bool_blank_refuted.
(** texts that are not numbers are read without complaint: a decimal comma loses the
    fraction, a comma separated list all but its first entry *)
Theorem C100_comma_refuted : exists s, s = list_ascii_of_string "2,5" /\ ~ is_number s /\ get_double (Elem "p" [] [Data s]) = POk 2.
Proof.
  exists (list_ascii_of_string "2,5"). split; [reflexivity|]. split.
  - apply (not_number _ ","%char); [cbn; tauto|intros H; cbn in H; repeat (destruct H as [H | H]; [discriminate H|]); contradiction|intros H; cbn in H; repeat (destruct H as [H | H]; [discriminate H|]); contradiction].
  - unfold get_double. rewrite convert_leaf by discriminate.
    assert (D : decimal ["2"%char] 2).
    { exists [], 1%Z, ["2"%char], 2, [], 0%Z. split; [reflexivity|]. split; [constructor|]. split; [|split; [constructor|cbn; lra]].
      apply (ma_int ["2"%char] [2%Z]); [constructor; [unfold is_digit; cbn; tauto|constructor]|discriminate]. }
    change (list_ascii_of_string "2,5") with ([] ++ ["2"%char] ++ list_ascii_of_string ",5").
    rewrite (stod_decimal [] ["2"%char] 2 (list_ascii_of_string ",5") (Forall_nil _) D); [reflexivity|]. cbn. repeat split; discriminate.
Qed.
Print Assumptions C100_comma_refuted.
Theorem C100_comma_list_refuted : exists s, s = list_ascii_of_string "1,2,3" /\ get_vector_size_type (Elem "p" [] [Data s]) = POk [1%Z].
Proof. eexists. split; [reflexivity|]. vm_compute. reflexivity. Qed.
Print Assumptions C100_comma_list_refuted.
(** a number that is not whole is cut, and its exponent dropped, where an int is wanted *)
Theorem C100_cut_refuted : exists s, s = list_ascii_of_string "1e3" /\ decimal s 1000 /\ get_int (Elem "p" [] [Data s]) = POk 1%Z.
Proof.
  exists (list_ascii_of_string "1e3"). split; [reflexivity|]. split; [|vm_compute; reflexivity].
  exists [], 1%Z, ["1"%char], 1, ["e"%char; "3"%char], 3%Z. split; [reflexivity|]. split; [constructor|].
  split; [apply (ma_int ["1"%char] [1%Z]); [constructor; [unfold is_digit; cbn; tauto|constructor]|discriminate]|].
  split; [|unfold powerRZ; change (Pos.to_nat 3) with 3%nat; cbv [pow]; lra]. change 3%Z with (1 * positional [3%Z])%Z. apply (ex_some "e"%char [] 1%Z ["3"%char] [3%Z]); [cbn; tauto|exact sg_none|constructor; [unfold is_digit; cbn; tauto|constructor]|discriminate].
Qed.
Print Assumptions C100_cut_refuted.

(** concrete cases *)
Definition ex_number : text := list_ascii_of_string "-1.50E-03".
Example C100_number : decimal ex_number (-15 / 10000).
Proof.
  exists ["-"%char], (-1)%Z, (list_ascii_of_string "1.50"), (3 / 2), (list_ascii_of_string "E-03"), (-3)%Z. split; [reflexivity|]. split; [exact sg_minus|].
  split; [|split; [|unfold powerRZ; change (Pos.to_nat 3) with 3%nat; cbv [pow]; lra]].
  - replace (3 / 2) with (IZR (positional [1%Z]) + IZR (positional [5%Z; 0%Z]) / 10 ^ length [5%Z; 0%Z]) by (cbn; lra).
    apply (ma_frac ["1"%char] [1%Z] ["5"%char; "0"%char] [5%Z; 0%Z]); [repeat (constructor; [unfold is_digit; cbn; tauto|]); constructor|repeat (constructor; [unfold is_digit; cbn; tauto|]); constructor|discriminate].
  - apply (ex_some "E"%char ["-"%char] (-1) ["0"%char; "3"%char] [0%Z; 3%Z]); [cbn; tauto|exact sg_minus|repeat (constructor; [unfold is_digit; cbn; tauto|]); constructor|discriminate].
Qed.
Definition ex_blank : text := map ascii_of_nat [13; 10; 9]%nat.
Example C100_double_case : get_double (Elem "E" [] [Data (ex_blank ++ ex_number ++ [" "%char])]) = POk (-15 / 10000).
Proof. apply C100_double; [repeat constructor; cbn; tauto|exact C100_number|repeat constructor; cbn; tauto]. Qed.
Example C100_list_case : get_vector_double (Elem "E" [] [Data (ex_blank ++ ex_number ++ "010"%char :: ex_blank ++ ex_number)]) = POk [-15 / 10000; -15 / 10000].
Proof.
  apply C100_list; [discriminate|]. apply sp_cons; [repeat constructor; cbn; tauto|exact C100_number|cbn; tauto|]. apply sp_last; [repeat constructor; cbn; tauto|exact C100_number].
Qed.
Example C100_refused_case : exists t, get_double (Elem "E" [] [Data (list_ascii_of_string " -.e5")]) = PErr (InvalidType "E" t "double").
Proof. eexists. vm_compute. reflexivity. Qed.
Example C100_int_range_case : whole_number (list_ascii_of_string "+2147483648") (2 ^ 31)%Z /\ ~ int32 (2 ^ 31)%Z /\ get_int (Elem "n" [] [Data (list_ascii_of_string " 2147483647 ")]) = POk (2 ^ 31 - 1)%Z /\
  get_int (Elem "n" [] [Data (list_ascii_of_string "-2147483648")]) = POk (- 2 ^ 31)%Z.
Proof.
  split; [|split; [intros [_ H]; lia|split; vm_compute; reflexivity]].
  exists ["+"%char], 1%Z, (list_ascii_of_string "2147483648"), [2;1;4;7;4;8;3;6;4;8]%Z. split; [reflexivity|]. split; [exact sg_plus|].
  split; [repeat (constructor; [unfold is_digit; cbn; tauto|]); constructor|]. split; [discriminate|reflexivity].
Qed.
Example C100_size_case : get_size_type (Elem "n" [] [Data (list_ascii_of_string "-1")]) = POk (2 ^ 64 - 1)%Z.
Proof. vm_compute. reflexivity. Qed.

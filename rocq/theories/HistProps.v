(** Property theorems about History (C08-C11, C52, C53).  [reachable] (HistSpec.v)
    ranges over every history a program can build; [has_var h n t vs]: get<t>(n)
    returns values vs. *)
From Coq Require Import String.
From Verif Require Import Base.
From Verif Require Import HistModel.
From Verif Require Import HistSpec.
From Verif Require Import HistProofs.
Open Scope string_scope.

(** A concrete history used to show the hypotheses are met: a scalar and a
    symmetric tensor, both written. *)
Definition ex_base : hres hist :=
  hbind (hadd "a" TScalar hempty) (fun h => hbind (hadd "b" TSymmetric h) (fun h =>
  hbind (hset TScalar "a" [Some 7] h) (hset TSymmetric "b" [Some 1; Some 2; Some 3; Some 4; Some 5; Some 6]))).
Definition ex_hist : hist :=
  mkHist ["a"; "b"] [("a", 0%nat); ("b", 1%nat)] [("a", TScalar); ("b", TSymmetric)]
    [Some 7; Some 1; Some 2; Some 3; Some 4; Some 5; Some 6].
Lemma ex_hist_built : ex_base = HOk ex_hist.
Proof. reflexivity. Qed.
Lemma ex_hist_reachable : reachable ex_hist.
Proof.
  eapply (R_set TSymmetric "b" [Some 1; Some 2; Some 3; Some 4; Some 5; Some 6]);
    [eapply (R_set TScalar "a" [Some 7]);
      [eapply (R_add "b" TSymmetric); [eapply (R_add "a" TScalar); [constructor | reflexivity] | reflexivity]
      | reflexivity | reflexivity] | reflexivity | reflexivity].
Qed.

Theorem C08_variables_disjoint : forall h, reachable h -> forall n1 n2 o1 o2 t1 t2, n1 <> n2 ->
  hlookup t1 n1 h = HOk o1 -> hlookup t2 n2 h = HOk o2 ->
  (o1 + ssize t1 <= o2 \/ o2 + ssize t2 <= o1)%nat.
Proof. exact hist_disjoint. Qed.
Theorem C08_variables_in_bounds : forall h, reachable h -> forall n o t,
  hlookup t n h = HOk o -> (o + ssize t <= hsize h)%nat.
Proof. exact hist_in_bounds. Qed.
Theorem C08_storage_covered : forall h, reachable h -> forall i, (i < hsize h)%nat ->
  exists n o t, In n (horder h) /\ hlookup t n h = HOk o /\ (o <= i < o + ssize t)%nat.
Proof. exact hist_cover. Qed.
Theorem C08_size_is_sum : forall h, reachable h ->
  exists l, layout h l /\ NoDup (map fst l) /\ hsize h = total l.
Proof. exact hist_layout_exists. Qed.
Theorem C08_write_read_frame : forall h, reachable h -> forall t n vs h', length vs = ssize t ->
  hset t n vs h = HOk h' ->
  has_var h' n t vs /\ horder h' = horder h /\
  (forall m u ws, m <> n -> (has_var h' m u ws <-> has_var h m u ws)).
Proof. exact hist_write_read. Qed.
Example C08_write_read_frame_example : exists h', hset TScalar "a" [Some 9] ex_hist = HOk h' /\
  has_var h' "b" TSymmetric [Some 1; Some 2; Some 3; Some 4; Some 5; Some 6].
Proof.
  eexists. split; [reflexivity|].
  eapply (C08_write_read_frame ex_hist ex_hist_reachable TScalar "a" [Some 9]); [reflexivity | reflexivity | discriminate | reflexivity].
Qed.

Theorem C09_add_duplicate_throws : forall h, reachable h -> forall n t, In n (horder h) -> hadd n t h = HErr EExists.
Proof. exact hist_add_dup. Qed.
Theorem C09_add_new_succeeds : forall h, reachable h -> forall n t, ~ In n (horder h) ->
  exists h', hadd n t h = HOk h' /\ horder h' = (horder h ++ [n])%list /\ hsize h' = (hsize h + ssize t)%nat /\
    (exists vs, has_var h' n t vs) /\ (forall m u ws, m <> n -> (has_var h' m u ws <-> has_var h m u ws)).
Proof. exact hist_add_new. Qed.
Theorem C09_get_missing_throws : forall h, reachable h -> forall n t, ~ In n (horder h) -> hget t n h = HErr ENotExists.
Proof. exact hist_get_missing. Qed.
Theorem C09_get_present : forall h, reachable h -> forall n, In n (horder h) ->
  exists t vs, has_var h n t vs /\ length vs = ssize t /\ forall u, u <> t -> hget u n h = HErr EWrongType.
Proof. exact hist_get_present. Qed.
Theorem C09_set_iff_get : forall h, reachable h -> forall t n vs, hset t n vs h <> HErr EOutOfRange /\
  ((exists h', hset t n vs h = HOk h') <-> exists ws, has_var h n t ws).
Proof. exact hist_set_ok. Qed.
Example C09_example : hget TSymmetric "a" ex_hist = HErr EWrongType /\ hget TScalar "c" ex_hist = HErr ENotExists /\
  hadd "b" TScalar ex_hist = HErr EExists.
Proof.
  split; [reflexivity|]. split.
  - apply (C09_get_missing_throws ex_hist ex_hist_reachable). intros [H|[H|[]]]; discriminate.
  - apply (C09_add_duplicate_throws ex_hist ex_hist_reachable). right; left; reflexivity.
Qed.

(** reorder moves the data but keeps the old location of every name: reading a
    variable after a reorder returns another variable's value. *)
Theorem C10_reorder_values_refuted : exists h h' vars, reachable h /\ NoDup vars /\
  (forall n, In n vars <-> In n (horder h)) /\ hreorder vars h = HOk h' /\
  has_var h "a" TScalar [Some 1] /\ has_var h' "a" TScalar [Some 2].
Proof.
  set (h := mkHist ["a"; "b"] [("a", 0%nat); ("b", 1%nat)] [("a", TScalar); ("b", TScalar)] [Some 1; Some 2]).
  exists h. eexists. exists ["b"; "a"].
  split.
  { eapply (R_set TScalar "b" [Some 2]);
    [eapply (R_set TScalar "a" [Some 1]);
      [eapply (R_add "b" TScalar); [eapply (R_add "a" TScalar); [constructor | reflexivity] | reflexivity]
      | reflexivity | reflexivity] | reflexivity | reflexivity]. }
  split. { repeat constructor; simpl; intuition discriminate. }
  split. { intros n; simpl; tauto. }
  split; [reflexivity|]. split; reflexivity.
Qed.
(** What reorder does do: the raw storage is the concatenation of the variables in
    the requested order, items() returns that order, the name lookup is unchanged. *)
Theorem C10_reorder_partial : forall h, reachable h -> forall vars, NoDup vars ->
  (forall n, In n vars <-> In n (horder h)) ->
  exists h' s, hreorder vars h = HOk h' /\ horder h' = vars /\
    hsubset vars h = HOk s /\ hdata h' = hdata s /\ hloc h' = insert_all (hloc s) (hloc h) /\
    forall n, find n (hloc h') = find n (hloc h).
Proof. exact hist_reorder_raw. Qed.

Theorem C11_subset_preserves_values : forall h, reachable h -> forall vars, NoDup vars ->
  (forall n, In n vars -> In n (horder h)) ->
  exists h', hsubset vars h = HOk h' /\ horder h' = vars /\
    (forall n t vs, In n vars -> (has_var h' n t vs <-> has_var h n t vs)).
Proof. exact hist_subset. Qed.
Theorem C11_subset_missing_fails : forall h, reachable h -> forall vars n, In n vars -> ~ In n (horder h) ->
  forall h', hsubset vars h <> HOk h'.
Proof. exact hist_subset_missing. Qed.
Theorem C11_split_preserves_values : forall h, reachable h -> forall sep rest, horder h = (sep ++ rest)%list ->
  forall after : bool,
  exists h', hsplit sep after h = HOk h' /\ horder h' = (if after then rest else sep) /\
    forall n t vs, In n (if after then rest else sep) -> (has_var h' n t vs <-> has_var h n t vs).
Proof. exact hist_split. Qed.
Theorem C11_split_not_prefix_throws : forall h, reachable h -> forall sep (after : bool),
  (length sep <= length (horder h))%nat -> firstn (length sep) (horder h) <> sep ->
  hsplit sep after h = HErr EContiguous.
Proof. exact hist_split_error. Qed.
Theorem C11_copy_blank : forall h, reachable h -> forall ex,
  exists h', hcopy_blank ex h = HOk h' /\
    horder h' = filter (fun n => negb (mem n ex)) (horder h) /\
    forall n t, (exists vs, has_var h n t vs) -> ~ In n ex -> has_var h' n t (repeat (Some 0) (ssize t)).
Proof. exact hist_blank. Qed.
Theorem C11_union_preserves_values : forall h o, reachable h -> reachable o ->
  (forall n, In n (horder h) -> ~ In n (horder o)) ->
  horder (hunion h o) = (horder h ++ horder o)%list /\
  (forall n t vs, In n (horder h) -> (has_var (hunion h o) n t vs <-> has_var h n t vs)) /\
  (forall n t vs, In n (horder o) -> (has_var (hunion h o) n t vs <-> has_var o n t vs)).
Proof. exact hist_union. Qed.
Theorem C11_deepcopy : forall h, reachable h -> horder (hdeepcopy h) = horder h /\
  forall n t, hget t n (hdeepcopy h) = hget t n h.
Proof. exact hist_deepcopy. Qed.
Theorem C11_scalar_multiply : forall h, reachable h -> forall k n t vs, has_var h n t vs ->
  has_var (hscale k h) n t (map (option_map (fun v => v * k)) vs).
Proof. exact hist_scale. Qed.
Theorem C11_plus : forall h o, reachable h -> reachable o -> horder h = horder o ->
  (forall n, In n (horder h) -> find n (htype h) = find n (htype o)) ->
  exists h', hplus h o = HOk h' /\ forall n t vs ws, has_var h n t vs -> has_var o n t ws ->
    has_var h' n t (map (fun ab => cell_add (fst ab) (snd ab)) (combine vs ws)).
Proof. exact hist_plus. Qed.
Example C11_subset_example : exists h', hsubset ["b"] ex_hist = HOk h' /\
  has_var h' "b" TSymmetric [Some 1; Some 2; Some 3; Some 4; Some 5; Some 6].
Proof. eexists. split; reflexivity. Qed.
Example C11_split_example : exists h', hsplit ["a"] true ex_hist = HOk h' /\
  has_var h' "b" TSymmetric [Some 1; Some 2; Some 3; Some 4; Some 5; Some 6].
Proof. eexists. split; reflexivity. Qed.
(** add_union "assumes no overlap" without checking it: with a shared name the
    values of the first history become unreachable, and out of place. *)
Example C11_union_overlap_unchecked : exists h o, reachable h /\ reachable o /\
  has_var h "a" TScalar [Some 1] /\ has_var o "a" TScalar [Some 2] /\
  has_var h "b" TScalar [Some 3] /\ has_var (hunion h o) "b" TScalar [Some 3] /\
  ~ NoDup (horder (hunion h o)) /\ hget TScalar "a" (hunion h o) = HOk [Some 2].
Proof.
  exists (mkHist ["a"; "b"] [("a", 0%nat); ("b", 1%nat)] [("a", TScalar); ("b", TScalar)] [Some 1; Some 3]).
  exists (mkHist ["a"] [("a", 0%nat)] [("a", TScalar)] [Some 2]).
  split.
  { eapply (R_set TScalar "b" [Some 3]);
    [eapply (R_set TScalar "a" [Some 1]);
      [eapply (R_add "b" TScalar); [eapply (R_add "a" TScalar); [constructor | reflexivity] | reflexivity]
      | reflexivity | reflexivity] | reflexivity | reflexivity]. }
  split.
  { eapply (R_set TScalar "a" [Some 2]); [eapply (R_add "a" TScalar); [constructor | reflexivity] | reflexivity | reflexivity]. }
  repeat (split; [reflexivity|]). split; [|reflexivity].
  simpl. intros H. inversion H as [|x l Hn Hl]; subst. apply Hn. simpl. tauto.
Qed.

Theorem C52_derivative_size : forall h o d, reachable h -> reachable o -> hhist_derivative h o = HOk d ->
  hsize d = (hsize h * hsize o)%nat /\ horder d = map dname (list_prod (horder h) (horder o)).
Proof. exact hist_derivative_size. Qed.
Theorem C52_derivative_blocks : forall h o d, reachable h -> reachable o -> hhist_derivative h o = HOk d ->
  forall n1 n2 t1 t2, (exists vs, has_var h n1 t1 vs) -> (exists vs, has_var o n2 t2 vs) ->
  exists t, derivative_type t1 t2 = Some t /\ has_var d (dname (n1, n2)) t (repeat (Some 0) (ssize t)).
Proof. exact hist_derivative_zero. Qed.
Theorem C52_derivative_succeeds : forall h o, reachable h -> reachable o ->
  NoDup (map dname (list_prod (horder h) (horder o))) ->
  (forall n1 n2 t1 t2, find n1 (htype h) = Some t1 -> find n2 (htype o) = Some t2 -> derivative_type t1 t2 <> None) ->
  exists d, hhist_derivative h o = HOk d.
Proof. exact hist_derivative_ok. Qed.
Theorem C52_unravel : forall b d d', reachable b -> hhist_derivative b b = HOk d ->
  reachable d' -> horder d' = horder d -> (forall n, find n (htype d') = find n (htype d)) ->
  exists A, hunravel d' b = HOk A /\
    (forall n1 n2 t1 t2 o1 o2 t vs i j, hlookup t1 n1 b = HOk o1 -> hlookup t2 n2 b = HOk o2 ->
      has_var d' (dname (n1, n2)) t vs -> (i < ssize t1)%nat -> (j < ssize t2)%nat ->
      A (o1 + i)%nat (o2 + j)%nat = nth_error vs (i * ssize t2 + j)) /\
    (forall r c, (r < hsize b)%nat -> (c < hsize b)%nat -> exists x, A r c = Some x).
Proof. exact hist_unravel. Qed.
Example C52_unravel_example : exists d, hhist_derivative ex_hist ex_hist = HOk d /\ hsize d = 49%nat /\ reachable d.
Proof.
  destruct (hhist_derivative ex_hist ex_hist) as [d|] eqn:E; [|discriminate].
  exists d. split; [reflexivity|]. split.
  - destruct (C52_derivative_size _ _ _ ex_hist_reachable ex_hist_reachable E) as [S _]. exact S.
  - eapply R_hderiv; [exact ex_hist_reachable | exact ex_hist_reachable | exact E].
Qed.
(** Two distinct pairs of names can give the same derivative name; the
    derivative container then cannot be made. *)
Theorem C52_name_collision_refuted : exists h, reachable h /\ hhist_derivative h h = HErr EExists.
Proof.
  exists (mkHist ["a"; "a_a"] [("a", 0%nat); ("a_a", 1%nat)] [("a", TScalar); ("a_a", TScalar)] [None; None]).
  split; [|reflexivity].
  eapply (R_add "a_a" TScalar); [eapply (R_add "a" TScalar); [constructor | reflexivity] | reflexivity].
Qed.

Theorem C53_formatted_names_match_storage : forall ts h, reachable h ->
  exists names, formatted_names ts h = HOk names /\ length names = hsize h.
Proof. exact hist_formatted. Qed.
Example C53_example : formatted_names (fun _ => "i") ex_hist = HOk ["a"; "b_i"; "b_i"; "b_i"; "b_i"; "b_i"; "b_i"].
Proof. reflexivity. Qed.

Print Assumptions C08_variables_disjoint.
Print Assumptions C08_variables_in_bounds.
Print Assumptions C08_storage_covered.
Print Assumptions C08_size_is_sum.
Print Assumptions C08_write_read_frame.
Print Assumptions C09_add_duplicate_throws.
Print Assumptions C09_add_new_succeeds.
Print Assumptions C09_get_missing_throws.
Print Assumptions C09_get_present.
Print Assumptions C09_set_iff_get.
Print Assumptions C10_reorder_values_refuted.
Print Assumptions C10_reorder_partial.
Print Assumptions C11_subset_preserves_values.
Print Assumptions C11_subset_missing_fails.
Print Assumptions C11_split_preserves_values.
Print Assumptions C11_split_not_prefix_throws.
Print Assumptions C11_copy_blank.
Print Assumptions C11_union_preserves_values.
Print Assumptions C11_deepcopy.
Print Assumptions C11_scalar_multiply.
Print Assumptions C11_plus.
Print Assumptions C52_derivative_size.
Print Assumptions C52_derivative_blocks.
Print Assumptions C52_derivative_succeeds.
Print Assumptions C52_unravel.
Print Assumptions C52_name_collision_refuted.
Print Assumptions C53_formatted_names_match_storage.

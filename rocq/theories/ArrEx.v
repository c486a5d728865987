(** Concrete arrays: a 2 by 3 matrix in memory, its transpose, its columns, a vector of integers. *)
From Coq Require Import ZArith List Arith Lia Lra.
From Verif Require Import Base ArrModel ArrSpec ArrProofs ArrWrite.
From Coq Require Import List.
Import ListNotations.
Open Scope R_scope.

Definition six : list R := [1; 2; 3; 4; 5; 6].
Definition mem0 : amem := [mkBuf six true; mkBuf [1; 0; 0; 1; 0; 0; 1; 0] true; mkBuf [7; 8; 9] true].
(** np.array([[1,2,3],[4,5,6]]), its transpose, its second column reversed, all of it as a vector *)
Definition a_mat : arr := mkArr 0 0 [2; 3]%nat [3; 1]%Z DDouble.
Definition a_tr : arr := mkArr 0 0 [3; 2]%nat [1; 3]%Z DDouble.
Definition a_col : arr := mkArr 0 4 [2]%nat [-3]%Z DDouble.
Definition a_vec : arr := mkArr 0 0 [6]%nat [1]%Z DDouble.
(** every second entry of a vector of eight; three integers *)
Definition a_skip : arr := mkArr 1 0 [4]%nat [2]%Z DDouble.
Definition a_int : arr := mkArr 2 0 [3]%nat [1]%Z DInt.
Ltac hold := split; [apply contents_shows; reflexivity|split; [cbn; lia|reflexivity]].
Lemma mat_holds : holds mem0 a_mat [1; 2; 3; 4; 5; 6]. Proof. hold. Qed.
Lemma tr_holds : holds mem0 a_tr [1; 4; 2; 5; 3; 6]. Proof. hold. Qed.
Lemma col_holds : holds mem0 a_col [5; 2]. Proof. hold. Qed.
Lemma vec_holds : holds mem0 a_vec six. Proof. hold. Qed.
Lemma skip_holds : holds mem0 a_skip [1; 0; 0; 1]. Proof. hold. Qed.
Lemma int_holds : holds mem0 a_int [7; 8; 9]. Proof. hold. Qed.
Lemma mat_plain : plain a_mat. Proof. apply kept_plain. reflexivity. Qed.
Lemma vec_plain : plain a_vec. Proof. apply kept_plain. reflexivity. Qed.
Lemma tr_not : ~ plain a_tr.
Proof. intros (_ & H). specialize (H [1; 0]%nat). cbn in H. assert (1 = 2)%Z by (apply H; repeat constructor). lia. Qed.
Lemma skip_not : ~ plain a_skip.
Proof. intros (_ & H). specialize (H [1]%nat). cbn in H. assert (2 = 1)%Z by (apply H; repeat constructor). lia. Qed.
Lemma int_not : ~ plain a_int.
Proof. intros (H & _). discriminate. Qed.

(** a call with a transposed matrix, a reversed column and integers *)
Lemma call_case : exists m', py_call (fun x => x) [(a_tr, 6%nat); (a_col, 2%nat); (a_int, 3%nat)] mem0 = Done [[1; 4; 2; 5; 3; 6]; [5; 2]; [7; 8; 9]] m' /\ same_memory mem0 m'.
Proof.
  apply (call_exact (fun x => x) [(a_tr, 6%nat); (a_col, 2%nat); (a_int, 3%nat)]). repeat constructor; try (apply contents_shows; reflexivity); cbn; lia.
Qed.
(** update_sd reads six numbers of a vector of three *)
Lemma short_case : py_call (fun x => x) [(a_int, 6%nat)] mem0 = Wild.
Proof.
  apply (call_short (fun x => x) _ mem0 [[7; 8; 9]] a_int 6%nat); [constructor; [exact int_holds|constructor]|now left|cbn; lia|]. intro P. now elim int_not.
Qed.
Definition doubled (x : list R) : list R := map (fun y => 2 * y) x.
Lemma doubled_length : forall x, length (doubled x) = length x. Proof. intro x. apply map_length. Qed.
Lemma update_case : exists m', py_update doubled 6 a_mat mem0 = Done tt m' /\ shows m' a_mat (doubled six).
Proof.
  destruct (update_plain doubled a_mat mem0 six mat_holds (doubled_length _)) as (m' & E & A & _). exists m'. split; [exact E|exact (A mat_plain)].
Qed.
Lemma update_lost : ~ forall g a m x, holds m a x -> length (g x) = length x -> exists m', py_update g (length x) a m = Done tt m' /\ shows m' a (g x).
Proof.
  intro H. destruct (H doubled a_tr mem0 _ tr_holds (doubled_length _)) as (m' & E & S).
  destruct (update_plain doubled a_tr mem0 _ tr_holds (doubled_length _)) as (m2 & E2 & _ & B & _). rewrite E in E2. inversion E2; subst.
  specialize (B tr_not). apply contents_shows in B, S. rewrite B in S. injection S. intros. lra.
Qed.
Lemma skip_orientation : py_orientation a_skip mem0 = Wild.
Proof. exact (orientation_four_view a_skip mem0 _ skip_holds eq_refl skip_not). Qed.
Lemma column_orientation : exists m', py_orientation a_int mem0 = Done (ORodrigues [7; 8; 9]) m' /\ same_memory mem0 m'.
Proof. exact (orientation_three a_int mem0 _ int_holds eq_refl). Qed.
Lemma small_orientation : py_orientation a_mat mem0 = Wild.
Proof.
  apply (orientation_small_matrix a_mat mem0 _ 2 3 mat_holds eq_refl); [lia|]. intros _. exists (mkBuf six true). split; reflexivity.
Qed.

(** ** block_evaluate with two points and one internal variable: arrays in separate blocks *)
Definition blk (k n : nat) : buf := mkBuf (map (fun i => INR k + INR i) (seq 0 n)) true.
Definition b_shapes : list (list nat) := block_shapes 2 1.
Definition b_mem : amem := map (fun p => blk (fst p) (total (snd p))) (combine (seq 0 13) b_shapes).
Definition b_args : list arr := map (fun p => mkArr (fst p) 0 (snd p) (c_strides (snd p)) DDouble) (combine (seq 0 13) b_shapes).
(** the same with the stress in Fortran order *)
Definition b_fortran : list arr := map (fun a => if Nat.eqb (ar_buf a) 4 then mkArr 4 0 [2; 3; 3]%nat [1; 2; 6]%Z DDouble else a) b_args.
Definition b_out (m : amem) (l : list arr) : list (list R) := map (fun a => match contents m a with Some x => x | None => [] end) l.
Definition b_f (n : nat) (xs : list (list R)) : list (list R) := map doubled xs.
Lemma b_f_length : forall n xs, Forall2 (fun x y => length y = length x) xs (b_f n xs).
Proof. intros n xs. unfold b_f. induction xs; constructor; [apply doubled_length|exact IHxs]. Qed.
Lemma b_holds : Forall2 (holds b_mem) b_args (b_out b_mem b_args).
Proof. repeat constructor; try (apply contents_shows; reflexivity); cbn; lia. Qed.
Lemma b_fortran_holds : Forall2 (holds b_mem) b_fortran (b_out b_mem b_fortran).
Proof. repeat constructor; try (apply contents_shows; reflexivity); cbn; lia. Qed.
Lemma b_plain : forall i a, is_result i -> nth_error b_args i = Some a -> plain a.
Proof. intros i a [->|[->|[->|[->| ->]]]] H; inversion H; subst; apply kept_plain; reflexivity. Qed.
Lemma b_nodup : NoDup (map ar_buf b_args).
Proof. cbn. repeat constructor; cbn; lia. Qed.
Lemma block_case : exists m', py_block 1 b_f b_args b_mem = Done tt m' /\ forall a x, nth_error b_args 4 = Some a -> nth_error (b_out b_mem b_args) 4 = Some x -> shows m' a (doubled x).
Proof.
  destruct (block_in_place 1 b_f 2 b_args b_mem (b_out b_mem b_args) eq_refl b_holds b_nodup (b_f_length _ _) b_plain) as (m' & E & H). exists m'. split; [exact E|].
  intros a x Ha Hx. apply (H 4%nat a x (doubled x) Ha Hx); [now apply map_nth_error|now left].
Qed.
Lemma block_lost : ~ forall nh f n args m xs, map ar_shape args = block_shapes n nh -> Forall2 (holds m) args xs -> NoDup (map ar_buf args) ->
  Forall2 (fun x y => length y = length x) xs (f n xs) ->
  exists m', py_block nh f args m = Done tt m'
    /\ forall i a y, is_result i -> nth_error args i = Some a -> nth_error (f n xs) i = Some y -> shows m' a y.
Proof.
  intro H. assert (ND : NoDup (map ar_buf b_fortran)) by (cbn; repeat constructor; cbn; lia).
  destruct (H 1%nat b_f 2%nat b_fortran b_mem (b_out b_mem b_fortran) eq_refl b_fortran_holds ND (b_f_length _ _)) as (m' & E & S).
  destruct (block_results_plain 1%nat b_f 2%nat b_fortran b_mem (b_out b_mem b_fortran) eq_refl b_fortran_holds ND (b_f_length _ _)) as (m2 & E2 & B & _).
  rewrite E in E2. inversion E2; subst m2. clear E E2.
  set (a := mkArr 4 0 [2; 3; 3]%nat [1; 2; 6]%Z DDouble) in *.
  assert (NP : ~ plain a). { intros (_ & Q). specialize (Q [1; 0; 0]%nat). cbn in Q. assert (1 = 9)%Z by (apply Q; repeat constructor). lia. }
  destruct (nth_error (b_out b_mem b_fortran) 4) as [x|] eqn:EX; [|discriminate].
  specialize (S 4%nat a (doubled x) (or_introl eq_refl) eq_refl (map_nth_error _ _ _ EX)).
  destruct (B 4%nat a x (doubled x) eq_refl EX (map_nth_error _ _ _ EX)) as (_ & B2). specialize (B2 ltac:(tauto)).
  apply contents_shows in S, B2. rewrite S in B2. cbn in EX. injection EX as <-. injection B2. intros. lra.
Qed.
(** one temperature for all points, given as a number *)
Definition b_scalar : list arr := map (fun a => if Nat.eqb (ar_buf a) 2 then mkArr 2 0 [] [] DDouble else a) b_args.
Lemma scalar_case : py_block 1 b_f b_scalar b_mem = Wild.
Proof. apply (block_scalar 1 b_f b_scalar b_mem (b_out b_mem b_scalar) 2); [repeat constructor; try (apply contents_shows; reflexivity); cbn; lia|reflexivity]. Qed.
Definition b_short : list arr := map (fun a => if Nat.eqb (ar_buf a) 6 then mkArr 6 0 [1; 1]%nat [1; 1]%Z DDouble else a) b_args.
Lemma short_block_case : py_block 1 b_f b_short b_mem = Raise.
Proof.
  apply (block_checked 1 b_f b_short b_mem (b_out b_mem b_short)); [reflexivity|repeat constructor; try (apply contents_shows; reflexivity); cbn; lia| |].
  - intros a I. repeat (destruct I as [<-|I]; [discriminate|]). destruct I.
  - intros n H. cbn in H. inversion H; subst. discriminate.
Qed.

Lemma set_data_case : py_set_data a_vec mem0 = Done (0%nat, 0%Z) mem0 /\ pread (drop a_vec mem0) (0%nat, 0%Z) 1 = None.
Proof. split; reflexivity. Qed.
Lemma set_data_view_case : exists p m', py_set_data a_tr mem0 = Done p m' /\ forall n, pread m' p (S n) = None.
Proof. exact (set_data_view a_tr mem0 _ tr_holds tr_not). Qed.
Lemma two_case : ranktwo_get [1; 2; 3; 4; 5; 6; 7; 8; 9] 0 3 = Some (Some 4) /\ ranktwo_get [1; 2; 3; 4; 5; 6; 7; 8; 9] 2 3 = None.
Proof. split; reflexivity. Qed.

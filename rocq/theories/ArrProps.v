(** Arrays and indices given from Python *)
From Coq Require Import ZArith List Arith Lia Lra.
From Verif Require Import Base ArrModel ArrSpec ArrProofs ArrWrite ArrEx.
From Coq Require Import List.
Import ListNotations.
Open Scope R_scope.

(** ** C94 *)
(** what an array shows, read in order of the indices: the entries where its offset and strides put them *)
Theorem C94_contents : forall m a l, contents m a = Some l <-> shows m a l.
Proof. exact @contents_shows. Qed.
Print Assumptions C94_contents.
(** arrays that are used without a copy *)
Theorem C94_plain : forall a, length (ar_strides a) = length (ar_shape a) -> plain a -> kept a = true.
Proof. exact @plain_kept. Qed.
Print Assumptions C94_plain.
(** arguments that are read, any layout and type, of the right sizes: the function gets the numbers Python shows; nothing the caller holds changes and copies are freed *)
Theorem C94_inputs : forall {A} (f : list (list R) -> A) args m xs, Forall2 (fun p x => holds m (fst p) x /\ snd p = length x) args xs ->
  exists m', py_call f args m = Done (f xs) m' /\ same_memory m m'.
Proof. exact @call_exact. Qed.
Print Assumptions C94_inputs.
Example C94_inputs_case : exists m', py_call (fun x => x) [(a_tr, 6%nat); (a_col, 2%nat); (a_int, 3%nat)] mem0 = Done [[1; 4; 2; 5; 3; 6]; [5; 2]; [7; 8; 9]] m' /\ same_memory mem0 m'.
Proof. exact @call_case. Qed.
(** an argument shorter than the function reads is not refused: it reads beyond the end *)
Theorem C94_sizes_refuted : forall {A} (f : list (list R) -> A) args m xs a n, Forall2 (holds m) (map fst args) xs -> In (a, n) args ->
  (fold_right Nat.mul 1 (ar_shape a) < n)%nat -> (plain a -> ends_block m a) -> py_call f args m = Wild.
Proof. exact @call_short. Qed.
Print Assumptions C94_sizes_refuted.
Example C94_sizes_case : py_call (fun x => x) [(a_int, 6%nat)] mem0 = Wild.
Proof. exact @short_case. Qed.
(** an argument changed in place: the array shows the result if it is contiguous and of doubles; otherwise it is unchanged, and the call ends as if all were well *)
Theorem C94_in_place : forall g a m x, holds m a x -> length (g x) = length x ->
  exists m', py_update g (length x) a m = Done tt m' /\ (plain a -> shows m' a (g x)) /\ (~ plain a -> shows m' a x)
             /\ forall b, (b < length m)%nat -> b <> ar_buf a -> nth_error m' b = nth_error m b.
Proof. exact @update_plain. Qed.
Print Assumptions C94_in_place.
Example C94_in_place_case : exists m', py_update doubled 6 a_mat mem0 = Done tt m' /\ shows m' a_mat (doubled six).
Proof. exact @update_case. Qed.
(** so results are not delivered into every array *)
Theorem C94_in_place_refuted : ~ forall g a m x, holds m a x -> length (g x) = length x -> exists m', py_update g (length x) a m = Done tt m' /\ shows m' a (g x).
Proof. exact @update_lost. Qed.
Print Assumptions C94_in_place_refuted.
(** block_evaluate with contiguous result arrays of doubles: results in the result arrays, inputs unchanged *)
Theorem C94_block : forall nh f n args m xs, map ar_shape args = block_shapes n nh -> Forall2 (holds m) args xs -> NoDup (map ar_buf args) ->
  Forall2 (fun x y => length y = length x) xs (f n xs) -> (forall i a, is_result i -> nth_error args i = Some a -> plain a) ->
  exists m', py_block nh f args m = Done tt m'
    /\ forall i a x y, nth_error args i = Some a -> nth_error xs i = Some x -> nth_error (f n xs) i = Some y ->
          (is_result i -> shows m' a y) /\ (~ is_result i -> shows m' a x).
Proof. exact @block_in_place. Qed.
Print Assumptions C94_block.
Example C94_block_case : exists m', py_block 1 b_f b_args b_mem = Done tt m' /\ forall a x, nth_error b_args 4 = Some a -> nth_error (b_out b_mem b_args) 4 = Some x -> shows m' a (doubled x).
Proof. exact @block_case. Qed.
(** with any arrays of the right shapes: exactly the contiguous result arrays of doubles receive results *)
Theorem C94_block_any : forall nh f n args m xs, map ar_shape args = block_shapes n nh -> Forall2 (holds m) args xs -> NoDup (map ar_buf args) ->
  Forall2 (fun x y => length y = length x) xs (f n xs) ->
  exists m', py_block nh f args m = Done tt m'
    /\ (forall i a x y, nth_error args i = Some a -> nth_error xs i = Some x -> nth_error (f n xs) i = Some y ->
          (is_result i /\ plain a -> shows m' a y) /\ (~ (is_result i /\ plain a) -> shows m' a x))
    /\ (forall b, (b < length m)%nat -> ~ In b (map ar_buf args) -> nth_error m' b = nth_error m b).
Proof. exact @block_results_plain. Qed.
Print Assumptions C94_block_any.
(** so not all results are delivered *)
Theorem C94_block_refuted : ~ forall nh f n args m xs, map ar_shape args = block_shapes n nh -> Forall2 (holds m) args xs -> NoDup (map ar_buf args) ->
  Forall2 (fun x y => length y = length x) xs (f n xs) ->
  exists m', py_block nh f args m = Done tt m'
    /\ forall i a y, is_result i -> nth_error args i = Some a -> nth_error (f n xs) i = Some y -> shows m' a y.
Proof. exact @block_lost. Qed.
Print Assumptions C94_block_refuted.
(** arrays of other shapes are refused, if all have an axis *)
Theorem C94_block_checked : forall nh f args m xs, length args = 13%nat -> Forall2 (holds m) args xs -> (forall a, In a args -> ar_shape a <> []) ->
  (forall n, map ar_shape args <> block_shapes n nh) -> py_block nh f args m = Raise.
Proof. exact @block_checked. Qed.
Print Assumptions C94_block_checked.
Example C94_block_checked_case : py_block 1 b_f b_short b_mem = Raise.
Proof. exact @short_block_case. Qed.
(** a single number as temperature is not refused: a shape that does not exist is read *)
Theorem C94_block_scalar_refuted : forall nh f args m xs n, Forall2 (holds m) args xs -> firstn 3 (map ar_shape args) = [[n; 3; 3]; [n; 3; 3]; []]%nat -> py_block nh f args m = Wild.
Proof. exact @block_scalar. Qed.
Print Assumptions C94_block_scalar_refuted.
Example C94_block_scalar_case : py_block 1 b_f b_scalar b_mem = Wild.
Proof. exact @scalar_case. Qed.
(** an Orientation from three numbers in any layout *)
Theorem C94_orientation_three : forall a m x, holds m a x -> ar_shape a = [3%nat] -> exists m', py_orientation a m = Done (ORodrigues x) m' /\ same_memory m m'.
Proof. exact @orientation_three. Qed.
Print Assumptions C94_orientation_three.
Example C94_orientation_three_case : exists m', py_orientation a_int mem0 = Done (ORodrigues [7; 8; 9]) m' /\ same_memory mem0 m'.
Proof. exact @column_orientation. Qed.
(** from a 3 by 3 matrix in any layout *)
Theorem C94_orientation_nine : forall a m x, holds m a x -> ar_shape a = [3; 3]%nat -> exists m', py_orientation a m = Done (OMatrix x) m' /\ same_memory m m'.
Proof. exact @orientation_nine. Qed.
Print Assumptions C94_orientation_nine.
(** from four contiguous numbers *)
Theorem C94_orientation_four : forall a m x, holds m a x -> ar_shape a = [4%nat] -> plain a -> py_orientation a m = Done (OQuat x) m.
Proof. exact @orientation_four. Qed.
Print Assumptions C94_orientation_four.
(** from four numbers of any other layout: the copy is read after it has been freed *)
Theorem C94_orientation_four_refuted : forall a m x, holds m a x -> ar_shape a = [4%nat] -> ~ plain a -> py_orientation a m = Wild.
Proof. exact @orientation_four_view. Qed.
Print Assumptions C94_orientation_four_refuted.
Example C94_orientation_four_case : py_orientation a_skip mem0 = Wild.
Proof. exact @skip_orientation. Qed.
(** a smaller matrix is not refused but read beyond its end *)
Theorem C94_orientation_matrix_refuted : forall a m x n k, holds m a x -> ar_shape a = [n; k] -> (n * k < 9)%nat -> (plain a -> ends_block m a) -> py_orientation a m = Wild.
Proof. exact @orientation_small_matrix. Qed.
Print Assumptions C94_orientation_matrix_refuted.
Example C94_orientation_matrix_case : py_orientation a_mat mem0 = Wild.
Proof. exact @small_orientation. Qed.
(** other shapes are refused *)
Theorem C94_orientation_other : forall a m x, holds m a x -> (forall n k, ar_shape a <> [n; k]) -> ar_shape a <> [3%nat] -> ar_shape a <> [4%nat] -> py_orientation a m = Raise.
Proof. exact @orientation_other. Qed.
Print Assumptions C94_orientation_other.
(** a History given a contiguous array of doubles shows the numbers the array shows, then and later *)
Theorem C94_history_shared : forall a m x, holds m a x -> plain a -> py_set_data a m = Done (arr2ptr a) m /\ forall m' y, shows m' a y -> pread m' (arr2ptr a) (length x) = Some y.
Proof. exact @set_data_shared. Qed.
Print Assumptions C94_history_shared.
(** given another array it points to freed memory at once *)
Theorem C94_history_view_refuted : forall a m x, holds m a x -> ~ plain a -> exists p m', py_set_data a m = Done p m' /\ forall n, pread m' p (S n) = None.
Proof. exact @set_data_view. Qed.
Print Assumptions C94_history_view_refuted.
Example C94_history_view_case : exists p m', py_set_data a_tr mem0 = Done p m' /\ forall n, pread m' p (S n) = None.
Proof. exact @set_data_view_case. Qed.
(** and also once the caller has dropped the array *)
Theorem C94_history_dropped_refuted : forall a m x, holds m a x -> plain a -> py_set_data a m = Done (arr2ptr a) m /\ forall n, pread (drop a m) (arr2ptr a) (S n) = None.
Proof. exact @set_data_dropped. Qed.
Print Assumptions C94_history_dropped_refuted.
Example C94_history_dropped_case : py_set_data a_vec mem0 = Done (0%nat, 0%Z) mem0 /\ pread (drop a_vec mem0) (0%nat, 0%Z) 1 = None.
Proof. exact @set_data_case. Qed.
(** copying takes any layout *)
Theorem C94_history_copied : forall a m x, holds m a x -> exists m', py_copy_data (length x) a m = Done x m' /\ same_memory m m'.
Proof. exact @copy_data_spec. Qed.
Print Assumptions C94_history_copied.
(** Vector: every index gives its entry or an exception *)
Theorem C94_vector_index : forall v i, vector_get v i = Some (nth_error v i).
Proof. exact @vector_get_spec. Qed.
Print Assumptions C94_vector_index.
(** RankTwo: indices in range give their entries; others, but for second index 3, an exception *)
Theorem C94_two_index : forall M i j, length M = 9%nat ->
  ((i < 3)%nat -> (j < 3)%nat -> ranktwo_get M i j = Some (nth_error M (position [3; 3] [i; j])%nat) /\ nth_error M (position [3; 3]%nat [i; j]) <> None)
  /\ ((3 <= i)%nat \/ (3 < j)%nat -> ranktwo_get M i j = Some None).
Proof. exact @two_spec. Qed.
Print Assumptions C94_two_index.
(** second index 3 is accepted: it reads and writes the next row, in the last row memory beyond the tensor *)
Theorem C94_two_index_refuted : forall M, length M = 9%nat ->
  (forall i, (i < 2)%nat -> ranktwo_get M i 3 = ranktwo_get M (S i) 0 /\ forall x, ranktwo_set M i 3 x = ranktwo_set M (S i) 0 x)
  /\ ranktwo_get M 2 3 = None /\ forall x, ranktwo_set M 2 3 x = None.
Proof. exact @two_three. Qed.
Print Assumptions C94_two_index_refuted.
Example C94_two_index_case : ranktwo_get [1; 2; 3; 4; 5; 6; 7; 8; 9] 0 3 = Some (Some 4) /\ ranktwo_get [1; 2; 3; 4; 5; 6; 7; 8; 9] 2 3 = None.
Proof. exact @two_case. Qed.
(** assigning one entry of a RankTwo changes that entry only *)
Theorem C94_two_assign : forall M i j x i' j', length M = 9%nat -> (i < 3)%nat -> (j < 3)%nat -> (i' < 3)%nat -> (j' < 3)%nat ->
  exists M', ranktwo_set M i j x = Some (Some M') /\ length M' = 9%nat
    /\ ranktwo_get M' i' j' = if (Nat.eqb i i' && Nat.eqb j j')%bool then Some (Some x) else ranktwo_get M i' j'.
Proof. exact @two_set_get. Qed.
Print Assumptions C94_two_assign.
(** RankFour: indices in range give their entries *)
Theorem C94_four_index : forall M i j k l, length M = 81%nat -> (i < 3)%nat -> (j < 3)%nat -> (k < 3)%nat -> (l < 3)%nat ->
  rankfour_get M i j k l = Some (nth_error M (position [3; 3; 3; 3] [i; j; k; l])%nat) /\ nth_error M (position [3; 3; 3; 3]%nat [i; j; k; l]) <> None.
Proof. exact @four_spec. Qed.
Print Assumptions C94_four_index.
(** index 3 is accepted in all places but the first *)
Theorem C94_four_index_refuted : forall M, length M = 81%nat -> rankfour_get M 2 3 0 0 = None /\ rankfour_get M 0 0 0 3 = rankfour_get M 0 0 1 0.
Proof. exact @four_three. Qed.
Print Assumptions C94_four_index_refuted.

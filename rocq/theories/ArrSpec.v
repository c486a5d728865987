(** What the theorems about arrays from Python say, without the conversions of the wrappers. *)
From Coq Require Import ZArith List Arith.
From Verif Require Import Base ArrModel.
From Coq Require Import List.
Import ListNotations.

(** position of an index in C order *)
Fixpoint position (s ix : list nat) : nat :=
  match s, ix with _ :: s, i :: ix => (i * fold_right Nat.mul 1 s + position s ix)%nat | _, _ => 0%nat end.
(** the entry of the array at an index *)
Definition entry (m : amem) (a : arr) (ix : list nat) : option R := rd m (ar_buf a) (ar_off a + shift (ar_strides a) ix).
(** the array shows the numbers [l]: the entry at each index is the number at its position *)
Definition shows (m : amem) (a : arr) (l : list R) : Prop :=
  length l = fold_right Nat.mul 1%nat (ar_shape a)
  /\ forall ix, Forall2 lt ix (ar_shape a) -> exists x, entry m a ix = Some x /\ nth_error l (position (ar_shape a) ix) = Some x.
(** an array numpy calls C contiguous and of doubles: the entries follow one another in memory *)
Definition plain (a : arr) : Prop :=
  ar_dtype a = DDouble
  /\ forall ix, Forall2 lt ix (ar_shape a) -> shift (ar_strides a) ix = Z.of_nat (position (ar_shape a) ix).
(** nothing the caller can reach has changed, and what was added to memory has been freed again *)
Definition same_memory (m m' : amem) : Prop := exists dead, m' = m ++ dead /\ Forall (fun b => bf_live b = false) dead.
(** the array ends where its block ends *)
Definition ends_block (m : amem) (a : arr) : Prop :=
  exists B, nth_error m (ar_buf a) = Some B /\ (ar_off a + Z.of_nat (fold_right Nat.mul 1%nat (ar_shape a)) = Z.of_nat (length (bf_data B)))%Z.
(** an array the caller holds, with its numbers *)
Definition holds (m : amem) (a : arr) (x : list R) : Prop := shows m a x /\ (ar_buf a < length m)%nat /\ length (ar_strides a) = length (ar_shape a).
(** the shapes block_evaluate asks for: e_np1, e_n, T_np1, T_n, s_np1, s_n, h_np1, h_n, A_np1, u_np1, u_n, p_np1, p_n
    for n points and nh internal variables, and the arguments that receive results *)
Definition block_shapes (n nh : nat) : list (list nat) :=
  [[n; 3; 3]; [n; 3; 3]; [n]; [n]; [n; 3; 3]; [n; 3; 3]; [n; nh]; [n; nh]; [n; 3; 3; 3; 3]; [n]; [n]; [n]; [n]]%nat.
Definition is_result (i : nat) : Prop := i = 4%nat \/ i = 6%nat \/ i = 8%nat \/ i = 9%nat \/ i = 11%nat.

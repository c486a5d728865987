(** The tensor classes of src/math/tensors.cxx: operators between full, symmetric and skew second
    order tensors, fourth order tensors in Mandel form and the sixth order tensor.  Objects are
    their storage: 9 entries for RankTwo, 6 for Symmetric (Mandel), 3 for Skew, 36 for SymSymR4,
    18 for SymSkewR4 and SkewSymR4, 81 for RankFour, 216 for SymSymSymR6.  to_full of the second
    order classes is [usym] and [uskew] of NemlMathModel (same tables, tensors.cxx:658-676 and
    867-885), of the fourth order classes [mandel2full], [skew2full], [wws2full].
    Not modelled: storage ownership, printing, the length checks of the constructors. *)
From Verif Require Import Base.
From Verif Require Import NemlMathModel.
From Verif Require Import NemlMathSpec.
From Verif Require Import RotModel.

(** tensors.cxx:197-204, 206-217, 219-222: Vector::dot, outer, norm are [dot3], below and [norm3] *)
Definition outer3 (a b : vec) : vec := fun p => a (p / 3)%nat * b (p mod 3)%nat.
(** tensors.cxx:237-244: Vector::normalize; None stands for the division by a zero norm *)
Definition normalize3 (v : vec) : option vec := if Req_EM_T (norm3 v) 0 then None else Some (fun i => v i / norm3 v).
(** tensors.cxx:425-432: RankTwo . Vector; 581-584: Vector . RankTwo *)
Definition r2_vec (A v : vec) : vec := fun i => rsum 3 (fun k => A (3 * i + k)%nat * v k).
(** src/math/tensors.cxx:581-584 *)
Definition vec_r2 (v A : vec) : vec := r2_vec (tr_2 A) v.
(** tensors.cxx:460-465: contract *)
Definition contract9 (A B : vec) : R := rsum 9 (fun k => A k * B k).
(** tensors.cxx:455-458: norm *)
Definition norm9 (A : vec) : R := sqrt (contract9 A A).
(** tensors.cxx:510-564: mixed sums and differences *)
Definition add_full_sym (A d : vec) : vec := fun k => A k + usym d k.
(** src/math/tensors.cxx:517-522 *)
Definition sub_full_sym (A d : vec) : vec := fun k => A k + - usym d k.
(** src/math/tensors.cxx:531-536 *)
Definition sub_sym_full (d A : vec) : vec := fun k => usym d k + - A k.
(** src/math/tensors.cxx:538-543, 552-557 *)
Definition add_full_skew (A w : vec) : vec := fun k => A k + uskew w k.
(** src/math/tensors.cxx:545-550 *)
Definition sub_full_skew (A w : vec) : vec := fun k => A k + - uskew w k.
(** src/math/tensors.cxx:559-564 *)
Definition sub_skew_full (w A : vec) : vec := fun k => uskew w k + - A k.
(** tensors.cxx:413-423, 740-750, 927-937: mixed products, all through the full tensor *)
Definition full_sym (A d : vec) : vec := mul_2 A (usym d).
(** src/math/tensors.cxx:740-744 *)
Definition sym_full (d A : vec) : vec := mul_2 (usym d) A.
(** src/math/tensors.cxx:419-423 *)
Definition full_skew (A w : vec) : vec := mul_2 A (uskew w).
(** src/math/tensors.cxx:927-931 *)
Definition skew_full (w A : vec) : vec := mul_2 (uskew w) A.
(** src/math/tensors.cxx:746-750 *)
Definition sym_skew (d w : vec) : vec := mul_2 (usym d) (uskew w).
(** src/math/tensors.cxx:933-937 *)
Definition skew_sym (w d : vec) : vec := mul_2 (uskew w) (usym d).
(** tensors.cxx:858-865: Skew(RankTwo) *)
Definition mk_skew (A : vec) : vec := fun k =>
  let s i j := / 2 * (A (3 * i + j)%nat - tr_2 A (3 * i + j)%nat) in
  match k with 0%nat => - s 1%nat 2%nat | 1%nat => s 0%nat 2%nat | 2%nat => - s 0%nat 1%nat | _ => 0 end.
(** tensors.cxx:734-738: Symmetric . Symmetric, returned as a Symmetric *)
Definition sym_dot (d e : vec) : vec := mk_symmetric (mul_2 (usym d) (usym e)).
(** tensors.cxx:921-925: Skew . Skew, returned as a Skew *)
Definition skew_dot (w x : vec) : vec := mk_skew (mul_2 (uskew w) (uskew x)).
(** tensors.cxx:712-726: trace, dev, norm *)
Definition sym_trace (d : vec) : R := d 0%nat + d 1%nat + d 2%nat.
(** src/math/tensors.cxx:717-720 (dev) *)
Definition sym_dev (d : vec) : vec := fun k => d k - sym_trace d / 3 * (if (k <? 3)%nat then 1 else 0).
(** src/math/tensors.cxx:722-726 (norm) *)
Definition sym_norm (d : vec) : R := norm9 (usym d).
(** tensors.cxx:762-767, 752-760, 944-952: contractions *)
Definition sym_contract (d e : vec) : R := rsum 6 (fun k => d k * e k).
(** src/math/tensors.cxx:757-760 *)
Definition sym_contract_skew (d w : vec) : R := contract9 (uskew w) (usym d).
(** src/math/tensors.cxx:949-952 *)
Definition skew_contract (w x : vec) : R := contract9 (uskew w) (uskew x).
(** tensors.cxx:701-705: inverse through the full inverse [inv9], the LAPACK inversion of 434-440 *)
Definition sym_inverse (inv9 : vec -> option vec) (d : vec) : option vec :=
  match inv9 (usym d) with None => None | Some A => Some (mk_symmetric A) end.
(** tensors.cxx:1157-1188: RankFour . RankFour and RankFour . RankTwo, as 9x9 matrix products *)
Definition r4_dot (A B : vec) : vec := fun p => rsum 9 (fun q => A (9 * (p / 9) + q)%nat * B (9 * q + p mod 9)%nat).
(** src/math/tensors.cxx:1181-1188 *)
Definition r4_r2 (A B : vec) : vec := fun p => rsum 9 (fun q => A (9 * p + q)%nat * B q).
(** tensors.cxx:1367-1374, 1396-1403, 1141-1150: SymSymR4 products and transpose *)
Definition ss_dot (A B : vec) : vec := fun p => mm 6 (flat 6 A) (flat 6 B) (p / 6)%nat (p mod 6)%nat.
(** src/math/tensors.cxx:1396-1403 *)
Definition ss_sym (A d : vec) : vec := mv 6 (flat 6 A) d.
(** src/math/tensors.cxx:1141-1150 (transpose) *)
Definition ss_transpose (A : vec) : vec := fun p => A (6 * (p mod 6) + p / 6)%nat.
(** tensors.cxx:1376-1394, 1578-1623, 1786-1831: every mixed product goes through the full tensors *)
Definition ss_ws (A B : vec) : vec := r4_dot (mandel2full A) (wws2full B).
(** src/math/tensors.cxx:1376-1384: the product with a SymSkewR4 *)
Definition ss_sw (A B : vec) : vec := r4_dot (mandel2full A) (skew2full B).
(** src/math/tensors.cxx:1786-1817: the product of a SkewSymR4 and a SymSymR4 *)
Definition ws_ss (A B : vec) : vec := r4_dot (wws2full A) (mandel2full B).
(** src/math/tensors.cxx:1578-1614: the product of a SymSkewR4 and a SkewSymR4 *)
Definition sw_ws (A B : vec) : vec := r4_dot (skew2full A) (wws2full B).
(** src/math/tensors.cxx:1786-1817: the product of a SkewSymR4 and a SymSkewR4 *)
Definition ws_sw (A B : vec) : vec := r4_dot (wws2full A) (skew2full B).
(** src/math/tensors.cxx:1819-1831 *)
Definition ws_sym (A d : vec) : vec := r4_r2 (wws2full A) (usym d).
(** src/math/tensors.cxx:1611-1623 *)
Definition sw_skew (A w : vec) : vec := r4_r2 (skew2full A) (uskew w).
(** src/math/tensors.cxx:1819-1831 *)
Definition ws_skew (A w : vec) : vec := r4_r2 (wws2full A) (uskew w).
(** src/math/tensors.cxx:1611-1623 *)
Definition sw_sym (A d : vec) : vec := r4_r2 (skew2full A) (usym d).
(** src/math/tensors.cxx:1391-1394 *)
Definition ss_skew (A w : vec) : vec := r4_r2 (mandel2full A) (uskew w).
(** tensors.cxx:1476-1486, 1904-1914: dyadic products *)
Definition douter_ss (a b : vec) : vec := fun p => a (p / 6)%nat * b (p mod 6)%nat.
(** src/math/tensors.cxx:1904-1914 *)
Definition douter_ws (w b : vec) : vec := fun p => w (p / 6)%nat * b (p mod 6)%nat.
(** the sixth order tensor, as a function of its three Mandel indices (tensors.cxx:2031-2039) *)
Definition r6 := nat -> nat -> nat -> R.
(** tensors.cxx:2076-2119 *)
Definition dot_i (A : r6) (d : vec) : nat -> nat -> R := fun j k => rsum 6 (fun i => A i j k * d i).
(** src/math/tensors.cxx:2091-2104 (dot_j) *)
Definition dot_j (A : r6) (d : vec) : nat -> nat -> R := fun i k => rsum 6 (fun j => A i j k * d j).
(** src/math/tensors.cxx:2106-2119 (dot_k) *)
Definition dot_k (A : r6) (d : vec) : nat -> nat -> R := fun i j => rsum 6 (fun k => A i j k * d k).
(** tensors.cxx:2121-2136, 2138-2153: the loop over l adds a product in which l is not contracted *)
Definition middle_dot_after (A : r6) (B : nat -> nat -> R) : r6 := fun i j k => rsum 6 (fun l => A i j l * B j k).
(** src/math/tensors.cxx:2138-2153 (middle_dot_before) *)
Definition middle_dot_before (A : r6) (B : nat -> nat -> R) : r6 := fun i j k => rsum 6 (fun l => B i j * A j k l).
(** tensors.cxx:2156-2169 *)
Definition outer_product_k (A : nat -> nat -> R) (b : vec) : r6 := fun i j k => A i j * b k.

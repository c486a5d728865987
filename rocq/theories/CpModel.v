(** Model of src/cp/inelasticity.cxx and the StandardKinematicModel of src/cp/kinematics.cxx.

    Symmetric tensors are Mandel vectors of 6, skew tensors vectors of 3, fourth
    order tensors row-major matrices.  An inelastic model is taken at one
    temperature, one orientation and one set of fixed multiphysics variables, so
    its functions take the stress and the internal variables only; derivatives by
    the internal variables (History::derivative) have one column per variable.
    Sums over groups and systems run over the flat system numbers of [slat]. *)
From Verif Require Import Base.
From Verif Require Import NemlMathModel.
From Verif Require Import NemlMathSpec.
From Verif Require Import RotModel.
From Verif Require Import TensorModel.
From Verif Require Import Blocks.
From Verif Require Import SlipModel.
From Coq Require Import List.

(** *** InelasticModel (include/cp/inelasticity.h) *)
(** src/cp/inelasticity.cxx:7-11 (InelasticModel): the virtual functions *)
Record imodel := {
  i_n : nat;                          (* number of internal variables *)
  i_full : bool;                      (* d_*_d_history start from history.derivative(), the others return an empty History *)
  i_init : vec;
  i_str : vec -> R;                   (* strength *)
  i_dp : vec -> vec -> vec; i_dp_s : vec -> vec -> mat; i_dp_h : vec -> vec -> mat;
  i_wp : vec -> vec -> vec; i_wp_s : vec -> vec -> mat; i_wp_h : vec -> vec -> mat;
  i_rate : vec -> vec -> vec; i_rate_s : vec -> vec -> mat; i_rate_h : vec -> vec -> mat }.

(** src/cp/inelasticity.cxx:115-139: zero results *)
Definition vzero2 : vec -> vec -> vec := fun _ _ _ => 0.
(** src/cp/inelasticity.cxx:115-139: zero results *)
Definition mzero2 : vec -> vec -> mat := fun _ _ _ _ => 0.

(** NoInelasticity (src/cp/inelasticity.cxx 56-141) *)
Definition no_inelasticity : imodel :=
  {| i_n := 0; i_full := false; i_init := vzero; i_str := fun _ => 0;
     i_dp := vzero2; i_dp_s := mzero2; i_dp_h := mzero2;
     i_wp := vzero2; i_wp_s := mzero2; i_wp_h := mzero2;
     i_rate := vzero2; i_rate_s := mzero2; i_rate_h := mzero2 |}.

(** AsaroInelasticity (src/cp/inelasticity.cxx 175-338) with the rule r on the lattice L *)
Definition asaro (L : slat) (r : rule) : imodel :=
  {| i_n := r_nh r; i_full := true; i_init := rs_init r; i_str := rs_strength L r;
     i_dp := fun s h k => rsum (l_n L) (fun p => rs_slip L r s h p * l_M L p k);                            (* 187-201 *)
     i_dp_s := fun s h i j => rsum (l_n L) (fun p => l_M L p i * rs_dslip_s L r s h p j);                   (* 203-219 *)
     i_dp_h := fun s h i x => rsum (l_n L) (fun p => rs_dslip_h L r s h p x * l_M L p i);                   (* 221-241 *)
     i_wp := fun s h k => rsum (l_n L) (fun p => if l_twin L p then 0 else rs_slip L r s h p * l_N L p k);  (* 270-285 *)
     i_wp_s := fun s h i j => rsum (l_n L) (fun p => if l_twin L p then 0 else l_N L p i * rs_dslip_s L r s h p j);  (* 287-304 *)
     i_wp_h := fun s h i x => rsum (l_n L) (fun p => if l_twin L p then 0 else rs_dslip_h L r s h p x * l_N L p i);  (* 306-328 *)
     i_rate := rs_rate L r; i_rate_s := rs_rate_s L r; i_rate_h := rs_rate_h L r |}.                         (* 243-268 *)

(** PowerLawInelasticity (src/cp/inelasticity.cxx 335-483) at fixed A and n *)
Definition pi_seq (s : vec) : R := sqrt (3 / 2) * sym_norm (sym_dev s).                                     (* 480-483 *)
Definition pi_dp (A n : R) (s : vec) : vec :=                                                               (* 379-394 *)
  if Rlt_dec (pi_seq s) eps then vzero else fun k => A * cpow (pi_seq s) (n - 1) * sym_dev s k.
(** SymSymR4::id_dev *)
(** include/math/tensors.h:386-395 *)
Definition id_dev : mat := fun i j => delta i j - (if andb (Nat.ltb i 3) (Nat.ltb j 3) then / 3 else 0).
Definition pi_dp_s (A n : R) (s : vec) : mat :=                                                             (* 396-417 *)
  let seq := if Rlt_dec (pi_seq s) eps then eps else pi_seq s in
  let dir := fun k => sym_dev s k / seq in
  let rate := A * cpow seq n in
  let drate := A * n * cpow seq (n - 1) in
  mm 6 id_dev (fun i j => 3 / 2 * (drate - rate / seq) * (dir i * dir j) + delta i j * rate / seq).
Definition power_inelasticity (A n : R) : imodel :=
  {| i_n := 0; i_full := false; i_init := vzero; i_str := fun _ => cpow A (- 1 / n);                        (* 373-377 *)
     i_dp := fun s _ => pi_dp A n s; i_dp_s := fun s _ => pi_dp_s A n s; i_dp_h := mzero2;
     i_wp := vzero2; i_wp_s := mzero2; i_wp_h := mzero2;
     i_rate := vzero2; i_rate_s := mzero2; i_rate_h := mzero2 |}.

(** CombinedInelasticity (src/cp/inelasticity.cxx 485-680) of ms 0, ..., ms (m-1).  The variables of
    model k are block k.  d_d_p_d_history and d_w_p_d_history join the answers with
    History::add_union (src/history.cxx 86-101).  An answer of a full model has one entry for
    every variable of the whole history.  The union keeps the map from names to places of the
    first answer and adds the current size for each further one, so after q full answers of N
    entries a name found at l in the first is looked up at l + N (1 + ... + (q-1)); with two
    that is the entry of the second answer, with three or more it is past the end. *)
Definition cb_sizes (ms : nat -> imodel) : nat -> nat := fun k => i_n (ms k).
(** src/cp/inelasticity.cxx:564-653: the unions of the answers of the models *)
Definition cb_fulls (m : nat) (ms : nat -> imodel) : list nat := filter (fun k => i_full (ms k)) (seq 0 m).
(** the answer of model k for variable x of the whole history *)
(** src/cp/inelasticity.cxx:564-653: the unions of the answers of the models *)
Definition cb_col (m : nat) (ms : nat -> imodel) (J : imodel -> vec -> vec -> mat) (s h : vec) (k : nat) : mat := fun i x =>
  if Nat.eqb (bblk (cb_sizes ms) m x) k then J (ms k) s (bsub (cb_sizes ms) h k) i (bpos (cb_sizes ms) m x) else 0.
(** src/cp/inelasticity.cxx:564-653: the unions of the answers of the models *)
Definition cb_union (m : nat) (ms : nat -> imodel) (J : imodel -> vec -> vec -> mat) (s h : vec) : option mat :=
  match cb_fulls m ms with
  | nil => None                                  (* no entries at all *)
  | k :: nil => Some (cb_col m ms J s h k)
  | k :: l :: nil => Some (cb_col m ms J s h l)
  | _ => None                                    (* out of bounds *)
  end.
(** src/cp/inelasticity.cxx:564-653: the unions of the answers of the models *)
Definition or_zero (o : option mat) : mat := match o with Some J => J | None => fun _ _ => 0 end.
Definition combined (m : nat) (ms : nat -> imodel) : imodel :=
  {| i_n := boff (cb_sizes ms) m; i_full := existsb (fun k => i_full (ms k)) (seq 0 m);
     i_init := fun x => i_init (ms (bblk (cb_sizes ms) m x)) (bpos (cb_sizes ms) m x);
     i_str := fun h => fold_left (fun acc k => Rmax acc (i_str (ms k) (bsub (cb_sizes ms) h k))) (seq 0 m) 0;  (* 527-537, if (si > min) min = si *)
     i_dp := fun s h i => rsum m (fun k => i_dp (ms k) s (bsub (cb_sizes ms) h k) i);                       (* 539-549 *)
     i_dp_s := fun s h i j => rsum m (fun k => i_dp_s (ms k) s (bsub (cb_sizes ms) h k) i j);               (* 551-562 *)
     i_dp_h := fun s h => or_zero (cb_union m ms i_dp_h s h);                                               (* 564-574 *)
     i_wp := fun s h i => rsum m (fun k => i_wp (ms k) s (bsub (cb_sizes ms) h k) i);                       (* 620-630 *)
     i_wp_s := fun s h i j => rsum m (fun k => i_wp_s (ms k) s (bsub (cb_sizes ms) h k) i j);               (* 632-643 *)
     i_wp_h := fun s h => or_zero (cb_union m ms i_wp_h s h);                                               (* 645-655 *)
     i_rate := fun s h x => let k := bblk (cb_sizes ms) m x in                                              (* 576-587 *)
       i_rate (ms k) s (bsub (cb_sizes ms) h k) (bpos (cb_sizes ms) m x);
     i_rate_s := fun s h x j => let k := bblk (cb_sizes ms) m x in                                          (* 589-602 *)
       i_rate_s (ms k) s (bsub (cb_sizes ms) h k) (bpos (cb_sizes ms) m x) j;
     i_rate_h := fun s h x y => let k := bblk (cb_sizes ms) m x in                                          (* 604-618, pairs of the same model *)
       if Nat.eqb (bblk (cb_sizes ms) m y) k
       then i_rate_h (ms k) s (bsub (cb_sizes ms) h k) (bpos (cb_sizes ms) m x) (bpos (cb_sizes ms) m y) else 0 |}.

(** *** StandardKinematicModel (src/cp/kinematics.cxx 51-300) *)

(** The quantities held constant during a step (decouple, 98-118). *)
Record cfix := { f_spin : vec; f_C : vec; f_S : vec }.

(** Symmetric(e * W - W * e) *)
(** src/cp/kinematics.cxx:115-130 (stress_rate) *)
Definition net (e w : vec) : vec := mk_symmetric (fun k => sym_skew e w k - skew_sym w e k).
(** Skew(e * d - d * e), where the product of two Symmetric objects is a Symmetric
    (src/math/tensors.cxx, operator*(Symmetric, Symmetric)), converted to RankTwo *)
(** src/cp/kinematics.cxx:246-261 (spin) *)
Definition sk_comm (e d : vec) : vec := mk_skew (usym (vsub (sym_dot e d) (sym_dot d e))).

Definition sk_spin (S : vec) (m : imodel) (s w h : vec) : vec :=                                            (* 246-262 *)
  let e := mv 6 (flat 6 S) s in
  vsub (vsub w (i_wp m s h)) (sk_comm e (i_dp m s h)).
Definition sk_decouple (C S : vec) (m : imodel) (s w h : vec) : cfix :=                                     (* 98-118 *)
  {| f_spin := sk_spin S m s w h; f_C := C; f_S := S |}.
(** src/cp/kinematics.cxx:115-130 (stress_rate) *)
Definition sk_e (f : cfix) (s : vec) : vec := mv 6 (flat 6 (f_S f)) s.
(** src/cp/kinematics.cxx:115-130 (stress_rate) *)
Definition sk_O (f : cfix) (m : imodel) (s h : vec) : vec := vadd (f_spin f) (i_wp m s h).
Definition sk_rate (f : cfix) (m : imodel) (s d h : vec) : vec :=                                           (* 120-137 *)
  mv 6 (flat 6 (f_C f)) (vsub (vsub d (i_dp m s h)) (net (sk_e f s) (sk_O f m s h))).
(** row-major storage of a matrix with n columns *)
(** src/cp/singlecrystal.cxx:359-429 (RJ): how blocks are copied into J *)
Definition rowmajor (n : nat) (A : mat) : vec := fun p => A (p / n)%nat (p mod n)%nat.
Definition sk_ds (f : cfix) (m : imodel) (s h : vec) : mat :=                                               (* 139-160 *)
  let D1 := i_dp_s m s h in
  let D2 := flat 6 (SymSymR4SkewmSkewSymR4SymR4 (f_S f) (sk_O f m s h)) in
  let D3 := flat 6 (SymSkewR4SymmSkewSymR4SymR4 (sk_e f s) (rowmajor 6 (i_wp_s m s h))) in
  mm 6 (fun i j => - flat 6 (f_C f) i j) (fun i j => D1 i j + D2 i j + D3 i j).
Definition sk_dd (f : cfix) : mat := flat 6 (f_C f).                                                        (* 162-169 *)
Definition sk_dw : mat := fun _ _ => 0.                                                                     (* 171-178 *)
Definition sk_dh (f : cfix) (m : imodel) (s h : vec) : mat := fun i x =>                                    (* 180-199 *)
  mv 6 (fun i j => - flat 6 (f_C f) i j)
    (fun k => i_dp_h m s h k x + net (sk_e f s) (fun l => i_wp_h m s h l x) k) i.
Definition sk_dw_decouple (f : cfix) (s : vec) : mat := fun i j =>                                          (* 235-244 *)
  -2 * flat 3 (SpecialSymSymR4Sym (sk_e f s) (f_C f)) i j.
Definition sk_estrain (S s : vec) : vec := mv 6 (flat 6 S) s.                                               (* 264-270 *)
Definition sk_increment (C d : vec) (dt : R) : vec := fun i => mv 6 (flat 6 C) d i * dt.                    (* 272-280 *)

(** Model of src/cp/batch.cxx, src/cp/polycrystal.cxx and src/cp/postprocessors.cxx.

    Arrays of doubles are functions of the position.  The single crystal update is a
    function of the arguments of SingleCrystalModel::update_ld_inc that returns None when a
    NEMLError is thrown (ScModel is one such).  The energy arguments u_n and p_n of the
    polycrystal's inner calls are zero, so [c_u] and [c_p] are increments. *)
From Verif Require Import Base.
From Verif Require Import NemlMathModel.
From Verif Require Import NemlMathSpec.
From Verif Require Import RotModel.
From Verif Require Import ScModel.
From Coq Require Import List Arith.
Import ListNotations.

(** a call of SingleCrystalModel::update_ld_inc, as made in src/cp/batch.cxx:11-47 *)
Record cin := { c_d1 : vec; c_d0 : vec; c_w1 : vec; c_w0 : vec; c_T1 : R; c_T0 : R; c_t1 : R; c_t0 : R;
  c_s0 : vec; c_h0 : vec; c_u0 : R; c_p0 : R }.
(** a call of SingleCrystalModel::update_ld_inc, as made in src/cp/batch.cxx:11-47 *)
Record cout := { c_s : vec; c_h : vec; c_A : vec; c_B : vec; c_u : R; c_p : R }.
(** a call of SingleCrystalModel::update_ld_inc, as made in src/cp/batch.cxx:11-47 *)
Definition cmodel := cin -> option cout.

(** &a[i*len] *)
(** a part of an array, as used in src/cp/batch.cxx:11-47 *)
Definition part (len i : nat) (a : vec) : vec := fun j => if Nat.ltb j len then a (i * len + j)%nat else 0.
(** writing len values there *)
(** a part of an array, as used in src/cp/batch.cxx:11-47 *)
Definition write (len i : nat) (v a : vec) : vec := fun p =>
  if andb (Nat.leb (i * len) p) (Nat.ltb p (i * len + len)) then v (p - i * len)%nat else a p.

(** The arrays evaluate_crystal_batch reads ... *)
(** src/cp/batch.cxx:11-47 (evaluate_crystal_batch): its arguments *)
Record bin := { b_d1 : vec; b_d0 : vec; b_w1 : vec; b_w0 : vec; b_T1 : vec; b_T0 : vec; b_t1 : R; b_t0 : R;
  b_s0 : vec; b_h0 : vec; b_u0 : vec; b_p0 : vec }.
(** ... and writes. *)
(** src/cp/batch.cxx:11-47 (evaluate_crystal_batch): its arguments *)
Record bout := { o_s : vec; o_h : vec; o_A : vec; o_B : vec; o_u : vec; o_p : vec }.

(** the arguments of crystal i (src/cp/batch.cxx 34-40) *)
Definition arg (nh : nat) (b : bin) (i : nat) : cin :=
  {| c_d1 := part 6 i (b_d1 b); c_d0 := part 6 i (b_d0 b); c_w1 := part 3 i (b_w1 b); c_w0 := part 3 i (b_w0 b);
     c_T1 := b_T1 b i; c_T0 := b_T0 b i; c_t1 := b_t1 b; c_t0 := b_t0 b;
     c_s0 := part 6 i (b_s0 b); c_h0 := part nh i (b_h0 b); c_u0 := b_u0 b i; c_p0 := b_p0 b i |}.
(** what crystal i writes *)
(** src/cp/batch.cxx:11-47 (evaluate_crystal_batch) *)
Definition put (nh : nat) (i : nat) (r : cout) (o : bout) : bout :=
  {| o_s := write 6 i (c_s r) (o_s o); o_h := write nh i (c_h r) (o_h o); o_A := write 36 i (c_A r) (o_A o); o_B := write 18 i (c_B r) (o_B o);
     o_u := write 1 i (fun _ => c_u r) (o_u o); o_p := write 1 i (fun _ => c_p r) (o_p o) |}.
(** One iteration of the loop, and the loop over the crystals in the order in which the threads
    happen to run them; the number of errors is reduced over the threads (src/cp/batch.cxx 22-49). *)
Definition batch_one (m : cmodel) (nh : nat) (b : bin) (st : bout * nat) (i : nat) : bout * nat :=
  match m (arg nh b i) with
  | Some r => (put nh i r (fst st), snd st)
  | None => (fst st, S (snd st))
  end.
(** src/cp/batch.cxx:11-47 (evaluate_crystal_batch) *)
Definition batch (m : cmodel) (nh : nat) (order : list nat) (b : bin) (o : bout) : option bout :=
  let st := fold_left (batch_one m nh b) order (o, O) in
  if Nat.ltb 0 (snd st) then None else Some (fst st).

(** init_history_batch, set/get_orientation_*_batch (src/cp/batch.cxx 49-93); the rotation is at
    place [rp] of a crystal's store, rotation0 follows. *)
Definition store_quat (rp : nat) (h : vec) : quat := Quat (h rp) (h (rp + 1)%nat) (h (rp + 2)%nat) (h (rp + 3)%nat).
(** the four numbers of an Orientation in the store, src/cp/batch.cxx:57-69 *)
Definition quat_vec (q : quat) : vec := fun k => match k with 0%nat => q0 q | 1%nat => q1 q | 2%nat => q2 q | _ => q3 q end.
(** the four numbers of an Orientation in the store, src/cp/batch.cxx:57-69 *)
Definition put_quat (rp : nat) (q : quat) (h : vec) : vec := fun p =>
  if andb (Nat.leb rp p) (Nat.ltb p (rp + 4)) then quat_vec q (p - rp)%nat
  else if andb (Nat.leb (rp + 4) p) (Nat.ltb p (rp + 8)) then quat_vec q (p - rp - 4)%nat else h p.
(** src/cp/batch.cxx:49-55 (init_history_batch) *)
Definition init_batch (nh n : nat) (h0 : vec) (hist : vec) : vec := fold_left (fun a i => write nh i h0 a) (seq 0 n) hist.
(** src/cp/batch.cxx:57-69 (set_orientation_passive_batch) *)
Definition set_passive_batch (nh rp n : nat) (qs : list quat) (hist : vec) : option vec :=
  if Nat.eqb (length qs) n then
    Some (fold_left (fun a i => write nh i (put_quat rp (oinv (nth i qs qdefault)) (part nh i a)) a) (seq 0 n) hist)
  else None.
(** src/cp/batch.cxx:83-93 (get_orientation_active_batch) *)
Definition get_active_batch (nh rp n : nat) (hist : vec) : list quat := map (fun i => store_quat rp (part nh i hist)) (seq 0 n).
(** src/cp/batch.cxx:71-81 (get_orientation_passive_batch) *)
Definition get_passive_batch (nh rp n : nat) (hist : vec) : list quat := map (fun i => oinv (store_quat rp (part nh i hist))) (seq 0 n).

(** *** PolycrystalModel *)

(** the constructor's weights (src/cp/polycrystal.cxx 9-31); None = std::runtime_error *)
Definition wsum (l : list R) : R := fold_right Rplus 0 l.
(** src/cp/polycrystal.cxx:9-31 (PolycrystalModel) *)
Definition poly_weights (n : nat) (ws : list R) : option (list R) :=
  let w := match ws with [] => Some (repeat 1 n) | _ => if Nat.eqb (length ws) n then Some ws else None end in
  match w with
  | None => None
  | Some w => if Req_EM_T (wsum w) 0 then None else Some (map (fun x => x / wsum w) w)
  end.
(** places in the store (src/cp/polycrystal.cxx 65-103) *)
(** src/cp/polycrystal.cxx:65-68 *)
Definition pl_h (nh n i : nat) : nat := (i * nh)%nat.
(** src/cp/polycrystal.cxx:70-73 *)
Definition pl_s (nh n i : nat) : nat := (n * nh + i * 6)%nat.
(** src/cp/polycrystal.cxx:75-78 *)
Definition pl_d (nh n i : nat) : nat := (n * (nh + 6) + i * 6)%nat.
(** src/cp/polycrystal.cxx:80-83 *)
Definition pl_w (nh n i : nat) : nat := (n * (nh + 6 + 6) + i * 3)%nat.
(** a pointer into the store, src/cp/polycrystal.cxx:65-83 *)
Definition at_ (o : nat) (a : vec) : vec := fun j => a (o + j)%nat.
(** populate_hist (38-48): blocks in order; the sizes *)
Definition poly_layout (nh n : nat) : list nat := repeat nh n ++ repeat 6%nat n ++ repeat 6%nat n ++ repeat 3%nat n.
(** init_hist (50-63): [h0] is a crystal's initial store *)
Definition poly_init (nh rp n : nat) (h0 : vec) (qs : list quat) : vec := fun p =>
  if Nat.ltb p (n * nh) then put_quat rp (nth (p / nh) qs qdefault) h0 (p mod nh)%nat else 0.

(** *** TaylorModel::update_ld_inc (src/cp/polycrystal.cxx 152-217).  The crystals are run in the
    given order.  w are the normalised weights. *)
Record tout := { t_s : vec; t_h : vec; t_A : vec; t_B : vec; t_u : R; t_p : R }.
(** src/cp/polycrystal.cxx:152-217 (update_ld_inc) *)
Definition taylor (m : cmodel) (nh n : nat) (w : list R) (order : list nat)
    (d1 w1 : vec) (T1 T0 t1 t0 : R) (h : vec) (u0 p0 : R) : option tout :=
  let b := {| b_d1 := fun p => d1 (p mod 6)%nat; b_d0 := at_ (pl_d nh n 0) h; b_w1 := fun p => w1 (p mod 3)%nat; b_w0 := at_ (pl_w nh n 0) h;
     b_T1 := fun _ => T1; b_T0 := fun _ => T0; b_t1 := t1; b_t0 := t0; b_s0 := at_ (pl_s nh n 0) h; b_h0 := at_ (pl_h nh n 0) h;
     b_u0 := vzero; b_p0 := vzero |} in
  match batch m nh order b {| o_s := vzero; o_h := vzero; o_A := vzero; o_B := vzero; o_u := vzero; o_p := vzero |} with
  | None => None
  | Some o =>
    let avg (len : nat) (a : vec) : vec := fun j => rsum n (fun i => nth i w 0 * a (i * len + j)%nat) in
    Some {| t_s := avg 6%nat (o_s o);
      t_h := fun p => if Nat.ltb p (n * nh) then o_h o p
        else if Nat.ltb p (n * (nh + 6)) then o_s o (p - n * nh)%nat
        else if Nat.ltb p (n * (nh + 6 + 6)) then d1 ((p - n * (nh + 6)) mod 6)%nat
        else w1 ((p - n * (nh + 6 + 6)) mod 3)%nat;
      t_A := avg 36%nat (o_A o); t_B := avg 18%nat (o_B o);
      t_u := avg 1%nat (o_u o) 0%nat + u0; t_p := avg 1%nat (o_p o) 0%nat + p0 |}
  end.
(** TaylorModel::elastic_strains (224-236): the inner loop runs to n instead of 6.  None = the array
    of six values is overrun. *)
Definition taylor_estrain (es : nat -> vec) (n : nat) (w : list R) : option vec :=
  if Nat.leb n 6 then Some (fun j => if Nat.ltb j n then rsum n (fun i => nth i w 0 * es i j) else 0) else None.

(** *** PTRTwinReorientation (src/cp/postprocessors.cxx 68-124) *)
(** one system: twin or not, characteristic shear, reorientation *)
Record psys := { p_twin : bool; p_shear : R; p_turn : quat }.
(** src/cp/postprocessors.cxx:40-52 (populate_hist) *)
Record pstate := { p_slip : vec; p_frac : vec; p_twinned : R; p_rot : quat; p_rot0 : quat }.
(** assignment to an entry; no code of its own *)
Definition upd (f : vec) (j : nat) (x : R) : vec := fun i => if Nat.eqb i j then x else f i.
(** src/cp/postprocessors.cxx:68-124 (act): the loop over the systems *)
Fixpoint ptr_scan (thr : R) (j : nat) (ss : list psys) (st : pstate) : pstate :=
  match ss with
  | [] => st
  | s :: ss =>
    let st' := if p_twin s then
        let f := p_slip st j / p_shear s in
        let st1 := {| p_slip := p_slip st; p_frac := upd (p_frac st) j f; p_twinned := p_twinned st; p_rot := p_rot st; p_rot0 := p_rot0 st |} in
        if Rlt_dec thr f then
          if Rlt_dec (p_twinned st) (1 / 2) then
            let q := qmul (p_turn s) (p_rot st) in
            {| p_slip := p_slip st1; p_frac := p_frac st1; p_twinned := 1; p_rot := q; p_rot0 := q |}
          else st1
        else st1
      else st in
    ptr_scan thr (S j) ss st'
  end.
(** src/cp/postprocessors.cxx:68-124 (act): the loops that set the fractions *)
Fixpoint ptr_clear (j : nat) (ss : list psys) (f : vec) : vec :=
  match ss with
  | [] => f
  | s :: ss => ptr_clear (S j) ss (if p_twin s then upd f j 0 else f)
  end.
(** src/cp/postprocessors.cxx:68-124 (act): the loops that set the fractions *)
Fixpoint ptr_copy (j : nat) (ss : list psys) (prev f : vec) : vec :=
  match ss with
  | [] => f
  | s :: ss => ptr_copy (S j) ss prev (if p_twin s then upd f j (prev j) else f)
  end.
(** src/cp/postprocessors.cxx:68-124 (act) *)
Definition ptr_act (thr : R) (ss : list psys) (st prev : pstate) : pstate :=
  if Rlt_dec (p_twinned prev) (1 / 2) then
    let st1 := ptr_scan thr 0 ss {| p_slip := p_slip st; p_frac := p_frac st; p_twinned := p_twinned prev; p_rot := p_rot st; p_rot0 := p_rot0 st |} in
    if Rlt_dec (1 / 2) (p_twinned st1) then
      {| p_slip := ptr_clear 0 ss (p_slip st1); p_frac := p_frac st1; p_twinned := 0; p_rot := p_rot st1; p_rot0 := p_rot0 st1 |}
    else st1
  else {| p_slip := p_slip st; p_frac := ptr_copy 0 ss (p_frac prev) (p_frac st); p_twinned := p_twinned prev; p_rot := p_rot st; p_rot0 := p_rot0 st |}.

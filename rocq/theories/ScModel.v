(** Model of src/cp/singlecrystal.cxx with the StandardKinematicModel.

    Conventions.
    - A crystal gives, at a temperature and an orientation, its elasticity
      tensors and its inelastic model (the fixed multiphysics variables F_n do not
      change in a call).
    - invert_mat is an oracle [inv n J] (None = LinalgError), the Newton solver is
      that of SolverModel with the linear solver as oracle.
    - SymSkewR4() is taken as zero although its storage is not set by the code
      (src/math/tensors.cxx 1504-1507); it enters only B through d_stress_rate_d_w.
    - Not modelled: verbose output, the copy of the lattice, post-processors. *)
From Verif Require Import Base.
From Verif Require Import NemlMathModel.
From Verif Require Import NemlMathSpec.
From Verif Require Import SolverModel.
From Verif Require Import RotModel.
From Verif Require Import TensorModel.
From Verif Require Import CpModel.
From Coq Require Import List ZArith.

(** src/cp/singlecrystal.cxx:5-26 (SingleCrystalModel) *)
Record crystal := { c_n : nat;                       (* nstate() *)
  c_C : R -> quat -> vec; c_S : R -> quat -> vec;    (* emodel->C, emodel->S *)
  c_im : R -> quat -> imodel }.

(** SCTrialState (include/cp/singlecrystal.h 22-45) *)
Record trial := { t_d : vec; t_w : vec; t_S : vec; t_Sn : vec; t_h : vec; t_Q : quat; t_T : R; t_dt : R; t_f : cfix }.
(** the inelastic model at the temperature and orientation of a trial state, src/cp/singlecrystal.cxx:359-429 *)
Definition t_im (c : crystal) (ts : trial) : imodel := c_im c (t_T ts) (t_Q ts).

(** the history part of the unknowns, src/cp/singlecrystal.cxx:359-429 *)
Definition tail6 (x : vec) : vec := fun q => x (6 + q)%nat.
(** init_x (352-357) *)
Definition sc_init (ts : trial) : vec := fun i => if Nat.ltb i 6 then t_S ts i else t_h ts (i - 6)%nat.
(** RJ (359-429) *)
Definition sc_R (c : crystal) (ts : trial) (x : vec) : vec := fun i =>
  if Nat.ltb i 6 then x i - t_Sn ts i - sk_rate (t_f ts) (t_im c ts) x (t_d ts) (tail6 x) i * t_dt ts
  else x i - t_h ts (i - 6)%nat - i_rate (t_im c ts) x (tail6 x) (i - 6)%nat * t_dt ts.
(** src/cp/singlecrystal.cxx:359-429 (RJ) *)
Definition sc_J (c : crystal) (ts : trial) (x : vec) : mat := fun i j =>
  (if Nat.ltb i 6 then
     if Nat.ltb j 6 then - sk_ds (t_f ts) (t_im c ts) x (tail6 x) i j * t_dt ts
     else - sk_dh (t_f ts) (t_im c ts) x (tail6 x) i (j - 6)%nat * t_dt ts
   else
     if Nat.ltb j 6 then - i_rate_s (t_im c ts) x (tail6 x) (i - 6)%nat j * t_dt ts
     else - i_rate_h (t_im c ts) x (tail6 x) (i - 6)%nat (j - 6)%nat * t_dt ts)
  + delta i j.

(** calc_tangents_ (506-683).  d_history_rate_d_d and d_history_rate_d_w are zero. *)
Definition sc_tangents (inv : nat -> mat -> option mat) (c : crystal) (ts : trial) (x : vec) : option (mat * mat) :=
  let n := c_n c in
  let J := sc_J c ts x in
  let sd := sk_dd (t_f ts) in
  let sw := fun i j => sk_dw i j + sk_dw_decouple (t_f ts) x i j in
  match n with
  | O => match inv 6%nat J with                                                               (* 652-682 *)
    | Some K => Some (mm 6 K sd, mm 6 K sw) | None => None end
  | S _ =>
    match inv n (fun i j => J (6 + i)%nat (6 + j)%nat) with
    | None => None
    | Some K22 =>
      let M1 := mm n (fun i j => J i (6 + j)%nat) K22 in
      let M2 := mm n M1 (fun i j => J (6 + i)%nat j) in
      match inv 6%nat (fun i j => J i j - M2 i j) with
      | None => None
      | Some K =>
        let hd := fun _ _ => 0 in
        Some (mm 6 K (fun i j => sd i j - mm n M1 hd i j), mm 6 K (fun i j => sw i j - mm n M1 hd i j))
      end
    end
  end.

(** update_rot_ (685-691) *)
Definition sc_spin (c : crystal) (ts : trial) (s h : vec) : vec := sk_spin (c_S c (t_T ts) (t_Q ts)) (t_im c ts) s (t_w ts) h.
(** src/cp/singlecrystal.cxx:685-691 (update_rot_) *)
Definition sc_rot (c : crystal) (ts : trial) (s h : vec) : quat :=
  qmul (wexp (fun k => sc_spin c ts s h k * t_dt ts)) (t_Q ts).

(** calc_energy_inc_ (693-698), calc_work_inc_ (700-716) *)
Definition sc_energy (d1 d0 s1 s0 : vec) : R := sym_contract (vsub s1 s0) (vsub d1 d0) / 2.
(** src/cp/singlecrystal.cxx:332-345 (elastic_strains) *)
Definition sc_estrain (c : crystal) (T : R) (q : quat) (s : vec) : vec := sk_estrain (c_S c T q) s.
(** src/cp/singlecrystal.cxx:700-716 (calc_work_inc_) *)
Definition sc_work (c : crystal) (d1 d0 s1 s0 : vec) (T1 T0 : R) (Q1 Q0 : quat) : R :=
  sc_energy d1 d0 s1 s0 - sym_contract (vsub s1 s0) (vsub (sc_estrain c T1 Q1 s1) (sc_estrain c T0 Q0 s0)) / 2.

(** The options of the constructor. *)
(** src/cp/singlecrystal.cxx:5-26 (SingleCrystalModel): options *)
Record scopt := { so_prm : sparams; so_max : nat; so_force : nat;
  so_pred : bool; so_fallback : bool; so_first : bool; so_rot : bool }.
(** One call's data. *)
(** src/cp/singlecrystal.cxx:125-175 (update_ld_inc): its arguments *)
Record call := { k_d1 : vec; k_d0 : vec; k_w1 : vec; k_w0 : vec; k_T1 : R; k_T0 : R; k_t1 : R; k_t0 : R;
  k_s : vec; k_h : vec; k_q : quat; k_u : R; k_p : R }.
(** src/cp/singlecrystal.cxx:125-175 (update_ld_inc): its arguments *)
Definition k_dt (k : call) : R := k_t1 k - k_t0 k.
(** D and W (197-205) *)
Definition k_D (k : call) : vec := if Req_EM_T (k_dt k) 0 then vzero else fun i => (k_d1 k i - k_d0 k i) / k_dt k.
(** src/cp/singlecrystal.cxx:197-205 *)
Definition k_W (k : call) : vec := if Req_EM_T (k_dt k) 0 then vzero else fun i => (k_w1 k i - k_w0 k i) / k_dt k.

(** The trial state of a substep from (s,h) (236-260). *)
Definition sub_trial (c : crystal) (k : call) (pred : bool) (sd : nat) (s h : vec) : trial :=
  let step := / 2 ^ sd in
  let T := k_T0 k + (k_T1 k - k_T0 k) * step in
  let C := c_C c T (k_q k) in let S := c_S c T (k_q k) in let m := c_im c T (k_q k) in
  {| t_d := k_D k; t_w := k_W k;
     t_S := if pred then vadd (k_s k) (sk_increment C (k_D k) (k_dt k * step)) else k_s k;
     t_Sn := k_s k; t_h := h; t_Q := k_q k; t_T := T; t_dt := k_dt k * step;
     t_f := sk_decouple C S m s (k_W k) h |}.

(** The state of the loop: out is what the last substep leaves in A, B and the rotation. *)
(** what a substep leaves, src/cp/singlecrystal.cxx:224-306 *)
Definition final := (mat * mat * quat)%type.
(** solve_substep_ (718-729) *)
Definition sub_solve (lsolve : mat -> vec -> option vec) (c : crystal) (o : scopt) (ts : trial) : option vec :=
  match newton (vec_sys (6 + c_n c) (sc_init ts) (fun x => Some (sc_R c ts x, sc_J c ts x)) lsolve) (so_prm o) with
  | Ok (x, _, _) => Some x
  | Throw _ => None
  end.
(** The loop (224-306).  The result is None when the fuel runs out, Some None when a
    NEMLError leaves the function. *)
Fixpoint sub_loop (fuel : nat) (lsolve : mat -> vec -> option vec) (inv : nat -> mat -> option mat)
    (c : crystal) (o : scopt) (k : call) (pred : bool) (progress cur sd : nat) (s h : vec) (out : option final)
    : option (option (vec * vec * option final)) :=
  match fuel with
  | O => None
  | S fuel =>
    let target := (2 ^ so_max o)%nat in
    if Nat.ltb progress target then
      let ts := sub_trial c k pred sd s h in
      match sub_solve lsolve c o ts with
      | None =>
        if Nat.leb (so_max o) (sd + 1) then Some None
        else sub_loop fuel lsolve inv c o k pred progress (cur / 2) (sd + 1) s h out
      | Some x =>
        let p := (progress + cur)%nat in
        if Nat.eqb p target then
          match sc_tangents inv c ts x with
          | None => Some None
          | Some (A, B) =>
            let q := if so_rot o then sc_rot c ts x (tail6 x) else k_q k in
            sub_loop fuel lsolve inv c o k pred p cur sd x (tail6 x) (Some (A, B, q))
          end
        else sub_loop fuel lsolve inv c o k pred p cur sd x (tail6 x) out
      end
    else Some (Some (s, h, out))
  end.

(** What a call writes.  The history was filled with zeros first, and the copies of
    rotation0 and nye are commented out, so these stay zero (189, 309-312). *)
Record scout := { r_s : vec; r_h : vec; r_AB : option (mat * mat); r_q : quat; r_q0 : quat; r_u : R; r_p : R }.
(** a filler before the first substep; no code of its own *)
Definition qzero : quat := Quat 0 0 0 0.
(** (int) pow(2, max_divide - force_divide) *)
(** src/cp/singlecrystal.cxx:177-325 (attempt_update_ld_inc_): the first increment *)
Definition first_inc (o : scopt) : nat := if Nat.leb (so_force o) (so_max o) then (2 ^ (so_max o - so_force o))%nat else O.
(** attempt_update_ld_inc_ (177-325) *)
Definition attempt (fuel : nat) (lsolve : mat -> vec -> option vec) (inv : nat -> mat -> option mat)
    (c : crystal) (o : scopt) (k : call) (pred : bool) : option (option scout) :=
  match sub_loop fuel lsolve inv c o k pred 0 (first_inc o) (so_force o) (k_s k) (k_h k) None with
  | None => None
  | Some None => Some None
  | Some (Some (s, h, out)) =>
    let q := match out with Some (_, _, q) => q | None => qzero end in
    Some (Some {| r_s := s; r_h := h; r_AB := match out with Some (A, B, _) => Some (A, B) | None => None end;
      r_q := q; r_q0 := qzero;
      r_u := k_u k + sc_energy (k_d1 k) (k_d0 k) s (k_s k);
      r_p := k_p k + sc_work c (k_d1 k) (k_d0 k) s (k_s k) (k_T1 k) (k_T0 k) q (k_q k) |})
  end.
(** update_ld_inc (125-175) *)
Definition sc_update (fuel : nat) (lsolve : mat -> vec -> option vec) (inv : nat -> mat -> option mat)
    (c : crystal) (o : scopt) (k : call) : option (option scout) :=
  if andb (if Req_EM_T (k_t0 k) 0 then true else false) (so_first o) then attempt fuel lsolve inv c o k true
  else if so_pred o then attempt fuel lsolve inv c o k true
  else match attempt fuel lsolve inv c o k false with
       | Some None => if so_fallback o then attempt fuel lsolve inv c o k true else Some None
       | r => r
       end.

(** Fe (107-123): inverse of (I + e) R, with [inv9] the inversion of a full tensor. *)
Definition sc_Fe (inv9 : vec -> option vec) (c : crystal) (T : R) (s : vec) (Q Q0 : quat) : option vec :=
  let Re := qmul Q (oinv Q0) in
  inv9 (mul_2 (usym (fun i => (if Nat.ltb i 3 then 1 else 0) + sc_estrain c T Q s i)) (to_matrix Re)).

(** get/set orientations (431-490) on the pair (rotation, rotation0) *)
Definition get_active (r : quat * quat) : quat := fst r.
(** src/cp/singlecrystal.cxx:445-457 *)
Definition get_passive (r : quat * quat) : quat := oinv (get_active r).
(** src/cp/singlecrystal.cxx:459-476 *)
Definition set_active (r : quat * quat) (q : quat) : quat * quat := (q, q).
(** src/cp/singlecrystal.cxx:478-490 *)
Definition set_passive (r : quat * quat) (q : quat) : quat * quat := set_active r (oinv q).

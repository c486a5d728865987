(** Model of the Nye tensor in the store of a single crystal: src/cp/singlecrystal.cxx
    (store, updates, update_nye, strength) and the use_nye functions of
    src/cp/inelasticity.cxx, sliprules.cxx and slipharden.cxx.

    Simplified: no post-processors (their variables come after the tensor; C70 has
    them), a failing update ends the run. *)
From Coq Require Import List Arith.
From Verif Require Import Base.
From Verif Require Import RotModel TensorModel CpModel SlipModel ScModel.
Import ListNotations.

(** one single strength law: VoceSlipHardening (k), LinearSlipHardening (k2), or one
    without a Nye part, src/cp/slipharden.cxx:1360-1376, 1623-1769 *)
Inductive slaw := SVoce (k : R -> R) | SLinear (k2 : R -> R) | SPlain.
(** src/cp/slipharden.cxx:53-56, 1685-1699, 1761-1764 (use_nye) *)
Definition slaw_use (s : slaw) : bool := match s with SVoce k => voce_use_nye k | SLinear _ => true | SPlain => false end.
(** src/cp/slipharden.cxx:1360-1371 (nye_contribution), 1701-1704, 1766-1769 (nye_part) *)
Definition slaw_nye (s : slaw) (T : R) (nye : option vec) : R :=
  match s with SVoce k => voce_nye k T nye | SLinear k2 => linear_nye k2 T nye | SPlain => 0 end.
(** a hardening model: its strength of a system without Nye parts, and the single
    strength laws it sums (one, several or none), src/cp/slipharden.cxx:1337-1344, 1514-1525 *)
Record harden := { hd_tau : vec -> R -> nat -> R; hd_parts : list slaw }.
(** src/cp/slipharden.cxx:1543-1549 (use_nye of the sum) *)
Definition harden_use (h : harden) : bool := existsb slaw_use (hd_parts h).
(** hist_to_tau: src/cp/slipharden.cxx:1337-1344, 1514-1525 *)
Definition harden_tau (h : harden) (st : vec) (T : R) (nye : option vec) (p : nat) : R :=
  hd_tau h st T p + fold_right Rplus 0 (map (fun s => slaw_nye s T nye) (hd_parts h)).
(** inelastic models: src/cp/inelasticity.cxx:18-60, 182-186, 335-377, 527-537; [IAsaro n hs]: n slip systems *)
Inductive inel := IAsaro (n : nat) (hs : list harden) | INone | IPower (A n : R -> R) | IComb (l : list inel).
(** src/cp/inelasticity.cxx:13-16, 330-333, 655-661; src/cp/sliprules.cxx:247-253 (use_nye) *)
Fixpoint inel_use (m : inel) : bool :=
  match m with
  | IAsaro _ hs => existsb harden_use hs
  | INone | IPower _ _ => false
  | IComb l => (fix any (l : list inel) : bool := match l with [] => false | x :: r => if inel_use x then true else any r end) l
  end.
(** src/cp/sliprules.cxx:104-120 (strength) *)
Definition rule_strength (n : nat) (hs : list harden) (st : vec) (T : R) (nye : option vec) : R :=
  fold_right Rplus 0 (map (fun h => rsum n (harden_tau h st T nye)) hs) / fold_right Rplus 0 (map (fun _ => rsum n (fun _ => 1)) hs).
(** src/cp/inelasticity.cxx:56-60, 182-186, 372-377, 527-537 (strength) *)
Fixpoint inel_strength (m : inel) (st : vec) (T : R) (nye : option vec) : R :=
  match m with
  | IAsaro n hs => rule_strength n hs st T nye
  | INone => 0
  | IPower A n => Rpower (A T) (- 1 / n T)
  | IComb l => (fix largest (l : list inel) (a : R) : R :=
      match l with [] => a | x :: r => let s := inel_strength x st T nye in largest r (if Rlt_dec a s then s else a) end) l 0
  end.

(** a single crystal: the inelastic model, and the crystal as it behaves with a Nye
    tensor among the fixed variables (None: none stored), src/cp/kinematics.cxx:95-113 *)
Record single := { sg_inel : inel; sg_at : option vec -> crystal }.
(** src/cp/singlecrystal.cxx:492-495 *)
Definition sg_use (m : single) : bool := inel_use (sg_inel m).
(** src/cp/singlecrystal.cxx:69-80 (populate_static): rotation, rotation0, nye *)
Definition n_static (use : bool) : nat := if use then 17%nat else 8%nat.
(** the four numbers of an orientation, quat(), src/math/rotations.cxx:89-92 *)
Definition qnth (q : quat) (i : nat) : R := match i with 0%nat => q0 q | 1%nat => q1 q | 2%nat => q2 q | _ => q3 q end.
(** the store as an array, src/cp/singlecrystal.cxx:64-98 *)
Definition pack (use : bool) (q r : quat) (nye h : vec) : vec := fun i =>
  if Nat.ltb i 4 then qnth q i else if Nat.ltb i 8 then qnth r (i - 4)
  else if andb use (Nat.ltb i 17) then nye (i - 8)%nat else h (i - n_static use)%nat.
(** gather_history_ and get, include/history.h:120-127; src/cp/singlecrystal.cxx:207-219 *)
Definition get_q (hist : vec) (off : nat) : quat := Quat (hist off) (hist (off + 1)%nat) (hist (off + 2)%nat) (hist (off + 3)%nat).
(** the fixed variables: split_state, src/models.cxx:66-72 *)
Definition get_nye (use : bool) (hist : vec) : option vec := if use then Some (fun i => if Nat.ltb i 9 then hist (8 + i)%nat else 0) else None.
(** the state: split_state, src/models.cxx:66-72 *)
Definition get_state (use : bool) (hist : vec) : vec := fun i => hist (n_static use + i)%nat.
(** src/cp/singlecrystal.cxx:497-504 (update_nye) *)
Definition update_nye (use : bool) (hist a : vec) : vec :=
  if use then fun i => if andb (Nat.leb 8 i) (Nat.ltb i 17) then a (i - 8)%nat else hist i else hist.
(** src/cp/singlecrystal.cxx:459-476 (set_active_orientation) *)
Definition store_active (hist : vec) (q : quat) : vec := fun i =>
  if Nat.ltb i 4 then qnth q i else if Nat.ltb i 8 then qnth q (i - 4) else hist i.
(** src/cp/singlecrystal.cxx:82-98 (init_state, init_static) *)
Definition init_store (use : bool) (q : quat) (h : vec) : vec := pack use q q vzero h.
(** src/cp/singlecrystal.cxx:100-105 (strength) *)
Definition sg_strength (m : single) (hist : vec) (T : R) : R :=
  inel_strength (sg_inel m) (get_state (sg_use m) hist) T (get_nye (sg_use m) hist).

(** what a caller of update_ld_inc carries from step to step, src/cp/singlecrystal.cxx:125-135 *)
Record point := { pt_hist : vec; pt_s : vec; pt_d : vec; pt_w : vec; pt_T : R; pt_t : R; pt_u : R; pt_p : R }.
(** the end of a step, src/cp/singlecrystal.cxx:125-135: d_np1, w_np1, T_np1, t_np1 *)
Record nload := { nl_d : vec; nl_w : vec; nl_T : R; nl_t : R }.
(** what a user does between and with steps: src/cp/singlecrystal.cxx:125-175, 459-476, 497-504 *)
Inductive nop := ONye (a : vec) | OActive (q : quat) | OStep (l : nload).
(** src/cp/singlecrystal.cxx:125-135: the arguments *)
Definition mk_call (s d w : vec) (T t u p : R) (h : vec) (q : quat) (l : nload) : call :=
  {| k_d1 := nl_d l; k_d0 := d; k_w1 := nl_w l; k_w0 := w; k_T1 := nl_T l; k_T0 := T; k_t1 := nl_t l; k_t0 := t;
     k_s := s; k_h := h; k_q := q; k_u := u; k_p := p |}.
(** update_ld_inc on the array: src/cp/singlecrystal.cxx:125-325; the new array was
    filled with zeros (189) and the copy of the tensor is commented out (309-312) *)
Definition nstep (fuel : nat) (lsolve : mat -> vec -> option vec) (inv : nat -> mat -> option mat) (m : single) (o : scopt) (x : point) (l : nload) : option point :=
  let use := sg_use m in
  match sc_update fuel lsolve inv (sg_at m (get_nye use (pt_hist x))) o
      (mk_call (pt_s x) (pt_d x) (pt_w x) (pt_T x) (pt_t x) (pt_u x) (pt_p x) (get_state use (pt_hist x)) (get_q (pt_hist x) 0) l) with
  | Some (Some r) => Some {| pt_hist := pack use (r_q r) (r_q0 r) vzero (r_h r); pt_s := r_s r; pt_d := nl_d l; pt_w := nl_w l; pt_T := nl_T l; pt_t := nl_t l; pt_u := r_u r; pt_p := r_p r |}
  | _ => None
  end.
(** the same point with another array; no code of its own *)
Definition with_hist (x : point) (h : vec) : point :=
  {| pt_hist := h; pt_s := pt_s x; pt_d := pt_d x; pt_w := pt_w x; pt_T := pt_T x; pt_t := pt_t x; pt_u := pt_u x; pt_p := pt_p x |}.
(** a user's program: calls of update_nye, set_active_orientation and update_ld_inc,
    src/cp/singlecrystal.cxx:125-135, 459-476, 497-504 *)
Fixpoint nrun (fuel : nat) (lsolve : mat -> vec -> option vec) (inv : nat -> mat -> option mat) (m : single) (o : scopt) (ops : list nop) (x : point) : option point :=
  match ops with
  | [] => Some x
  | ONye a :: r => nrun fuel lsolve inv m o r (with_hist x (update_nye (sg_use m) (pt_hist x) a))
  | OActive q :: r => nrun fuel lsolve inv m o r (with_hist x (store_active (pt_hist x) q))
  | OStep l :: r => match nstep fuel lsolve inv m o x l with Some y => nrun fuel lsolve inv m o r y | None => None end
  end.

(** Model of the axisymmetric vessel of neml/axisym.py. *)
From Verif Require Import Base.
From Verif Require Import SolverModel SubstepModel CreepModel NlModel UniModel BarModel.
From Coq Require Import ZArith List Arith.
Import ListNotations.

(** the object, neml/axisym.py:431-494: ne elements between the nodes of the mesh, their materials, the
    Gauss points and weights of an element (numpy's leggauss), the temperature, the pressures, the
    radii and the thickness *)
Record axi := { ax_ne : nat; ax_mesh : vec; ax_mat : nat -> pymodel; ax_gp : list (R * R); ax_T : R -> R -> R; ax_p : R -> R; ax_pext : R -> R;
  ax_con : bool; ax_ri : R; ax_ro : R; ax_t : R }.
(** what is kept for a Gauss point *)
(** neml/axisym.py:452-504 (__init__): the lists kept *)
Record gp := { gp_strain : vec; gp_tstrain : vec; gp_mstrain : vec; gp_estrain : vec; gp_stress : vec; gp_hist : vec }.
(** one entry of all the lists of the object *)
(** neml/axisym.py:452-504 (__init__): the lists kept *)
Record axs := { as_time : R; as_press : R; as_ext : R; as_temp : vec; as_disp : vec; as_ez : R; as_pts : list (list gp) }.
(** neml/axisym.py:252-254, 466-490 the first entry *)
Definition gp_init (M : pymodel) : gp := {| gp_strain := fun _ => 0; gp_tstrain := fun _ => 0; gp_mstrain := fun _ => 0; gp_estrain := fun _ => 0; gp_stress := fun _ => 0; gp_hist := ba_init (pm_base M) |}.
(** neml/axisym.py:452-504 (__init__) *)
Definition axi_init (a : axi) : axs :=
  {| as_time := 0; as_press := ax_p a 0; as_ext := ax_pext a 0; as_temp := fun k => ax_T a (ax_mesh a k) 0; as_disp := fun _ => 0; as_ez := 0;
     as_pts := map (fun e => map (fun _ => gp_init (ax_mat a e)) (ax_gp a)) (seq 0 (ax_ne a)) |}.

(** 492-494: shape functions, the radius of a Gauss point, the length of an element *)
Definition Nl (xi : R) (v : vec) (e : nat) : R := (1 - xi) / 2 * v e + (1 + xi) / 2 * v (S e).
(** neml/axisym.py:669-683 (strain): radius of a Gauss point and length of an element *)
Definition rad (a : axi) (e : nat) (xi : R) : R := Nl xi (ax_mesh a) e.
(** neml/axisym.py:669-683 (strain): radius of a Gauss point and length of an element *)
Definition len (a : axi) (e : nat) : R := ax_mesh a (S e) - ax_mesh a e.
(** 647-661 strain *)
Definition axi_strain (a : axi) (d : vec) (ez : R) (e : nat) (xi : R) : vec := fun k =>
  if Nat.eqb k 0 then (-1 / 2 * d e + 1 / 2 * d (S e)) * 2 / len a e else if Nat.eqb k 1 then Nl xi d e / rad a e xi else if Nat.eqb k 2 then ez else 0.
(** np.array([1,1,1,0,0,0]) *)
(** neml/axisym.py:685-781 (RJ) *)
Definition ones3 : vec := fun k => if Nat.ltb k 3 then 1 else 0.
(** 707-745 one Gauss point: temperatures at the point, thermal increment, material update (None: it
    raised) *)
Definition axi_pt (a : axi) (old : axs) (T d : vec) (ez t : R) (e : nat) (xi : R) (q : gp) : option (gp * mat) :=
  let M := ax_mat a e in
  let T_e := Nl xi T e in
  let T_n := Nl xi (as_temp old) e in
  let strain := axi_strain a d ez e xi in
  let tstrain := fun k => gp_tstrain q k + pm_alpha M T_e * (T_e - T_n) * ones3 k in
  let mstrain := fun k => strain k - tstrain k in
  match upd M mstrain (gp_mstrain q) T_e T_n t (as_time old) (gp_stress q) (gp_hist q) 0 0 with
  | None => None
  | Some r => Some ({| gp_strain := strain; gp_tstrain := tstrain; gp_mstrain := mstrain; gp_estrain := pm_estrain M (pr_s r) T_e (pr_h r);
      gp_stress := pr_s r; gp_hist := pr_h r |}, pr_A r)
  end.
(** the sums Fint, A11_du, A11_d, A11_dl, A12, A21 and A22; the last entry of Fint (index nnodes) is the
    axial one *)
Record asm := { a_F : vec; a_du : vec; a_d : vec; a_dl : vec; a_12 : vec; a_21 : vec; a_22 : R }.
(** neml/axisym.py:685-781 (RJ) *)
Definition asm0 : asm := {| a_F := fun _ => 0; a_du := fun _ => 0; a_d := fun _ => 0; a_dl := fun _ => 0; a_12 := fun _ => 0; a_21 := fun _ => 0; a_22 := 0 |}.
(** Bl[i] * 2 / l and Nl[i] / r, for the node k = 0 or 1 of the element *)
(** neml/axisym.py:685-781 (RJ) *)
Definition Bk (l : R) (k : nat) : R := (if Nat.eqb k 0 then -1 / 2 else 1 / 2) * 2 / l.
(** neml/axisym.py:685-781 (RJ) *)
Definition Nk (xi r : R) (k : nat) : R := (if Nat.eqb k 0 then (1 - xi) / 2 else (1 + xi) / 2) / r.
(** 747-774 the terms of one Gauss point *)
Definition asm_pt (a : axi) (e : nat) (xi w : R) (s : vec) (A : mat) (acc : asm) : asm :=
  let l := len a e in let r := rad a e xi in
  let F k := w * (s 0%nat * Bk l k + (s 1%nat - s 0%nat) * Nk xi r k) * l / 2 in
  let DE c k := if Nat.eqb c 0 then Bk l k else Nk xi r k in
  let J11 k m := (Bk l k * (A 0%nat 0%nat * DE 0%nat m + A 0%nat 1%nat * DE 1%nat m)
    + Nk xi r k * ((A 1%nat 0%nat - A 0%nat 0%nat) * DE 0%nat m + (A 1%nat 1%nat - A 0%nat 1%nat) * DE 1%nat m)) * w * l / 2 in
  let J12 k := (A 0%nat 2%nat * Bk l k + (A 1%nat 2%nat - A 0%nat 2%nat) * Nk xi r k) * w * l / 2 in
  let J21 m := (A 2%nat 0%nat * DE 0%nat m + A 2%nat 1%nat * DE 1%nat m) / ax_t a * w * l / 2 in
  let J22 := A 2%nat 2%nat / ax_t a * w * l / 2 in
  {| a_F := vadd_at (vadd_at (vadd_at (a_F acc) e (F 0%nat)) (S e) (F 1%nat)) (S (ax_ne a)) (w * s 2%nat * l / 2 / ax_t a);
     a_du := vadd_at (a_du acc) e (J11 0%nat 1%nat);
     a_d := vadd_at (vadd_at (a_d acc) e (J11 0%nat 0%nat)) (S e) (J11 1%nat 1%nat);
     a_dl := vadd_at (a_dl acc) e (J11 1%nat 0%nat);
     a_12 := vadd_at (vadd_at (a_12 acc) e (J12 0%nat)) (S e) (J12 1%nat);
     a_21 := vadd_at (vadd_at (a_21 acc) e (J21 0%nat)) (S e) (J21 1%nat);
     a_22 := a_22 acc + J22 |}.
(** 726-774 the Gauss points of an element *)
Fixpoint elem_RJ (a : axi) (old : axs) (T d : vec) (ez t : R) (e : nat) (gps : list (R * R)) (qs : list gp) (acc : asm) : option (list gp * asm) :=
  match gps, qs with
  | (xi, w) :: gps', q :: qs' =>
    match axi_pt a old T d ez t e xi q with
    | None => None
    | Some (q', A) =>
      match elem_RJ a old T d ez t e gps' qs' (asm_pt a e xi w (gp_stress q') A acc) with
      | None => None
      | Some (l, acc') => Some (q' :: l, acc')
      end
    end
  | _, _ => Some ([], acc)
  end.
(** 701-782 the elements, from e on *)
Fixpoint elems_RJ (a : axi) (old : axs) (T d : vec) (ez t : R) (e : nat) (qss : list (list gp)) (acc : asm) : option (list (list gp) * asm) :=
  match qss with
  | [] => Some ([], acc)
  | qs :: qss' =>
    match elem_RJ a old T d ez t e (ax_gp a) qs acc with
    | None => None
    | Some (l, acc') =>
      match elems_RJ a old T d ez t (S e) qss' acc' with None => None | Some (ll, acc'') => Some (l :: ll, acc'') end
    end
  end.
(** 674-686 the external forces; 784 the residual *)
Definition axi_ext (a : axi) (pl pr : R) : vec := fun k =>
  if Nat.eqb k (S (ax_ne a)) then pl * ax_ri a ^ 2 / (ax_ro a ^ 2 - ax_ri a ^ 2) - pr * ax_ro a ^ 2 / (ax_ro a ^ 2 - ax_ri a ^ 2)
  else if Nat.eqb k (ax_ne a) then - pr else if Nat.eqb k 0 then pl else 0.
(** neml/axisym.py:685-781 (RJ) *)
Definition axi_RJ (a : axi) (old : axs) (T : vec) (pl pr t : R) (x : vec) : option (vec * asm * list (list gp)) :=
  match elems_RJ a old T x (x (S (ax_ne a))) t 0 (as_pts old) asm0 with
  | None => None
  | Some (ll, acc) => Some (fun k => a_F acc k - axi_ext a pl pr k, acc, ll)
  end.

(** 786-812: [tri] stands for LAPACK's dgttrf and dgttrs (None: the wrapper raised) *)
Definition cute_solve (n : nat) (tri : nat -> vec -> vec -> vec -> vec -> option vec) (DU D DL u v c : vec) : option vec :=
  match tri n DU D DL c with
  | None => None
  | Some x => match tri n DU D DL u with
    | None => None
    | Some y => Some (fun k => x k - dot n v x / (1 + dot n v y) * y k)
    end
  end.
(** 547-563 the new iterate *)
Definition axi_move (a : axi) tri (x Rv : vec) (J : asm) : option vec :=
  let n := S (ax_ne a) in
  if ax_con a then
    match tri n (a_du J) (a_d J) (a_dl J) Rv with None => None | Some x1 => Some (fun k => if Nat.eqb k n then x k else x k - x1 k) end
  else
    let R2 := Rv n in
    match cute_solve n tri (a_du J) (a_d J) (a_dl J) (fun k => - a_12 J k / a_22 J) (a_21 J) (fun k => Rv k - R2 / a_22 J * a_12 J k) with
    | None => None
    | Some x1 => let x2 := (R2 - dot n (a_21 J) x1) / a_22 J in Some (fun k => if Nat.eqb k n then x k - x2 else x k - x1 k)
    end.
(** neml/axisym.py:506-586 (take_step): the norm of the residual *)
Definition axi_norm (a : axi) (v : vec) : R := if ax_con a then norm2 (S (ax_ne a)) v else norm2 (S (S (ax_ne a))) v.
(** 545-577: the loop, with [k] iterations left; None: it raised *)
Fixpoint axi_loop (k : nat) (a : axi) tri (old : axs) (T : vec) (pl pr t rtol atol nR0 : R) (x Rv : vec) (J : asm) (ll : list (list gp)) : option (vec * list (list gp)) :=
  if Rlt_dec atol (axi_norm a Rv) then if Rlt_dec rtol (axi_norm a Rv / nR0) then
    match k with
    | O => None
    | S k' =>
      match axi_move a tri x Rv J with
      | None => None
      | Some x' =>
        match axi_RJ a old T pl pr t x' with
        | None => None
        | Some (R', J', ll') => match k' with O => None | _ => axi_loop k' a tri old T pl pr t rtol atol nR0 x' R' J' ll' end
        end
      end
    end
  else Some (x, ll) else Some (x, ll).
(** 515-526 the guess *)
Definition axi_guess (a : axi) (rows : list axs) (predict : R) : vec :=
  match rows with
  | s :: p :: _ => fun k => if Nat.eqb k (S (ax_ne a)) then as_ez s + (as_ez s - as_ez p) * predict else as_disp s k + (as_disp s k - as_disp p k) * predict
  | [s] => fun k => if Nat.eqb k (S (ax_ne a)) then as_ez s else as_disp s k
  | [] => fun _ => 0
  end.
(** 496-579 take_step, recorded for time [trec]; the limit 0 is reached before any iteration *)
Definition take_step (a : axi) tri (rows : list axs) (t trec rtol atol : R) (ilimit : nat) (predict : R) : option axs :=
  match rows with
  | [] => None
  | old :: _ =>
    let T := fun k => ax_T a (ax_mesh a k) t in
    let pl := ax_p a t in let pr := ax_pext a t in
    let x0 := axi_guess a rows predict in
    let x := if ax_con a then fun k => if Nat.eqb k (S (ax_ne a)) then 0 else x0 k else x0 in
    match axi_RJ a old T pl pr t x with
    | None => None
    | Some (R, J, ll) =>
      match (match ilimit with O => None | _ => axi_loop ilimit a tri old T pl pr t rtol atol (axi_norm a R) x R J ll end) with
      | None => None
      | Some (x', ll') => Some {| as_time := trec; as_press := pl; as_ext := pr; as_temp := T; as_disp := x'; as_ez := x' (S (ax_ne a)); as_pts := ll' |}
      end
    end
  end.
(** 581-645 step.  Only RuntimeError is caught, which is what the wrapped library raises.  The loop has
    fuel; the result tells whether it returned. *)
Record aopt := { ao_rtol : R; ao_atol : R; ao_div : R; ao_maxdiv : nat; ao_predict : R; ao_ilimit : nat }.
(** neml/axisym.py:588-666 (step) *)
Fixpoint axi_steps (fuel : nat) (a : axi) tri (o : aopt) (t dt istep sstep cstep : R) (cdiv : nat) (old rows : list axs) : list axs * py unit :=
  match fuel with
  | O => (rows, Raise Spins)
  | S fuel' =>
    if Req_EM_T cstep istep then
      ((match rows with s :: _ => s :: old | [] => old end), Ret tt)
    else
      match take_step a tri rows ((match rows with s :: _ => as_time s | [] => 0 end) + dt * (cstep + sstep) / istep) t (ao_rtol o) (ao_atol o) (ao_ilimit o) (ao_predict o) with
      | Some s => axi_steps fuel' a tri o t dt istep sstep (cstep + sstep) cdiv old (s :: rows)
      | None =>
        if Nat.ltb (ao_maxdiv o) (S cdiv) then (old, Raise ModelError)
        else axi_steps fuel' a tri o t dt istep (sstep / ao_div o) cstep (S cdiv) old rows
      end
  end.
(** neml/axisym.py:588-666 (step) *)
Definition axi_step (fuel : nat) (a : axi) tri (o : aopt) (rows : list axs) (t : R) : list axs * py unit :=
  let istep := ao_div o ^ ao_maxdiv o in
  let dt := t - (match rows with s :: _ => as_time s | [] => 0 end) in
  axi_steps fuel a tri o t dt istep istep 0 0 rows rows.
(** the lists a user can have: those after any calls that ended, failing or not *)
(** states reached by calls of neml/axisym.py:588-666 *)
Inductive axi_reach (a : axi) tri (o : aopt) : list axs -> Prop :=
| ar_start : axi_reach a tri o [axi_init a]
| ar_step : forall fuel rows t rows' r, axi_reach a tri o rows -> axi_step fuel a tri o rows t = (rows', r) -> r <> Raise Spins -> axi_reach a tri o rows'.

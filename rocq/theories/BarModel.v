(** Model of neml/arbbar.py: networks of bars. *)
From Verif Require Import Base.
From Verif Require Import SolverModel NlModel UniModel.
From Coq Require Import ZArith List Arith.
Import ListNotations.

(** What a bar uses of its uniaxial model (neml/uniaxial.py): update, alpha, elastic_strains and
    init_store. *)
(** neml/arbbar.py:305-336 (update_force): what it calls of the material *)
Record bmat := { bm_update : R -> R -> R -> R -> R -> R -> R -> vec -> R -> R -> py ures; bm_alpha : R -> R;
  bm_estrain : R -> R -> vec -> R; bm_init : vec }.
(** neml/arbbar.py:283 uniaxial.UniaxialModel(mat) *)
Definition uni_bmat (solve : nat -> mat -> vec -> option vec) (M : pymodel) (rt at_ : R) (miter : Z) : bmat :=
  {| bm_update := uni_update solve M rt at_ miter; bm_alpha := pm_alpha M; bm_estrain := uni_estrain M; bm_init := uni_init M |}.

(** neml/arbbar.py:273-286 the parameters of a Bar *)
Record bar := { b_mat : bmat; b_A : R; b_l : R; b_T : R -> R }.
(** the last entries of the histories of a bar, 288-296 *)
Record bst := { bs_stress : R; bs_strain : R; bs_mstrain : R; bs_estrain : R; bs_tstrain : R; bs_energy : R; bs_diss : R;
  bs_temp : R; bs_hist : vec }.
(** neml/arbbar.py:288-296 *)
Definition bar_init (b : bar) : bst :=
  {| bs_stress := 0; bs_strain := 0; bs_mstrain := 0; bs_estrain := 0; bs_tstrain := 0; bs_energy := 0; bs_diss := 0;
     bs_temp := b_T b 0; bs_hist := bm_init (b_mat b) |}.
(** neml/arbbar.py:310-340 update_force: the quantities called ..._next, the force and its slope.
    Numpy's division by a zero length is not modelled (the theorems ask for lengths other than 0). *)
Definition update_force (b : bar) (q : bst) (d t1 t0 : R) : py (bst * (R * R)) :=
  let T1 := b_T b t1 in
  let a1 := bm_alpha (b_mat b) T1 in
  let a0 := bm_alpha (b_mat b) (bs_temp q) in
  let dT := T1 - bs_temp q in
  let ts := bs_tstrain q + dT * (a1 + a0) / 2 in
  let e := d / b_l b in
  let me := e - ts in
  match bm_update (b_mat b) me (bs_mstrain q) T1 (bs_temp q) t1 t0 (bs_stress q) (bs_hist q) (bs_energy q) (bs_diss q) with
  | Raise x => Raise x
  | Ret r => Ret ({| bs_stress := ur_s r; bs_strain := e; bs_mstrain := me; bs_estrain := bm_estrain (b_mat b) (ur_s r) T1 (ur_h r);
        bs_tstrain := ts; bs_energy := ur_u r; bs_diss := ur_p r; bs_temp := T1; bs_hist := ur_h r |},
      (ur_s r * b_A b, ur_A r * b_A b / b_l b))
  end.

(** a node: its 'displacement bc' and its 'force bc'; the graph (a networkx MultiGraph): nodes
    0..g_n - 1 in the order of self.nodes(), bars (i, j, object) in the order of self.edges() *)
(** neml/arbbar.py:216-242: the attributes of a node *)
Record node := { n_fix : option (R -> R); n_force : option (R -> R) }.
(** neml/arbbar.py:56-64 (__init__) *)
Record net := { g_n : nat; g_node : nat -> node; g_edges : list (nat * nat * bar) }.
(** one entry of all the histories: time, energy, dissipation, those of the nodes and of the bars *)
(** neml/arbbar.py:56-64 (__init__) *)
Record nst := { ns_time : R; ns_disp : nat -> R; ns_force : nat -> R; ns_energy : R; ns_diss : R; ns_bars : list bst }.
(** the histories, newest entry first *)
(** neml/arbbar.py:56-64 (__init__) *)
Definition nhist := (nst * list nst)%type.
(** neml/arbbar.py:56-64, 247-257 and the histories of the bars *)
Definition net_init (g : net) : nhist :=
  ({| ns_time := 0; ns_disp := fun _ => 0; ns_force := fun _ => 0; ns_energy := 0; ns_diss := 0;
      ns_bars := map (fun e => bar_init (snd e)) (g_edges g) |}, []).
(** neml/arbbar.py:219-232 add_force_bc, 234-245 add_displacement_bc (the warnings are not modelled) *)
Definition add_force_bc (g : net) (n : nat) (f : R -> R) : net :=
  {| g_n := g_n g; g_edges := g_edges g;
     g_node := fun k => if Nat.eqb k n then {| n_fix := None; n_force := Some f |} else g_node g k |}.
(** neml/arbbar.py:231-242 (add_displacement_bc) *)
Definition add_displacement_bc (g : net) (n : nat) (f : R -> R) : net :=
  {| g_n := g_n g; g_edges := g_edges g;
     g_node := fun k => if Nat.eqb k n then {| n_fix := Some f; n_force := None |} else g_node g k |}.

(** neml/arbbar.py:166 the free nodes *)
Definition is_free (g : net) (n : nat) : bool := match n_fix (g_node g n) with None => true | Some _ => false end.
(** neml/arbbar.py:163-170 (free_fixed_nodes) *)
Definition net_free (g : net) : list nat := filter (is_free g) (seq 0 (g_n g)).
(** free_nodes.index(n) *)
(** neml/arbbar.py:172-214 (RJ): free_nodes.index *)
Fixpoint index_of (n : nat) (l : list nat) : nat := match l with [] => O | m :: l' => if Nat.eqb n m then O else S (index_of n l') end.
(** self.sign, 64 *)
Definition sgn (k : nat) : R := if Nat.eqb k 0 then -1 else 1.
(** neml/arbbar.py:193-196 the displacement of a node.  The nodes of a bar are nodes of the graph, so
    that "in free_nodes" says that there is no displacement condition. *)
Definition node_disp (g : net) (d : vec) (t : R) (n : nat) : R :=
  match n_fix (g_node g n) with None => d (index_of n (net_free g)) | Some f => f t end.
(** neml/arbbar.py:190-196 *)
Definition elongation (g : net) (d : vec) (t : R) (i j : nat) : R := 0 + sgn 0 * node_disp g d t i + sgn 1 * node_disp g d t j.
(** R[i] += x, J[i,j] += x *)
(** neml/arbbar.py:172-214 (RJ): the additions to R and J *)
Definition vadd_at (v : vec) (i : nat) (x : R) : vec := fun k => if Nat.eqb k i then v k + x else v k.
(** neml/arbbar.py:172-214 (RJ): the additions to R and J *)
Definition madd_at (m : mat) (i j : nat) (x : R) : mat := fun k l => if andb (Nat.eqb k i) (Nat.eqb l j) then m k l + x else m k l.
(** neml/arbbar.py:202-211 *)
Definition assemble (g : net) (RJ : vec * mat) (i j : nat) (f A : R) : vec * mat :=
  fold_left (fun (acc : vec * mat) (a : nat * nat) => let '(ka, na) := a in
    if is_free g na then
      let ia := index_of na (net_free g) in
      (vadd_at (fst acc) ia (sgn ka * f),
       fold_left (fun (m : mat) (b : nat * nat) => let '(kb, nb) := b in
         if is_free g nb then madd_at m ia (index_of nb (net_free g)) (sgn ka * sgn kb * A) else m) [(0%nat, i); (1%nat, j)] (snd acc))
    else acc) [(0%nat, i); (1%nat, j)] RJ.
(** neml/arbbar.py:188-211 the loop over the bars, with the speculative state of each *)
Fixpoint bars_RJ (g : net) (d : vec) (t1 t0 : R) (es : list (nat * nat * bar)) (qs : list bst) (RJ : vec * mat) : py (vec * mat * list bst) :=
  match es, qs with
  | (i, j, b) :: es', q :: qs' =>
    match update_force b q (elongation g d t1 i j) t1 t0 with
    | Raise x => Raise x
    | Ret (q', (f, A)) =>
      match bars_RJ g d t1 t0 es' qs' (assemble g RJ i j f A) with
      | Raise x => Raise x
      | Ret (RJ', qs'') => Ret (RJ', q' :: qs'')
      end
    end
  | _, _ => Ret (RJ, [])
  end.
(** neml/arbbar.py:180-186 the external forces *)
Definition ext_force (g : net) (t : R) (n : nat) : R := match n_force (g_node g n) with Some f => f t | None => 0 end.
(** neml/arbbar.py:171-213 RJ *)
Definition net_RJ (g : net) (s : nst) (dt : R) (d : vec) : py (vec * mat * list bst) :=
  let t1 := ns_time s + dt in
  bars_RJ g d t1 (ns_time s) (g_edges g) (ns_bars s) (fun i => 0 - ext_force g t1 (nth i (net_free g) 0%nat), fun _ _ => 0).
(** neml/arbbar.py:147-160 make_guess *)
Definition make_guess (g : net) (H : nhist) (extrapolate : bool) (value : R) : vec :=
  match extrapolate, snd H with
  | true, p :: _ => fun i => let n := nth i (net_free g) 0%nat in ns_disp (fst H) n + value * (ns_disp (fst H) n - ns_disp p n)
  | _, _ => fun i => ns_disp (fst H) (nth i (net_free g) 0%nat)
  end.
(** neml/arbbar.py:122-133 the forces of a node *)
Fixpoint node_force (n : nat) (es : list (nat * nat * bar)) (qs : list bst) : R :=
  match es, qs with
  | (i, j, b) :: es', q :: qs' => (if Nat.eqb n i then sgn 0 * bs_stress q * b_A b else 0) + (if Nat.eqb n j then sgn 1 * bs_stress q * b_A b else 0) + node_force n es' qs'
  | _, _ => 0
  end.
(** neml/arbbar.py:134-135 *)
Fixpoint bar_sum (v : bst -> R) (es : list (nat * nat * bar)) (qs : list bst) : R :=
  match es, qs with (_, b) :: es', q :: qs' => v q * b_A b * b_l b + bar_sum v es' qs' | _, _ => 0 end.
(** neml/arbbar.py:111-139 apply_update.  The states ..._next of the bars are those of the last call
    of RJ, which newton makes at the displacements it returns. *)
Definition apply_update (g : net) (H : nhist) (d : vec) (dt : R) (qs : list bst) : nhist :=
  let t1 := ns_time (fst H) + dt in
  let e_sum := bar_sum bs_energy (g_edges g) qs in
  let p_sum := bar_sum bs_diss (g_edges g) qs in
  ({| ns_time := t1; ns_disp := node_disp g d t1; ns_force := fun n => node_force n (g_edges g) qs;
      ns_energy := e_sum; ns_diss := e_sum; ns_bars := qs |}, fst H :: snd H).

(** the options of solve; newton's other options have their defaults, miter = 50 and no line search *)
Record nopt := { o_ndiv : nat; o_dfact : R; o_extra : bool; o_rtol : R; o_atol : R }.
(** neml/arbbar.py:66-111: the system given to newton *)
Definition net_sys (solve : nat -> mat -> vec -> option vec) (g : net) (s : nst) (dt : R) (x0 : vec) :=
  vec_sys (length (net_free g)) x0 (fun d => match net_RJ g s dt d with Ret (R, J, _) => Some (R, J) | Raise _ => None end)
    (solve (length (net_free g))).
(** one attempt: newton at 92-93, then apply_update *)
Definition net_try solve (g : net) (o : nopt) (H : nhist) (dt ef : R) : py nhist :=
  match py_newton (net_sys solve g (fst H) dt (make_guess g H (o_extra o) ef)) (vlin (length (net_free g))) (o_rtol o) (o_atol o) 50 LNone true with
  | Raise e => Raise e
  | Ret (d, _, _) =>
    match net_RJ g (fst H) dt d with
    | Raise e => Raise e
    | Ret (_, _, qs) => Ret (apply_update g H d dt qs)
    end
  end.
(** neml/arbbar.py:66-109 solve: the histories it leaves, and whether it returned.  The while loop has
    fuel. *)
Fixpoint net_loop (fuel : nat) solve (g : net) (o : nopt) (total : R) (H : nhist) (dt att curr : R) (dtried : nat) (ef : R) : nhist * py unit :=
  match fuel with
  | O => (H, Raise Spins)
  | S fuel' =>
    if Rlt_dec curr total then
      match net_try solve g o H dt ef with
      | Raise e =>
        if Nat.eqb (S dtried) (o_ndiv o) then (H, Raise e)
        else net_loop fuel' solve g o total H (dt / o_dfact o) (att / o_dfact o) curr (S dtried) (ef / o_dfact o)
      | Ret H' => net_loop fuel' solve g o total H' dt att (curr + att) dtried 1
      end
    else (H, Ret tt)
  end.
(** neml/arbbar.py:66-111 (solve) *)
Definition net_solve (fuel : nat) solve (g : net) (o : nopt) (H : nhist) (dt : R) : nhist * py unit :=
  let total := o_dfact o ^ o_ndiv o in net_loop fuel solve g o total H dt total 0 0 1.

(** a run: calls of solve, whether they return or raise *)
(** states reached by calls of neml/arbbar.py:66-111 *)
Inductive net_reach solve (g : net) (o : nopt) : nhist -> Prop :=
| nr_start : net_reach solve g o (net_init g)
| nr_solve : forall fuel H dt H' r, net_reach solve g o H -> net_solve fuel solve g o H dt = (H', r) -> net_reach solve g o H'.

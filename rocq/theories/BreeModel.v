(** Model of the Bree problem of neml/axisym.py: a wall as bars between two nodes. *)
From Verif Require Import Base.
From Verif Require Import SolverModel NlModel UniModel BarModel.
From Coq Require Import ZArith List Arith.
Import ListNotations.

(** neml/axisym.py:262-274 rect: the midpoints of n equal parts of [-1,1] and their weights *)
Definition rect (n : nat) : list (R * R) :=
  map (fun i => (((-1 + INR i * (2 / INR n)) + (-1 + INR (S i) * (2 / INR n))) / 2, 2 / INR n)) (seq 0 n).
(** neml/axisym.py:324-328: the points, weights and materials.  [rule] is rect or numpy's leggauss, a
    list of n points and weights; the lists rs, ns and mats fit (checked at 235-238). *)
Fixpoint bree_pts (rule : nat -> list (R * R)) (rs : list R) (ns : list nat) (mats : list bmat) : list (R * R * bmat) :=
  match rs, ns, mats with
  | r :: ((r' :: _) as rs'), n :: ns', m :: mats' => map (fun a => ((fst a + 1) * (r' - r) / 2 + r, snd a * (r' - r) / 2, m)) (rule n) ++ bree_pts rule rs' ns' mats'
  | _, _, _ => []
  end.
(** the object: its points, the hoop stress self.P, the functions self.p, self.p_ext and self.T, the
    inner and outer radius and the thickness *)
(** neml/axisym.py:285-363 (__init__): the members *)
Record bree := { be_pts : list (R * R * bmat); be_P : R -> R; be_p : R -> R; be_pext : R -> R; be_T : R -> R -> R;
  be_ri : R; be_ro : R; be_th : R; be_hoop : bool }.
(** 245-250 the thickness, 330-333 the hoop stress *)
Definition hoop_stress (hoop : bool) (p pext : R -> R) (ri ro th : R) : R -> R :=
  if hoop then p else fun t => (p t * ri - pext t * ro) / th.
(** the sum of np.diff(rs), neml/axisym.py:285-363 *)
Fixpoint rdiff_sum (rs : list R) : R := match rs with r :: ((r' :: _) as rs') => (r' - r) + rdiff_sum rs' | _ => 0 end.
(** neml/axisym.py:285-363 (__init__) *)
Definition bree_make (rule : nat -> list (R * R)) rs ns mats (T : R -> R -> R) (p pext : R -> R) (hoop : bool) : bree :=
  let ri := hd 0 rs in let ro := last rs 0 in let th := rdiff_sum rs in
  {| be_pts := bree_pts rule rs ns mats; be_P := hoop_stress hoop p pext ri ro th; be_p := p; be_pext := pext; be_T := T;
     be_ri := ri; be_ro := ro; be_th := th; be_hoop := hoop |}.
(** neml/axisym.py:285-363 (__init__): the sum of the weights *)
Definition bree_w (b : bree) : R := fold_right (fun a s => snd (fst a) + s) 0 (be_pts b).
(** 335-348 the n bars of length 1 between nodes 1 and 2 (here 0 and 1) *)
Definition bree_net (b : bree) : net :=
  {| g_n := 2; g_node := fun n => if Nat.eqb n 0 then {| n_fix := Some (fun _ => 0); n_force := None |} else {| n_fix := None; n_force := Some (fun t => be_P b t * bree_w b) |};
     g_edges := map (fun a => (0%nat, 1%nat, {| b_mat := snd a; b_A := snd (fst a); b_l := 1; b_T := be_T b (fst (fst a)) |})) (be_pts b) |}.
(** 370-384 update_loading *)
Definition bree_loading (b : bree) (p : R -> R) (T : R -> R -> R) (pext : R -> R) : bree :=
  {| be_pts := be_pts b; be_P := hoop_stress (be_hoop b) p pext (be_ri b) (be_ro b) (be_th b); be_p := be_p b; be_pext := be_pext b; be_T := T;
     be_ri := be_ri b; be_ro := be_ro b; be_th := be_th b; be_hoop := be_hoop b |}.

(** one entry of the lists the object keeps (the fields of the bars are those of [bw_bars]) *)
(** neml/axisym.py:285-363 (__init__): the lists kept *)
Record brow := { bw_time : R; bw_press : R; bw_ext : R; bw_hoop : R; bw_force : R; bw_strain : R; bw_bars : list bst; bw_energy : R; bw_work : R }.
(** 350-368 *)
Definition bree_start (b : bree) : nhist * list brow :=
  (net_init (bree_net b), [{| bw_time := 0; bw_press := be_p b 0; bw_ext := be_pext b 0; bw_hoop := be_P b 0; bw_force := 0; bw_strain := 0;
     bw_bars := map (fun e => bar_init (snd e)) (g_edges (bree_net b)); bw_energy := 0; bw_work := 0 |}]).
(** 424-429 *)
Fixpoint bree_sum (v : bst -> R) (ps : list (R * R * bmat)) (qs : list bst) : R :=
  match ps, qs with a :: ps', q :: qs' => snd (fst a) * v q * snd (fst a) * 1 + bree_sum v ps' qs' | _, _ => 0 end.
(** the defaults of solve, neml/arbbar.py:67 *)
Definition default_opt (ndiv : nat) (dfact : R) (extra : bool) : nopt := {| o_ndiv := ndiv; o_dfact := dfact; o_extra := extra; o_rtol := / 1000000; o_atol := / 100000000 |}.
(** 386-429 step; rtol and atol are arguments of step that are not used *)
Definition bree_step (fuel : nat) solve (b : bree) (ndiv : nat) (dfact : R) (extra : bool) (rtol atol : R) (q : nhist * list brow) (t : R) : (nhist * list brow) * py unit :=
  let last := match snd q with r :: _ => bw_time r | [] => 0 end in
  let dt := t - last in
  if Rlt_dec dt 0 then (q, Raise PyValueError)
  else match net_solve fuel solve (bree_net b) (default_opt ndiv dfact extra) (fst q) dt with
    | (H', Raise e) => ((H', snd q), Raise e)
    | (H', Ret _) =>
      let s := fst H' in
      ((H', {| bw_time := t; bw_press := be_p b t; bw_ext := be_pext b t; bw_hoop := be_P b t; bw_force := ns_force s 1%nat; bw_strain := ns_disp s 1%nat;
          bw_bars := ns_bars s; bw_energy := bree_sum bs_energy (be_pts b) (ns_bars s); bw_work := bree_sum bs_diss (be_pts b) (ns_bars s) |} :: snd q), Ret tt)
    end.

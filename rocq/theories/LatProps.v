(** Lattices: the systems added, saved and read back *)
From Coq Require Import String Ascii ZArith List Arith Lia Lra.
From Verif Require Import Base.
From Verif Require Import HistModel TextModel ParseModel TextProofs ParseSpec NemlMathModel RotModel TensorModel CrystModel PycModel PycSpec LatModel LatSpec LatProofs LatEx.
Import ListNotations.
Open Scope string_scope.
Open Scope list_scope.
Open Scope R_scope.

(** ** C93 *)
(** saving and reading back after any history of additions: always a lattice, with the same slip systems in the same order; the twin systems too, but only for a hexagonal lattice *)
Theorem C93_reload : forall hash p ops cs o0, shape_ops (lp_shape p) = Some ops -> lat_new p = Some o0 -> named (lp_shape p) ->
  (forall x, In x cs -> small_call x) -> (forall x, In x (map AS (mb_slip (lp_slip p)) ++ map AT (mb_twin (lp_twin p))) -> small_call x) ->
  let o := fst (lat_calls hash ops cs o0) in forallb (fun b => b) (snd (lat_calls hash ops cs o0)) = true ->
  exists o', lat_load (lat_save o) = Some o' /\ lp_shape (lo_par o') = round_shape (lp_shape p) /\ lo_slip o = mb_slip (lp_slip p) ++ slips_of cs /\ lo_twin o = mb_twin (lp_twin p) ++ twins_of cs /\ lo_slip o' = lo_slip o /\ lo_twin o' = match lp_shape p with LHCP _ _ => lo_twin o | _ => [] end.
Proof. exact @reload_systems. Qed.
Print Assumptions C93_reload.
(** numbers of at most six digits, slip systems before twin systems, twins only in a hexagonal lattice: the same groups, the same numbering, the same planes *)
Theorem C93_same : forall hash p ops cs o0, shape_ops (lp_shape p) = Some ops -> lat_new p = Some o0 -> short_shape (lp_shape p) ->
  (forall x, In x cs -> small_call x) -> (forall x, In x (map AS (mb_slip (lp_slip p)) ++ map AT (mb_twin (lp_twin p))) -> small_call x) ->
  slips_first (map AS (mb_slip (lp_slip p)) ++ map AT (mb_twin (lp_twin p)) ++ cs) ->
  match lp_shape p with LHCP _ _ => True | _ => mb_twin (lp_twin p) ++ twins_of cs = [] end ->
  let o := fst (lat_calls hash ops cs o0) in forallb (fun b => b) (snd (lat_calls hash ops cs o0)) = true ->
  exists o', lat_load (lat_save o) = Some o' /\ lp_shape (lo_par o') = lp_shape p /\ same_systems (lo_lat o') (lo_lat o) /\ lo_slip o' = lo_slip o /\ lo_twin o' = lo_twin o.
Proof. exact @reload_same. Qed.
Print Assumptions C93_same.
(** a case of it *)
Theorem C93_same_case : forall hash, exists ops o o', shape_ops (LCubic 1) = Some ops /\
  lat_calls hash ops [AddSlip [1; 1; 0]%Z [1; 1; 1]%Z; Ask (Quat 1 0 0 0); AddSlip [1; 1; 1]%Z [1; 1; 0]%Z] (mkLO (bare (LCubic 1)) lattice0 [] []) = (o, [true; true; true]) /\
  lat_load (lat_save o) = Some o' /\ same_systems (lo_lat o') (lo_lat o).
Proof. exact @cubic_same_case. Qed.
Print Assumptions C93_same_case.
(** the twin systems of a cubic lattice are not read back *)
Theorem C93_twins_refuted : forall hash, exists ops o o', shape_ops (LCubic 1) = Some ops /\
  lat_calls hash ops cubic_calls (mkLO (bare (LCubic 1)) lattice0 [] []) = (o, [true]) /\ lat_new (bare (LCubic 1)) = Some (mkLO (bare (LCubic 1)) lattice0 [] []) /\
  lat_load (lat_save o) = Some o' /\ map g_twin (la_groups (lo_lat o)) = [true] /\ la_groups (lo_lat o') = [].
Proof. exact @cubic_loses. Qed.
Print Assumptions C93_twins_refuted.
(** nor are those of any cubic or general lattice *)
Theorem C93_twins_lost : forall hash p ops cs o0 o', match lp_shape p with LHCP _ _ => False | _ => True end -> shape_ops (lp_shape p) = Some ops -> lat_new p = Some o0 -> named (lp_shape p) ->
  (forall x, In x cs -> small_call x) -> (forall x, In x (map AS (mb_slip (lp_slip p)) ++ map AT (mb_twin (lp_twin p))) -> small_call x) ->
  lat_load (lat_save (fst (lat_calls hash ops cs o0))) = Some o' -> lo_twin o' = [] /\ forall G, In G (la_groups (lo_lat o')) -> g_twin G = false.
Proof. exact @reload_twins_lost. Qed.
Print Assumptions C93_twins_lost.
(** a twin system added before a slip system: the groups come back in another order *)
Theorem C93_order_refuted : forall hash, exists ops o o', shape_ops (LHCP 1 hcp_c) = Some ops /\
  lat_calls hash ops hcp_calls (mkLO (bare (LHCP 1 hcp_c)) lattice0 [] []) = (o, [true; true]) /\ lat_new (bare (LHCP 1 hcp_c)) = Some (mkLO (bare (LHCP 1 hcp_c)) lattice0 [] []) /\
  lat_load (lat_save o) = Some o' /\ lo_slip o' = lo_slip o /\ lo_twin o' = lo_twin o /\
  map g_twin (la_groups (lo_lat o)) = [true; false] /\ map g_twin (la_groups (lo_lat o')) <> [true; false].
Proof. exact @order_changed. Qed.
Print Assumptions C93_order_refuted.
(** in a lattice read back, whatever the order of the additions, all slip groups come before all twin groups *)
Theorem C93_order : forall hash p ops cs o0 o', shape_ops (lp_shape p) = Some ops -> lat_new p = Some o0 -> named (lp_shape p) ->
  (forall x, In x cs -> small_call x) -> (forall x, In x (map AS (mb_slip (lp_slip p)) ++ map AT (mb_twin (lp_twin p))) -> small_call x) ->
  lat_load (lat_save (fst (lat_calls hash ops cs o0))) = Some o' -> forall l G m G', la_groups (lo_lat o') = l ++ G :: m -> g_twin G = true -> In G' m -> g_twin G' = true.
Proof. exact @reload_order. Qed.
Print Assumptions C93_order.
(** an addition that ended in an exception changes no system, yet the lattice cannot be read back *)
Theorem C93_failed_refuted : forall hash, exists ops o, shape_ops (LHCP 1 hcp_c) = Some ops /\ lat_calls hash ops [AddSlip [1; 1; 0]%Z [0; 0; 1]%Z] (mkLO (bare (LHCP 1 hcp_c)) lattice0 [] []) = (o, [false]) /\
  lo_lat o = lattice0 /\ lat_load (lat_save o) = None.
Proof. exact @failed_case. Qed.
Print Assumptions C93_failed_refuted.
(** nor can any after such an addition *)
Theorem C93_failed : forall hash p ops cs o0, match lp_shape p with LHCP _ _ => True | _ => twins_of cs = [] end -> shape_ops (lp_shape p) = Some ops -> lat_new p = Some o0 -> named (lp_shape p) ->
  (forall x, In x cs -> small_call x) -> (forall x, In x (map AS (mb_slip (lp_slip p)) ++ map AT (mb_twin (lp_twin p))) -> small_call x) ->
  In false (snd (lat_calls hash ops cs o0)) -> lat_load (lat_save (fst (lat_calls hash ops cs o0))) = None.
Proof. exact @failed_unreadable. Qed.
Print Assumptions C93_failed.
(** whatever is given as twin_systems to the constructor of a cubic or a general lattice has no effect *)
Theorem C93_given_refuted : forall s S l l', match s with LHCP _ _ => False | _ => True end -> match lat_new (mkLP s S (of_slip l)), lat_new (mkLP s S (of_slip l')) with
  | Some o, Some o' => lo_lat o = lo_lat o' /\ lo_twin o = [] /\ forall G, In G (la_groups (lo_lat o)) -> g_twin G = false
  | None, None => True | _, _ => False end.
Proof. exact @given_ignored. Qed.
Print Assumptions C93_given_refuted.
(** and a list with a twin system in it cannot be given to it from Python *)
Theorem C93_python_refuted : forall s v vs a b c d, match s with LHCP _ _ => False | _ => True end -> In v vs -> a_twin v (a, b, c, d) -> cast (twin_type s) (PySeq vs) = None.
Proof. exact @python_refused. Qed.
Print Assumptions C93_python_refuted.

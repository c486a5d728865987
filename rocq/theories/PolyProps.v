(** Batches of crystals, the Taylor polycrystal and twin reorientation *)
From Verif Require Import Base Diff NemlMathModel NemlMathSpec RotModel RotSpec PolyModel PolySpec PolyProofs PolyMore.
From Coq Require Import List Arith Lia Lra Permutation.
Import ListNotations.
Open Scope R_scope.

(** ** C69 *)
(** an accepted batch: every crystal has its own answer in its own slice, whatever order the threads ran in, and nothing is written beyond *)
Theorem C69_each : forall m nh n order b o o', Permutation order (seq 0 n) -> batch m nh order b o = Some o' ->
  (forall i, (i < n)%nat -> exists r, m (arg nh b i) = Some r /\ slice_is nh i r o') /\ beyond_same nh n o' o.
Proof. exact batch_ok. Qed.
Print Assumptions C69_each.
(** a batch throws exactly when some crystal throws *)
Theorem C69_throws : forall m nh n order b o, Permutation order (seq 0 n) -> (batch m nh order b o = None <-> exists i, (i < n)%nat /\ m (arg nh b i) = None).
Proof. exact batch_fails. Qed.
Print Assumptions C69_throws.
(** the result does not depend on the schedule *)
Theorem C69_schedule : forall m nh n order order' b o, Permutation order (seq 0 n) -> Permutation order' (seq 0 n) -> batch m nh order b o = batch m nh order' b o.
Proof. exact batch_schedule. Qed.
Print Assumptions C69_schedule.
(** every crystal starts with the initial store *)
Theorem C69_init : forall nh n h0 hist, forall i j, (i < n)%nat -> (j < nh)%nat -> init_batch nh n h0 hist (i * nh + j)%nat = h0 j.
Proof. exact init_batch_value. Qed.
Print Assumptions C69_init.
(** orientations set are the orientations got; everything else in the store is untouched *)
Theorem C69_orientations : forall nh rp n qs hist hist', (rp + 8 <= nh)%nat -> set_passive_batch nh rp n qs hist = Some hist' ->
  get_passive_batch nh rp n hist' = qs /\ get_active_batch nh rp n hist' = map oinv qs /\
  (forall i j, (i < n)%nat -> (j < rp \/ rp + 8 <= j < nh)%nat -> hist' (i * nh + j)%nat = hist (i * nh + j)%nat).
Proof. exact set_get_batch. Qed.
Print Assumptions C69_orientations.
(** a list of the wrong length is rejected *)
Theorem C69_orientations_count : forall nh rp n qs hist, length qs <> n -> set_passive_batch nh rp n qs hist = None.
Proof. exact set_batch_size. Qed.
Print Assumptions C69_orientations_count.
(** a crystal whose stiffness is kept in its store *)
Definition lin : cmodel := fun a => Some {| c_s := fun j => c_s0 a j + c_h0 a 0%nat * (c_d1 a j - c_d0 a j); c_h := c_h0 a;
  c_A := fun p => if Nat.eqb (p / 6) (p mod 6) then c_h0 a 0%nat else 0; c_B := vzero; c_u := 1; c_p := 0 |}.
Definition two_q : list quat := [Quat 1 0 0 0; Quat (3/5) (4/5) 0 0].
Example C69_case : exists hist o, set_passive_batch 8 0 2 two_q vzero = Some hist /\ Permutation [1%nat; 0%nat] (seq 0 2) /\
  batch lin 8 [1%nat; 0%nat] (taylor_bin 8 2 (fun _ => 1) vzero 300 300 1 0 hist) o <> None /\ (0 + 8 <= 8)%nat.
Proof.
  unfold set_passive_batch. cbn [length two_q Nat.eqb]. eexists. exists {| o_s := vzero; o_h := vzero; o_A := vzero; o_B := vzero; o_u := vzero; o_p := vzero |}.
  split; [reflexivity|]. split; [apply perm_swap|]. split; [discriminate|lia].
Qed.

(** ** C70 *)
(** accepted weights have the right number and sum to one *)
Theorem C70_weights : forall n ws w, poly_weights n ws = Some w -> length w = n /\ wsum w = 1.
Proof. exact weights_normal. Qed.
Print Assumptions C70_weights.
(** they are the given ones up to a common factor *)
Theorem C70_weights_given : forall n ws w, ws <> [] -> poly_weights n ws = Some w -> forall i, nth i w 0 = nth i ws 0 / wsum ws.
Proof. exact weights_given. Qed.
Print Assumptions C70_weights_given.
(** and equal when none are given *)
Theorem C70_weights_default : forall n w, poly_weights n [] = Some w -> forall i, (i < n)%nat -> nth i w 0 = / INR n.
Proof. exact weights_equal. Qed.
Print Assumptions C70_weights_default.
(** exactly these inputs are rejected *)
Theorem C70_weights_rejected : forall n ws, (ws <> [] /\ length ws <> n) \/ (ws = [] /\ n = 0%nat) \/ (length ws = n /\ wsum ws = 0) <-> poly_weights n ws = None.
Proof. exact weights_rejected. Qed.
Print Assumptions C70_weights_rejected.
(** the places used in the store are the starts of the blocks it was made of *)
Theorem C70_layout : forall nh n i, (i < n)%nat ->
  block_start (poly_layout nh n) i = pl_h nh n i /\ block_start (poly_layout nh n) (n + i) = pl_s nh n i /\
  block_start (poly_layout nh n) (n + n + i) = pl_d nh n i /\ block_start (poly_layout nh n) (n + n + n + i) = pl_w nh n i.
Proof. exact layout. Qed.
Print Assumptions C70_layout.
(** the initial store holds unloaded crystals with the given orientations *)
Theorem C70_start : forall nh rp n h0 qs, (0 < nh)%nat -> length qs = n -> holds nh n (poly_init nh rp n h0 qs)
  (fun i => {| x_d := fun _ => 0; x_w := fun _ => 0; x_s := fun _ => 0; x_h := cut nh (put_quat rp (nth i qs qdefault) h0) |}).
Proof. exact init_holds. Qed.
Print Assumptions C70_start.
(** over any loading history and any schedules, the polycrystal reports the weighted means of crystals that run alone under the same history *)
Theorem C70_averages : forall m nh n w, forall gs h u p X ts, Forall (fun go => Permutation (snd go) (seq 0 n)) gs -> holds nh n h X ->
  taylor_run m nh n w gs h u p = Some ts ->
  exists rs, (forall i, (i < n)%nat -> solo_run m nh (map fst gs) (X i) = Some (rs i)) /\ averages n w rs u p ts.
Proof. exact taylor_averages. Qed.
Print Assumptions C70_averages.
(** it throws exactly when one of those crystals throws *)
Theorem C70_throws : forall m nh n w, forall gs h u p X, Forall (fun go => Permutation (snd go) (seq 0 n)) gs -> holds nh n h X ->
  (taylor_run m nh n w gs h u p = None <-> exists i, (i < n)%nat /\ solo_run m nh (map fst gs) (X i) = None).
Proof. exact taylor_fails. Qed.
Print Assumptions C70_throws.
(** a polycrystal of equal crystals behaves as the crystal *)
Theorem C70_uniform : forall m nh n w gs h u p X ts, (0 < n)%nat -> length w = n -> wsum w = 1 ->
  Forall (fun go => Permutation (snd go) (seq 0 n)) gs -> holds nh n h (fun _ => X) -> taylor_run m nh n w gs h u p = Some ts ->
  exists rs, solo_run m nh (map fst gs) X = Some rs /\
    Forall2 (fun t r => (forall j, (j < 6)%nat -> t_s t j = c_s r j) /\ (forall j, (j < 36)%nat -> t_A t j = c_A r j) /\ (forall j, (j < 18)%nat -> t_B t j = c_B r j)) ts rs.
Proof. exact uniform. Qed.
Print Assumptions C70_uniform.
(** the reported tangents are those of the reported stress if those of the crystals are *)
Theorem C70_tangents : forall m nh n w order g h u p X (C : nat -> vec -> vec -> cout) (Tf : vec -> vec -> tout), Permutation order (seq 0 n) -> holds nh n h X ->
  (forall d v, taylor m nh n w order d v (g_T1 g) (g_T0 g) (g_t1 g) (g_t0 g) h u p = Some (Tf d v)) ->
  (forall i d v, (i < n)%nat -> solo_step m (with_dv g d v) (X i) = Some (C i d v)) ->
  forall d v t dd dv, path 6 d t dd -> path 3 v t dv ->
  (forall i, (i < n)%nat -> path 6 (fun x => c_s (C i (d x) (v x))) t
     (vadd (mv 6 (fun a b => c_A (C i (d t) (v t)) (a * 6 + b)%nat) dd) (mv 3 (fun a b => c_B (C i (d t) (v t)) (a * 3 + b)%nat) dv))) ->
  path 6 (fun x => t_s (Tf (d x) (v x))) t
     (vadd (mv 6 (fun a b => t_A (Tf (d t) (v t)) (a * 6 + b)%nat) dd) (mv 3 (fun a b => t_B (Tf (d t) (v t)) (a * 3 + b)%nat) dv)).
Proof. exact taylor_tangents. Qed.
Print Assumptions C70_tangents.
(** elastic strains are the mean with exactly six crystals *)
Theorem C70_elastic_strains_partial : forall es w e, taylor_estrain es 6 w = Some e -> forall j, (j < 6)%nat -> e j = mean 6 w (fun i => es i j).
Proof. exact estrain_six. Qed.
Print Assumptions C70_elastic_strains_partial.
(** one crystal: a component is lost *)
Theorem C70_elastic_strains_refuted : exists (es : nat -> vec) n w e j, wsum w = 1 /\ length w = n /\ (j < 6)%nat /\ taylor_estrain es n w = Some e /\ e j <> mean n w (fun i => es i j).
Proof. exact estrain_refuted. Qed.
Print Assumptions C70_elastic_strains_refuted.
(** more than six: the six values are overrun *)
Theorem C70_elastic_strains_overrun_refuted : forall es n w, (6 < n)%nat -> taylor_estrain es n w = None.
Proof. exact estrain_overrun. Qed.
Print Assumptions C70_elastic_strains_overrun_refuted.
Definition pull_load : load := {| g_d := fun _ => 1; g_w := vzero; g_T1 := 300; g_T0 := 300; g_t1 := 1; g_t0 := 0 |}.
Example C70_case : exists w, poly_weights 2 [1; 3] = Some w /\
  Forall (fun go => Permutation (snd go) (seq 0 2)) [(pull_load, [1%nat; 0%nat]); (pull_load, [0%nat; 1%nat])] /\
  taylor_run lin 8 2 w [(pull_load, [1%nat; 0%nat]); (pull_load, [0%nat; 1%nat])] (poly_init 8 0 2 vzero two_q) 0 0 <> None.
Proof.
  unfold poly_weights. cbn [length Nat.eqb]. destruct (Req_EM_T (wsum [1; 3]) 0) as [E|_]; [cbn in E; lra|]. eexists. split; [reflexivity|].
  split; [constructor; [apply perm_swap|constructor; [apply Permutation_refl|constructor]]|discriminate].
Qed.

(** ** C71 *)
(** twin fractions are slip over characteristic shear; the flag is down again after every call *)
Theorem C71_fractions : forall thr ss st prev, p_twinned prev = 0 -> let r := ptr_act thr ss st prev in
  (forall j, twin_at ss j -> p_frac r j = frac ss (p_slip st) j) /\ (forall j, ~ twin_at ss j -> p_frac r j = p_frac st j) /\ p_twinned r = 0.
Proof. exact ptr_fractions. Qed.
Print Assumptions C71_fractions.
(** below the threshold nothing changes *)
Theorem C71_quiet : forall thr ss st prev, p_twinned prev = 0 -> (forall j, ~ over thr ss (p_slip st) j) ->
  let r := ptr_act thr ss st prev in p_rot r = p_rot st /\ p_rot0 r = p_rot0 st /\ p_slip r = p_slip st.
Proof. exact ptr_none. Qed.
Print Assumptions C71_quiet.
(** otherwise the crystal is turned once, by the first twin system above the threshold, and the twin slips restart from zero *)
Theorem C71_turns : forall thr ss st prev j, p_twinned prev = 0 -> first_over thr ss (p_slip st) j ->
  let r := ptr_act thr ss st prev in p_rot r = qmul (turn_of ss j) (p_rot st) /\ p_rot0 r = p_rot r /\
    (forall i, twin_at ss i -> p_slip r i = 0) /\ (forall i, ~ twin_at ss i -> p_slip r i = p_slip st i).
Proof. exact ptr_turns. Qed.
Print Assumptions C71_turns.
(** over any number of calls the flag is down between calls, so a crystal can twin again *)
Theorem C71_flag : forall ss prev calls, p_twinned prev = 0 -> p_twinned (ptr_run ss prev calls) = 0.
Proof. exact ptr_flag. Qed.
Print Assumptions C71_flag.
(** a rotation stays a rotation *)
Theorem C71_unit : forall thr ss st prev, p_twinned prev = 0 -> (forall s, In s ss -> unitq (p_turn s)) -> unitq (p_rot st) -> unitq (p_rot (ptr_act thr ss st prev)).
Proof. exact ptr_unit. Qed.
Print Assumptions C71_unit.
Definition sysA : psys := {| p_twin := false; p_shear := 1; p_turn := Quat 1 0 0 0 |}.
Definition sysB : psys := {| p_twin := true; p_shear := 1 / 2; p_turn := Quat 0 1 0 0 |}.
Example C71_case : first_over (1 / 2) [sysA; sysB; sysB] (fun j => INR j) 1 /\ unitq (p_turn sysB).
Proof.
  split; [|unfold unitq; cbn; ring]. split.
  - split; [exists sysB; split; reflexivity|]. unfold frac. cbn. lra.
  - intros i Hi. assert (i = 0%nat) by lia. subst. intros [(s & E & T) _]. cbn in E. injection E as <-. discriminate.
Qed.

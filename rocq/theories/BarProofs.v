(** Proofs about networks of bars. *)
From Verif Require Import Base Diff.
From Verif Require Import SolverModel NlModel NlSpec NlProofs UniModel UniSpec BarModel BarSpec HardProofs.
From Coq Require Import ZArith List Arith Lia.
Import ListNotations.

(** ** sums over lists *)
Lemma so_ext {A} (l : list A) f h : (forall x, In x l -> f x = h x) -> sum_over l f = sum_over l h.
Proof. induction l as [|a l IH]; intros E; [reflexivity|]. cbn. rewrite (E a (or_introl eq_refl)). f_equal. apply IH. intros x Hx. apply E. right. exact Hx. Qed.
Lemma so_plus {A} (l : list A) f h : sum_over l (fun x => f x + h x) = sum_over l f + sum_over l h.
Proof. induction l as [|a l IH]; cbn; [ring|]. unfold sum_over in IH. rewrite IH. ring. Qed.
Lemma so_scal {A} (l : list A) k f : sum_over l (fun x => k * f x) = k * sum_over l f.
Proof. induction l as [|a l IH]; cbn; [ring|]. unfold sum_over in IH. rewrite IH. ring. Qed.
Lemma so_zero {A} (l : list A) : sum_over l (fun _ => 0) = 0.
Proof. induction l as [|a l IH]; cbn; [ring|]. unfold sum_over in IH. rewrite IH. ring. Qed.
Lemma so_rsum {A} (l : list A) n (F : nat -> A -> R) : rsum n (fun c => sum_over l (F c)) = sum_over l (fun x => rsum n (fun c => F c x)).
Proof.
  induction l as [|a l IH]; cbn.
  - apply rsum_0.
  - unfold sum_over in IH. rewrite <- IH, <- rsum_plus. reflexivity.
Qed.
Lemma so_nth (l : list nat) f : sum_over l f = rsum (length l) (fun r => f (nth r l 0%nat)).
Proof. induction l as [|a l IH]; [reflexivity|]. cbn [length]. rewrite rsum_S. cbn [sum_over fold_right nth]. f_equal. exact IH. Qed.
Lemma so_nonneg {A} (l : list A) f : (forall x, In x l -> 0 <= f x) -> 0 <= sum_over l f.
Proof. induction l as [|a l IH]; intros E; cbn; [lra|]. assert (0 <= f a) by (apply E; left; reflexivity). assert (0 <= sum_over l f) by (apply IH; intros x Hx; apply E; right; exact Hx). unfold sum_over in *. lra. Qed.
Lemma so_zero_inv {A} (l : list A) f : (forall x, In x l -> 0 <= f x) -> sum_over l f = 0 -> forall x, In x l -> f x = 0.
Proof.
  induction l as [|a l IH]; intros E Z x [].
  - subst. cbn in Z. assert (0 <= f x) by (apply E; left; reflexivity). assert (0 <= sum_over l f) by (apply so_nonneg; intros y Hy; apply E; right; exact Hy). unfold sum_over in *. lra.
  - cbn in Z. assert (0 <= f a) by (apply E; left; reflexivity). assert (0 <= sum_over l f) by (apply so_nonneg; intros y Hy; apply E; right; exact Hy). apply IH; [intros y Hy; apply E; right; exact Hy|unfold sum_over in *; lra|assumption].
Qed.

(** ** degrees of freedom *)
Lemma index_lt n l : In n l -> (index_of n l < length l)%nat.
Proof. induction l as [|m l IH]; intros []; cbn; [subst; rewrite Nat.eqb_refl; lia|]. destruct (Nat.eqb n m); [lia|]. assert (L := IH H). lia. Qed.
Lemma nth_index n l : In n l -> nth (index_of n l) l 0%nat = n.
Proof. induction l as [|m l IH]; intros []; cbn; [subst; rewrite Nat.eqb_refl; reflexivity|]. destruct (Nat.eqb_spec n m); [symmetry; assumption|]. exact (IH H). Qed.
Lemma index_nth l : NoDup l -> forall r, (r < length l)%nat -> index_of (nth r l 0%nat) l = r.
Proof.
  induction 1 as [|m l Hm ND IH]; intros r Hr; [cbn in Hr; lia|]. destruct r as [|r]; cbn; [rewrite Nat.eqb_refl; reflexivity|].
  cbn in Hr. destruct (Nat.eqb_spec (nth r l 0%nat) m) as [E|E]; [|rewrite IH; lia]. exfalso. apply Hm. rewrite <- E. apply nth_In. lia.
Qed.
Lemma free_in g n : In n (net_free g) <-> (n < g_n g)%nat /\ is_free g n = true.
Proof. unfold net_free. rewrite filter_In, in_seq. split; intros [A B]; split; try assumption; lia. Qed.
Lemma free_nodup g : NoDup (net_free g).
Proof. apply NoDup_filter, seq_NoDup. Qed.

(** the incidence of a bar on degree of freedom r *)
Definition hit (g : net) (n r : nat) : R := if is_free g n then (if Nat.eqb r (index_of n (net_free g)) then 1 else 0) else 0.
Definition inc (g : net) (i j : nat) : vec := fun r => hit g j r - hit g i r.
Lemma assemble_R g RJ i j f A r : fst (assemble g RJ i j f A) r = fst RJ r + inc g i j r * f.
Proof.
  unfold assemble, inc, hit. cbn [fold_left]. destruct (is_free g i), (is_free g j); cbn [fst snd]; unfold vadd_at, sgn; cbn [Nat.eqb];
    repeat (match goal with |- context [Nat.eqb r ?x] => destruct (Nat.eqb r x) end); ring.
Qed.
Lemma assemble_J g RJ i j f A r c : snd (assemble g RJ i j f A) r c = snd RJ r c + inc g i j r * inc g i j c * A.
Proof.
  unfold assemble, inc, hit. cbn [fold_left]. destruct (is_free g i), (is_free g j); cbn [fst snd fold_left]; unfold madd_at, sgn; cbn [Nat.eqb];
    repeat (match goal with |- context [Nat.eqb r ?x] => destruct (Nat.eqb r x) end); repeat (match goal with |- context [Nat.eqb c ?x] => destruct (Nat.eqb c x) end); cbn [andb]; ring.
Qed.
(** the part of the displacement of a node that the unknowns v make *)
Definition xval (g : net) (v : vec) (n : nat) : R := if is_free g n then v (index_of n (net_free g)) else 0.
Lemma hit_dot g v n : (n < g_n g)%nat -> rsum (length (net_free g)) (fun r => hit g n r * v r) = xval g v n.
Proof.
  intros Hn. unfold hit, xval. destruct (is_free g n) eqn:E.
  - assert (L := index_lt n (net_free g) (proj2 (free_in g n) (conj Hn E))).
    rewrite (rsum_ext _ _ (fun r => delta (index_of n (net_free g)) r * v r)); [apply rsum_delta; exact L|].
    intros r _. unfold delta. rewrite (Nat.eqb_sym r). reflexivity.
  - rewrite (rsum_ext _ _ (fun _ => 0)); [apply rsum_0|]. intros. ring.
Qed.
Lemma inc_dot g v i j : (i < g_n g)%nat -> (j < g_n g)%nat -> dot (length (net_free g)) (inc g i j) v = xval g v j - xval g v i.
Proof.
  intros Hi Hj. unfold dot, inc. rewrite (rsum_ext _ _ (fun r => hit g j r * v r - hit g i r * v r)) by (intros; ring).
  rewrite rsum_minus, !hit_dot by assumption. reflexivity.
Qed.
Lemma elong_inc g d t i j : (i < g_n g)%nat -> (j < g_n g)%nat ->
  elongation g d t i j = elongation g (fun _ => 0) t i j + dot (length (net_free g)) (inc g i j) d.
Proof.
  intros Hi Hj. rewrite inc_dot by assumption. unfold elongation, node_disp, xval, is_free, sgn. cbn [Nat.eqb].
  destruct (n_fix (g_node g i)), (n_fix (g_node g j)); ring.
Qed.

(** ** the loop over the bars *)
Lemma bars_spec g d t1 t0 : forall es qs RJ RJ' qs', length qs = length es -> bars_RJ g d t1 t0 es qs RJ = Ret (RJ', qs') ->
  length qs' = length es /\
  (forall k i j b, nth_error es k = Some (i, j, b) -> exists q q' K, nth_error qs k = Some q /\ nth_error qs' k = Some q' /\
     update_force b q (elongation g d t1 i j) t1 t0 = Ret (q', (bs_stress q' * b_A b, K))) /\
  (forall r, fst RJ' r = fst RJ r + sum_over (combine es qs') (fun x => let '((i, j, b), q) := x in inc g i j r * (bs_stress q * b_A b))) /\
  exists Ks, length Ks = length es /\
   (forall k i j b, nth_error es k = Some (i, j, b) -> exists q q' f K, nth_error qs k = Some q /\ nth_error Ks k = Some K /\
      update_force b q (elongation g d t1 i j) t1 t0 = Ret (q', (f, K))) /\
   (forall r c, snd RJ' r c = snd RJ r c + sum_over (combine es Ks) (fun x => let '((i, j, b), K) := x in inc g i j r * inc g i j c * K)).
Proof.
  induction es as [|[[i j] b] es IH]; intros qs RJ RJ' qs' HL.
  - intros E. destruct qs; [|discriminate]. cbn in E. injection E as <- <-. split; [reflexivity|]. split; [intros [|k] ? ? ? Q; discriminate|]. split; [intros; cbn; ring|].
    exists []. split; [reflexivity|]. split; [intros [|k] ? ? ? Q; discriminate|]. intros. cbn. ring.
  - destruct qs as [|q qs]; [discriminate|]. cbn [bars_RJ]. injection HL as HL. intros E.
    destruct (update_force b q (elongation g d t1 i j) t1 t0) as [[q1 [f K]]|] eqn:EU; [|discriminate].
    destruct (bars_RJ g d t1 t0 es qs (assemble g RJ i j f K)) as [[RJ1 qs1]|] eqn:EB; [|discriminate]. injection E as <- <-.
    assert (Ef : f = bs_stress q1 * b_A b).
    { revert EU. unfold update_force. cbv zeta. destruct (bm_update _ _ _ _ _ _ _ _ _ _ _); [|discriminate]. intros Q. injection Q as <- <- <-. reflexivity. }
    destruct (IH qs _ _ _ HL EB) as (L1 & HB & HR & Ks & LK & HK & HJ).
    split; [cbn; lia|]. split; [|split].
    + intros [|k] a c e Q; [|exact (HB k a c e Q)]. injection Q as <- <- <-. exists q, q1, K. cbn. rewrite <- Ef. auto.
    + intros r. rewrite HR, assemble_R. cbn [combine sum_over fold_right]. rewrite Ef. unfold sum_over. ring.
    + exists (K :: Ks). split; [cbn; lia|]. split.
      * intros [|k] a c e Q; [|exact (HK k a c e Q)]. injection Q as <- <- <-. exists q, q1, f, K. cbn. auto.
      * intros r c. rewrite HJ, assemble_J. cbn [combine sum_over fold_right]. unfold sum_over. ring.
Qed.

(** ** one entry *)
Lemma node_force_pull g s n : ns_force s n = node_force n (g_edges g) (ns_bars s) -> ns_force s n = bar_pull g s n.
Proof.
  intros ->. unfold bar_pull. generalize (g_edges g) (ns_bars s). induction l as [|[[i j] b] es IH]; intros [|q qs]; try reflexivity.
  cbn [node_force combine sum_over fold_right]. rewrite IH. unfold sgn, sum_over. cbn [Nat.eqb]. destruct (Nat.eqb n i), (Nat.eqb n j); ring.
Qed.
Lemma bar_sum_so v es qs : bar_sum v es qs = sum_over (combine es qs) (fun x => let '((i, j, b), q) := x in v q * (b_A b * b_l b)).
Proof.
  revert qs. induction es as [|[[i j] b] es IH]; intros [|q qs]; try reflexivity. cbn [bar_sum combine sum_over fold_right]. rewrite IH. unfold sum_over. ring.
Qed.
Lemma force_is_moved b q d t1 t0 q' f K : b_l b <> 0 -> update_force b q d t1 t0 = Ret (q', (f, K)) -> forall i j (disp : nat -> R), d = disp j - disp i ->
  bar_moved b i j disp t1 t0 q q'.
Proof.
  intros Hl E i j disp ->. revert E. unfold update_force. cbv zeta. destruct (bm_update _ _ _ _ _ _ _ _ _ _ _) as [r|] eqn:EU; [|discriminate].
  intros Q. injection Q as <- _ _. unfold bar_moved. cbn. split; [reflexivity|]. split; [field; exact Hl|]. split; [field|]. split; [ring|].
  exists (ur_A r). rewrite EU. split; [destruct r; reflexivity|reflexivity].
Qed.
Lemma update_moved g H dt d RJ qs : net_wf g -> length (ns_bars (fst H)) = length (g_edges g) -> net_RJ g (fst H) dt d = Ret (RJ, qs) ->
  moved g (fst H) (fst (apply_update g H d dt qs)).
Proof.
  intros W HL E. unfold net_RJ in E. destruct (bars_spec g d _ _ _ _ _ _ _ HL E) as (L & HB & _ & _). unfold apply_update. cbn [fst].
  split; [|split; [|split; [|split]]]; cbn [ns_disp ns_time ns_bars ns_force ns_energy].
  - intros n f Hf. unfold node_disp. rewrite Hf. reflexivity.
  - exact L.
  - intros k i j b Hk. destruct (HB k i j b Hk) as (q & q' & K & Eq & Eq' & EU). exists q, q'. split; [exact Eq|]. split; [exact Eq'|].
    destruct (W i j b (nth_error_In _ _ Hk)) as (_ & _ & Hl). apply (force_is_moved _ _ _ _ _ _ _ _ Hl EU).
    unfold elongation, sgn. cbn [Nat.eqb]. ring.
  - intros n. exact (node_force_pull g (fst (apply_update g H d dt qs)) n eq_refl).
  - apply bar_sum_so.
Qed.
Lemma residual_is_unbalance g H dt d R J qs : net_wf g -> length (ns_bars (fst H)) = length (g_edges g) -> net_RJ g (fst H) dt d = Ret (R, J, qs) ->
  norm2 (length (net_free g)) R = unbalance g (fst (apply_update g H d dt qs)).
Proof.
  intros W HL E. destruct (bars_spec g d _ _ _ _ _ _ _ HL E) as (L & _ & HR & _). unfold norm2, unbalance. f_equal. unfold dot.
  change (free_nodes g) with (net_free g). rewrite so_nth. apply rsum_ext. intros r Hr. rewrite HR. cbn [fst].
  set (n := nth r (net_free g) 0%nat).
  assert (Hn : In n (net_free g)) by (apply nth_In; exact Hr).
  assert (EF : sum_over (combine (g_edges g) qs) (fun x => let '((i, j, b), q) := x in inc g i j r * (bs_stress q * b_A b)) = ns_force (fst (apply_update g H d dt qs)) n).
  { rewrite (node_force_pull g (fst (apply_update g H d dt qs)) n) by reflexivity. unfold bar_pull. apply so_ext. intros [[[i j] b] q] Hx.
    destruct (W i j b (in_combine_l _ _ _ _ Hx)) as (Hi & Hj & _).
    assert (HH : forall m, (m < g_n g)%nat -> hit g m r = if Nat.eqb n m then 1 else 0).
    { intros m Hm. unfold hit. assert (Er : index_of n (net_free g) = r) by (apply index_nth; [apply free_nodup|exact Hr]).
      destruct (Nat.eqb_spec n m) as [->|Nm].
      - rewrite (proj2 (proj1 (free_in g m) Hn)), Er, Nat.eqb_refl. reflexivity.
      - destruct (is_free g m) eqn:Em; [|reflexivity]. destruct (Nat.eqb_spec r (index_of m (net_free g))) as [Q|Q]; [|reflexivity]. exfalso. apply Nm.
        assert (Im : In m (net_free g)) by (apply free_in; split; assumption). rewrite <- (nth_index m _ Im), <- Q. reflexivity. }
    unfold inc. rewrite (HH i Hi), (HH j Hj). destruct (Nat.eqb n i), (Nat.eqb n j); ring. }
  rewrite EF. change (applied g n (ns_time (fst (apply_update g H d dt qs)))) with (ext_force g (ns_time (fst H) + dt) n). ring.
Qed.

(** an attempt that succeeds *)
Lemma try_parts solve g o H dt ef H' : net_try solve g o H dt ef = Ret H' -> exists d R J qs R0 J0 qs0,
  net_RJ g (fst H) dt d = Ret (R, J, qs) /\ net_RJ g (fst H) dt (make_guess g H (o_extra o) ef) = Ret (R0, J0, qs0) /\
  H' = apply_update g H d dt qs /\
  (norm2 (length (net_free g)) R <= o_rtol o * norm2 (length (net_free g)) R0 \/ norm2 (length (net_free g)) R <= o_atol o).
Proof.
  unfold net_try. destruct (py_newton _ _ _ _ _ _ _) as [[[d D] i]|] eqn:EN; [|discriminate].
  assert (NN : no_nan (net_sys solve g (fst H) dt (make_guess g H (o_extra o) ef))) by (intros x d0 _; eexists; reflexivity).
  destruct (run_converged _ _ _ _ _ _ _ _ _ NN EN) as (D0 & E0 & E1 & C & _).
  cbn [net_sys vec_sys sys_RJ sys_init] in E0, E1. destruct (net_RJ g (fst H) dt d) as [[[R J] qs]|] eqn:ER; [|discriminate].
  destruct (net_RJ g (fst H) dt (make_guess g H (o_extra o) ef)) as [[[R0 J0] qs0]|] eqn:ER0; [|discriminate].
  injection E0 as <-. injection E1 as <-. intros Q. injection Q as <-. exists d, R, J, qs, R0, J0, qs0. repeat split; auto.
  destruct C as (a & b & Ea & Eb & C). cbn in Ea, Eb. injection Ea as <-. injection Eb as <-. exact C.
Qed.
Lemma try_equilibrium solve g o H dt ef H' : net_wf g -> length (ns_bars (fst H)) = length (g_edges g) -> net_try solve g o H dt ef = Ret H' ->
  snd H' = whole H /\ in_equilibrium g o (fst H) (fst H') /\ ns_time (fst H') = ns_time (fst H) + dt.
Proof.
  intros W HL E. destruct (try_parts _ _ _ _ _ _ _ E) as (d & R & J & qs & R0 & J0 & qs0 & ER & ER0 & -> & C).
  split; [reflexivity|]. split; [|reflexivity]. split; [exact (update_moved g H dt d _ qs W HL ER)|].
  exists (fst (apply_update g H (make_guess g H (o_extra o) ef) dt qs0)). split; [exact (update_moved g H dt _ _ qs0 W HL ER0)|]. split; [reflexivity|].
  split; [|rewrite <- (residual_is_unbalance g H dt d R J qs W HL ER), <- (residual_is_unbalance g H dt _ R0 J0 qs0 W HL ER0); exact C].
  intros EX n Hn. change (free_nodes g) with (net_free g) in Hn. cbn [apply_update fst ns_disp]. unfold node_disp. destruct (proj1 (free_in g n) Hn) as [_ F].
  unfold is_free in F. destruct (n_fix (g_node g n)); [discriminate|]. unfold make_guess. rewrite EX. rewrite (nth_index n _ Hn). reflexivity.
Qed.

(** ** runs *)
Lemma loop_chain solve g o total : net_wf g -> forall fuel H dt att curr tr ef H' r,
  chain (in_equilibrium g o) (fst (net_init g)) (fst H) (snd H) /\ length (ns_bars (fst H)) = length (g_edges g) ->
  net_loop fuel solve g o total H dt att curr tr ef = (H', r) ->
  chain (in_equilibrium g o) (fst (net_init g)) (fst H') (snd H') /\ length (ns_bars (fst H')) = length (g_edges g).
Proof.
  intros W. induction fuel as [|fuel IH]; intros H dt att curr tr ef H' r [HC HL]; cbn [net_loop].
  - intros Q. injection Q as <- _. auto.
  - destruct (Rlt_dec curr total); [|intros Q; injection Q as <- _; auto]. destruct (net_try solve g o H dt ef) as [H1|e] eqn:E.
    + destruct (try_equilibrium _ _ _ _ _ _ _ W HL E) as (S1 & E1 & _). apply IH. rewrite S1. split; [split; assumption|]. exact (proj1 (proj2 (proj1 E1))).
    + destruct (Nat.eqb (S tr) (o_ndiv o)); [intros Q; injection Q as <- _; auto|]. apply IH. auto.
Qed.
Lemma reach_equilibrium solve g o H : net_wf g -> net_reach solve g o H ->
  chain (in_equilibrium g o) (fst (net_init g)) (fst H) (snd H).
Proof.
  intros W R. enough (chain (in_equilibrium g o) (fst (net_init g)) (fst H) (snd H) /\ length (ns_bars (fst H)) = length (g_edges g)) by tauto.
  induction R as [|fuel H dt H' r R IH E]; [split; [reflexivity|cbn; apply map_length]|]. exact (loop_chain _ _ _ _ W _ _ _ _ _ _ _ _ _ IH E).
Qed.
Lemma reach_bars solve g o H : net_wf g -> net_reach solve g o H -> length (ns_bars (fst H)) = length (g_edges g).
Proof.
  intros W R. enough (chain (in_equilibrium g o) (fst (net_init g)) (fst H) (snd H) /\ length (ns_bars (fst H)) = length (g_edges g)) by tauto.
  induction R as [|fuel H dt H' r R IH E]; [split; [reflexivity|cbn; apply map_length]|]. exact (loop_chain _ _ _ _ W _ _ _ _ _ _ _ _ _ IH E).
Qed.
(** the forces of the bars on all nodes add up to nothing *)
Lemma pulls_cancel g s : net_wf g -> rsum (g_n g) (fun n => bar_pull g s n) = 0.
Proof.
  intros W. unfold bar_pull. rewrite so_rsum. rewrite (so_ext _ _ (fun _ => 0)); [apply so_zero|]. intros [[[i j] b] q] Hx. destruct (W i j b (in_combine_l _ _ _ _ Hx)) as (Hi & Hj & _).
  rewrite rsum_minus. rewrite (rsum_ext _ (fun n => if Nat.eqb n j then _ else 0) (fun n => delta j n * (bs_stress q * b_A b))) by (intros n _; unfold delta; rewrite (Nat.eqb_sym j); destruct (Nat.eqb n j); ring).
  rewrite (rsum_ext _ (fun n => if Nat.eqb n i then _ else 0) (fun n => delta i n * (bs_stress q * b_A b))) by (intros n _; unfold delta; rewrite (Nat.eqb_sym i); destruct (Nat.eqb n i); ring).
  rewrite !(rsum_delta _ _ (fun _ => bs_stress q * b_A b)) by assumption. ring.
Qed.
Lemma chain_all (P : nst -> nst -> Prop) start s old : chain P start s old -> forall x, In x (s :: old) -> x = start \/ exists p, In p (s :: old) /\ P p x.
Proof.
  revert s. induction old as [|p old IH]; intros s HC x [<-|Hx].
  - left. exact HC.
  - destruct Hx.
  - right. exists p. split; [right; left; reflexivity|]. exact (proj1 HC).
  - destruct (IH p (proj2 HC) x Hx) as [E|(y & Hy & HP)]; [left; exact E|right; exists y; split; [right; exact Hy|exact HP]].
Qed.
Lemma reach_selfbalance solve g o H s : net_wf g -> net_reach solve g o H -> In s (whole H) -> rsum (g_n g) (fun n => ns_force s n) = 0.
Proof.
  intros W R Hs. destruct (chain_all _ _ _ _ (reach_equilibrium _ _ _ _ W R) s Hs) as [->|(p & _ & HM & _)]; [cbn; apply rsum_0|].
  rewrite (rsum_ext _ _ (fun n => bar_pull g s n)); [apply pulls_cancel; exact W|]. intros n _. apply HM.
Qed.
(** what is recorded as dissipation is the energy *)
Lemma loop_diss solve g o total : forall fuel H dt att curr tr ef H' r, (forall s, In s (whole H) -> ns_diss s = ns_energy s) ->
  net_loop fuel solve g o total H dt att curr tr ef = (H', r) -> forall s, In s (whole H') -> ns_diss s = ns_energy s.
Proof.
  induction fuel as [|fuel IH]; intros H dt att curr tr ef H' r HD; cbn [net_loop].
  - intros Q. injection Q as <- _. exact HD.
  - destruct (Rlt_dec curr total); [|intros Q; injection Q as <- _; exact HD]. destruct (net_try solve g o H dt ef) as [H1|e] eqn:E.
    + apply IH. destruct (try_parts _ _ _ _ _ _ _ E) as (d & R & J & qs & _ & _ & _ & _ & _ & -> & _). intros s [<-|Hs]; [reflexivity|exact (HD s Hs)].
    + destruct (Nat.eqb (S tr) (o_ndiv o)); [intros Q; injection Q as <- _; exact HD|]. apply IH. exact HD.
Qed.
Lemma reach_diss solve g o H s : net_reach solve g o H -> In s (whole H) -> ns_diss s = ns_energy s.
Proof.
  intros R. revert s. induction R as [|fuel H dt H' r R IH E]; [intros s [<-|[]]; reflexivity|]. exact (loop_diss _ _ _ _ _ _ _ _ _ _ _ _ _ IH E).
Qed.

(** ** substeps *)
Definition times_from (t0 h : R) (k : nat) (s : nst) : Prop := exists c, (1 <= c)%nat /\ ns_time s = t0 + INR c * h.
Lemma loop_time solve g o k DT t0 H0 : (1 <= k)%nat -> o_dfact o = INR k -> ns_time (fst H0) = t0 ->
  forall fuel H tr c ef new H' r, (c <= k ^ tr)%nat -> goes_on_from H0 new H -> ns_time (fst H) = t0 + INR c * (DT / INR k ^ tr) ->
  Forall (fun s => exists m, ns_time s - t0 = (INR m / INR k ^ tr) * DT /\ (0 < m <= k ^ tr)%nat) new ->
  (tr < o_ndiv o)%nat ->
  net_loop fuel solve g o (INR k ^ o_ndiv o) H (DT / INR k ^ tr) (INR k ^ o_ndiv o / INR k ^ tr) (INR c * (INR k ^ o_ndiv o / INR k ^ tr)) tr ef = (H', r) ->
  exists new' n, goes_on_from H0 new' H' /\ (n < o_ndiv o)%nat /\
    Forall (fun s => exists m, ns_time s - t0 = (INR m / INR k ^ n) * DT /\ (0 < m <= k ^ n)%nat) new' /\
    (r = Ret tt -> ns_time (fst H') = t0 + DT).
Proof.
  intros Hk Hd Ht. assert (Pk : 0 < INR k) by (apply lt_0_INR; lia).
  assert (Pp : forall n, 0 < INR k ^ n) by (intros; apply pow_lt; exact Pk).
  induction fuel as [|fuel IH]; intros H tr c ef new H' r Hc HG HT HN Htr; cbn [net_loop].
  - intros Q. injection Q as <- <-. exists new, tr. repeat split; try assumption. discriminate.
  - assert (PA : 0 < INR k ^ o_ndiv o / INR k ^ tr) by (apply Rdiv_lt_0_compat; apply Pp).
    destruct (Rlt_dec _ _) as [L|L].
    2:{ intros Q. injection Q as <- <-. exists new, tr. repeat split; try assumption. intros _. rewrite HT.
      assert (c = (k ^ tr)%nat).
      { destruct (Nat.eq_dec c (k ^ tr)) as [E|E]; [exact E|]. exfalso. apply L.
        assert (L2 : INR c < INR k ^ tr) by (rewrite <- pow_INR; apply lt_INR; lia).
        apply Rlt_le_trans with (INR k ^ tr * (INR k ^ o_ndiv o / INR k ^ tr)); [apply Rmult_lt_compat_r; assumption|]. right. field. apply Rgt_not_eq, Pp. }
      subst c. rewrite pow_INR. field. apply Rgt_not_eq, Pp. }
    assert (Lc : (c < k ^ tr)%nat).
    { apply INR_lt. rewrite pow_INR. apply Rmult_lt_reg_r with (INR k ^ o_ndiv o / INR k ^ tr); [exact PA|]. replace (INR k ^ tr * _) with (INR k ^ o_ndiv o) by (field; apply Rgt_not_eq, Pp). exact L. }
    destruct (net_try solve g o H _ ef) as [H1|e] eqn:E.
    + destruct (try_parts _ _ _ _ _ _ _ E) as (d & R & J & qs & _ & _ & _ & _ & _ & -> & _).
      replace (INR c * (INR k ^ o_ndiv o / INR k ^ tr) + INR k ^ o_ndiv o / INR k ^ tr) with (INR (S c) * (INR k ^ o_ndiv o / INR k ^ tr)) by (rewrite S_INR; ring).
      apply (IH _ tr (S c) 1 (fst (apply_update g H d (DT / INR k ^ tr) qs) :: new)); try assumption; try lia.
      * unfold goes_on_from in *. cbn [whole apply_update fst snd app]. cbn [whole] in HG. rewrite <- HG. reflexivity.
      * cbn [apply_update fst ns_time]. rewrite HT, S_INR. ring.
      * constructor; [|exact HN]. exists (S c). split; [|lia]. cbn [apply_update fst ns_time]. rewrite HT, S_INR. field. apply Rgt_not_eq, Pp.
    + destruct (Nat.eqb_spec (S tr) (o_ndiv o)) as [Q|Q].
      * intros Q2. injection Q2 as <- <-. exists new, tr. repeat split; try assumption. discriminate.
      * rewrite Hd. replace (DT / INR k ^ tr / INR k) with (DT / INR k ^ S tr) by (cbn [pow]; field; repeat split; apply Rgt_not_eq; first [exact Pk|apply Pp]).
        replace (INR k ^ o_ndiv o / INR k ^ tr / INR k) with (INR k ^ o_ndiv o / INR k ^ S tr) by (cbn [pow]; field; repeat split; apply Rgt_not_eq; first [exact Pk|apply Pp]).
        replace (INR c * (INR k ^ o_ndiv o / INR k ^ tr)) with (INR (c * k) * (INR k ^ o_ndiv o / INR k ^ S tr)) by (rewrite mult_INR; cbn [pow]; field; repeat split; apply Rgt_not_eq; first [exact Pk|apply Pp]).
        apply (IH H (S tr) (c * k)%nat _ new); try assumption; try lia.
        -- cbn [Nat.pow]. nia.
        -- rewrite HT, mult_INR. cbn [pow]. field. repeat split; apply Rgt_not_eq; first [exact Pk|apply Pp].
        -- eapply Forall_impl; [|exact HN]. intros s (m & Em & Lm). exists (m * k)%nat. split; [rewrite Em, mult_INR; cbn [pow]; field; repeat split; apply Rgt_not_eq; first [exact Pk|apply Pp]|cbn [Nat.pow]; nia].
Qed.
(** a call of solve only adds entries, at whole fractions of the step, and when it returns the last
    one is at the end of the step *)
Lemma solve_time fuel solve g o H dt H' r k : (1 <= k)%nat -> o_dfact o = INR k -> (1 <= o_ndiv o)%nat -> net_solve fuel solve g o H dt = (H', r) ->
  exists new n, goes_on_from H new H' /\ (n < o_ndiv o)%nat /\
    Forall (fun s => exists m, ns_time s - ns_time (fst H) = (INR m / INR k ^ n) * dt /\ (0 < m <= k ^ n)%nat) new /\
    (r = Ret tt -> ns_time (fst H') = ns_time (fst H) + dt).
Proof.
  intros Hk Hd Hn E. unfold net_solve in E. cbv zeta in E. rewrite Hd in E.
  apply (loop_time solve g o k dt (ns_time (fst H)) H Hk Hd eq_refl fuel H 0 0 1 [] H' r); try reflexivity; try lia.
  - cbn. lra.
  - constructor.
  - cbn [pow INR]. replace (dt / 1) with dt by field. replace (INR k ^ o_ndiv o / 1) with (INR k ^ o_ndiv o) by field. rewrite Rmult_0_l. exact E.
Qed.
(** and it ends *)
Lemma loop_ends solve g o k : (1 <= k)%nat -> o_dfact o = INR k -> forall fuel H dt tr c ef, (c <= k ^ tr)%nat -> (tr < o_ndiv o)%nat ->
  ((k ^ tr - c) * k ^ (o_ndiv o - 1 - tr) + (o_ndiv o - tr) < fuel)%nat ->
  (forall H dt ef, net_try solve g o H dt ef <> Raise Spins) ->
  snd (net_loop fuel solve g o (INR k ^ o_ndiv o) H dt (INR k ^ o_ndiv o / INR k ^ tr) (INR c * (INR k ^ o_ndiv o / INR k ^ tr)) tr ef) <> Raise Spins.
Proof.
  intros Hk Hd. assert (Pk : 0 < INR k) by (apply lt_0_INR; lia). assert (Pp : forall n, 0 < INR k ^ n) by (intros; apply pow_lt; exact Pk).
  assert (Np : forall n, (1 <= k ^ n)%nat) by (intros n; assert (k ^ n <> 0)%nat by (apply Nat.pow_nonzero; lia); lia).
  induction fuel as [|fuel IH]; intros H dt tr c ef Hc Htr HF HS; [inversion HF|]. cbn [net_loop].
  assert (PA : 0 < INR k ^ o_ndiv o / INR k ^ tr) by (apply Rdiv_lt_0_compat; apply Pp).
  destruct (Rlt_dec _ _) as [L|L]; [|discriminate].
  assert (Lc : (c < k ^ tr)%nat).
  { apply INR_lt. rewrite pow_INR. apply Rmult_lt_reg_r with (INR k ^ o_ndiv o / INR k ^ tr); [exact PA|]. replace (INR k ^ tr * _) with (INR k ^ o_ndiv o) by (field; apply Rgt_not_eq, Pp). exact L. }
  assert (N1 := Np (o_ndiv o - 1 - tr)%nat).
  destruct (net_try solve g o H dt ef) as [H1|e] eqn:E.
  - replace (INR c * (INR k ^ o_ndiv o / INR k ^ tr) + INR k ^ o_ndiv o / INR k ^ tr) with (INR (S c) * (INR k ^ o_ndiv o / INR k ^ tr)) by (rewrite S_INR; ring).
    apply IH; try assumption; try lia.
  - destruct (Nat.eqb_spec (S tr) (o_ndiv o)) as [Q|Q]; [cbn [snd]; intros Q2; injection Q2 as ->; exact (HS _ _ _ E)|].
    rewrite Hd. replace (INR k ^ o_ndiv o / INR k ^ tr / INR k) with (INR k ^ o_ndiv o / INR k ^ S tr) by (cbn [pow]; field; repeat split; apply Rgt_not_eq; first [exact Pk|apply Pp]).
    replace (INR c * (INR k ^ o_ndiv o / INR k ^ tr)) with (INR (c * k) * (INR k ^ o_ndiv o / INR k ^ S tr)) by (rewrite mult_INR; cbn [pow]; field; repeat split; apply Rgt_not_eq; first [exact Pk|apply Pp]).
    apply IH; [cbn [Nat.pow]; nia|lia| |exact HS]. replace (o_ndiv o - 1 - tr)%nat with (S (o_ndiv o - 1 - S tr)) in HF by lia. cbn [Nat.pow] in HF.
    replace ((k ^ S tr - c * k) * k ^ (o_ndiv o - 1 - S tr))%nat with ((k ^ tr - c) * (k * k ^ (o_ndiv o - 1 - S tr)))%nat; [lia|].
    cbn [Nat.pow]. rewrite Nat.mul_assoc. f_equal. nia.
Qed.
Lemma bars_quiet g d t1 t0 : forall es qs RJ, (forall i j b, In (i, j, b) es -> forall e e0 T T0 t t0 s h u p, bm_update (b_mat b) e e0 T T0 t t0 s h u p <> Raise Spins) ->
  bars_RJ g d t1 t0 es qs RJ <> Raise Spins.
Proof.
  induction es as [|[[i j] b] es IH]; intros qs RJ HQ; [discriminate|]. destruct qs as [|q qs]; [discriminate|]. cbn [bars_RJ].
  destruct (update_force b q _ t1 t0) as [[q1 [f K]]|e] eqn:EU.
  - destruct (bars_RJ g d t1 t0 es qs _) as [[RJ1 qs1]|e] eqn:EB; [discriminate|]. intros Q. injection Q as ->. refine (IH _ _ _ EB). intros i' j' b' H'. apply (HQ i' j' b'). right. exact H'.
  - intros Q. injection Q as ->. revert EU. unfold update_force. cbv zeta. destruct (bm_update _ _ _ _ _ _ _ _ _ _ _) eqn:E; [discriminate|]. intros Q. injection Q as ->. exact (HQ i j b (or_introl eq_refl) _ _ _ _ _ _ _ _ _ _ E).
Qed.
Lemma try_quiet solve g o H dt ef : quiet g -> net_try solve g o H dt ef <> Raise Spins.
Proof.
  intros HQ. unfold net_try. destruct (py_newton _ _ _ _ _ _ _) as [[[d D] i]|e] eqn:EN.
  - destruct (net_RJ g (fst H) dt d) as [[[R J] qs]|e] eqn:E; [discriminate|]. intros Q. injection Q as ->. exact (bars_quiet g d _ _ _ _ _ HQ E).
  - intros Q. injection Q as ->. refine (run_stops _ _ _ _ _ _ _ _ EN). intros. discriminate.
Qed.
Lemma solve_ends solve g o H dt k : (1 <= k)%nat -> o_dfact o = INR k -> (1 <= o_ndiv o)%nat -> quiet g -> forall fuel, (k ^ (o_ndiv o - 1) + o_ndiv o < fuel)%nat ->
  snd (net_solve fuel solve g o H dt) <> Raise Spins.
Proof.
  intros Hk Hd Hn HQ fuel HF. unfold net_solve. cbv zeta. rewrite Hd.
  assert (E := loop_ends solve g o k Hk Hd fuel H dt 0 0 1 ltac:(cbn; lia) ltac:(lia) ltac:(rewrite !Nat.sub_0_r; cbn [Nat.pow]; lia) (fun H dt ef => try_quiet solve g o H dt ef HQ)).
  cbn [pow INR] in E. replace (INR k ^ o_ndiv o / 1) with (INR k ^ o_ndiv o) in E by field. rewrite Rmult_0_l in E. exact E.
Qed.
(** with ndiv = 0 a step that fails is divided for ever *)
Lemma loop_ndiv0 solve g o H total : o_ndiv o = 0%nat -> (forall dt ef, exists e, net_try solve g o H dt ef = Raise e) -> 0 < total ->
  forall fuel dt att tr ef, net_loop fuel solve g o total H dt att 0 tr ef = (H, Raise Spins).
Proof.
  intros Hn HT Hp. induction fuel as [|fuel IH]; intros dt att tr ef; [reflexivity|]. cbn [net_loop]. destruct (Rlt_dec 0 total); [|contradiction].
  destruct (HT dt ef) as [e ->]. rewrite Hn. cbn [Nat.eqb]. apply IH.
Qed.

(** ** the Jacobian *)
Lemma elong_path g (d : R -> vec) w v t i j : (i < g_n g)%nat -> (j < g_n g)%nat -> path (length (net_free g)) d w v ->
  is_derive (fun z => elongation g (d z) t i j) w (dot (length (net_free g)) (inc g i j) v).
Proof.
  intros Hi Hj P. apply (D_ext (fun z => elongation g (fun _ => 0) t i j + dot (length (net_free g)) (inc g i j) (d z))); [intros z; symmetry; apply elong_inc; assumption|].
  eapply D_eq; [apply D_plus; [apply D_const|apply (D_rsum _ (fun z r => inc g i j r * d z r) w (fun r => inc g i j r * v r)); intros r Hr]|unfold dot; ring].
  eapply D_eq; [apply D_mult; [apply D_const|apply P; exact Hr]|cbv beta; ring].
Qed.
Lemma bars_jac g (d : R -> vec) w v t1 t0 : path (length (net_free g)) d w v ->
  forall es qs (R0 Rz : R -> vec) (J0 Jz : R -> mat) (Q : R -> list bst) dR0, length qs = length es ->
  (forall i j b, In (i, j, b) es -> (i < g_n g)%nat /\ (j < g_n g)%nat /\ b_l b <> 0) ->
  (forall k i j b q, nth_error es k = Some (i, j, b) -> nth_error qs k = Some q -> bar_slope b q t1 t0) ->
  (forall r, is_derive (fun z => R0 z r) w (dR0 r)) ->
  locally w (fun z => bars_RJ g (d z) t1 t0 es qs (R0 z, J0 z) = Ret (Rz z, Jz z, Q z)) ->
  forall r, is_derive (fun z => Rz z r) w (dR0 r + (mv (length (net_free g)) (Jz w) v r - mv (length (net_free g)) (J0 w) v r)).
Proof.
  intros P. induction es as [|[[i j] b] es IH]; intros qs R0 Rz J0 Jz Q dR0 HL HW HS HR HB r.
  - assert (E0 := locally_singleton _ _ HB). cbn in E0. injection E0 as ER EJ EQ. rewrite EJ. eapply D_eq; [|symmetry; rewrite Rminus_eq_0, Rplus_0_r; reflexivity].
    eapply (D_loc (fun z => R0 z r)); [|apply HR]. eapply filter_imp; [|exact HB]. intros z Ez. cbn in Ez. injection Ez as Ez _ _. rewrite Ez. reflexivity.
  - destruct qs as [|q qs]; [discriminate|]. injection HL as HL. destruct (HW i j b (or_introl eq_refl)) as (Hi & Hj & Hl).
    pose (dflt := (q, (0, 0)) : bst * (R * R)).
    pose (U := fun z => match update_force b q (elongation g (d z) t1 i j) t1 t0 with Ret x => x | Raise _ => dflt end).
    pose (f := fun z => fst (snd (U z))). pose (K := fun z => snd (snd (U z))).
    assert (HB1 : locally w (fun z => update_force b q (elongation g (d z) t1 i j) t1 t0 = Ret (U z) /\
      bars_RJ g (d z) t1 t0 es qs (assemble g (R0 z, J0 z) i j (f z) (K z)) = Ret (Rz z, Jz z, List.tl (Q z)))).
    { eapply filter_imp; [|exact HB]. intros z. cbn [bars_RJ]. unfold f, K, U. destruct (update_force _ _ _ _ _) as [[q1 [f1 K1]]|]; [|discriminate]. cbn [fst snd].
      destruct (bars_RJ _ _ _ _ _ _ _) as [[RJ1 qs1]|]; [|discriminate]. intros E. injection E as E1 E2. rewrite <- E2, E1. split; reflexivity. }
    assert (Df : is_derive f w (K w * dot (length (net_free g)) (inc g i j) v)).
    { pose (ts := bs_tstrain q + (b_T b t1 - bs_temp q) * (bm_alpha (b_mat b) (b_T b t1) + bm_alpha (b_mat b) (bs_temp q)) / 2).
      pose (x := fun z => elongation g (d z) t1 i j / b_l b - ts).
      pose (rd := {| ur_s := 0; ur_h := fun _ => 0; ur_A := 0; ur_u := 0; ur_p := 0 |}).
      pose (rr := fun z => match bm_update (b_mat b) (x z) (bs_mstrain q) (b_T b t1) (bs_temp q) t1 t0 (bs_stress q) (bs_hist q) (bs_energy q) (bs_diss q) with Ret a => a | Raise _ => rd end).
      assert (HU : locally w (fun z => bm_update (b_mat b) (x z) (bs_mstrain q) (b_T b t1) (bs_temp q) t1 t0 (bs_stress q) (bs_hist q) (bs_energy q) (bs_diss q) = Ret (rr z) /\
        f z = ur_s (rr z) * b_A b /\ K z = ur_A (rr z) * b_A b / b_l b)).
      { eapply filter_imp; [|exact HB1]. intros z [E _]. unfold f, K. revert E. generalize (U z). intros [q1 [f1 K1]] E. cbn [fst snd]. unfold update_force in E. cbv zeta in E. unfold rr, x, ts.
        destruct (bm_update _ _ _ _ _ _ _ _ _ _ _); [|discriminate]. injection E as _ <- <-. auto. }
      assert (Dx : is_derive x w (dot (length (net_free g)) (inc g i j) v / b_l b)).
      { eapply D_eq; [apply D_minus; [apply D_div; [apply (elong_path g d w v t1 i j Hi Hj P)|apply D_const|exact Hl]|apply D_const]|cbv beta; field; exact Hl]. }
      assert (Ds := HS 0%nat i j b q eq_refl eq_refl x rr w _ Dx (filter_imp _ _ (fun z E => proj1 E) HU)).
      destruct (locally_singleton _ _ HU) as (_ & _ & EK). rewrite EK.
      eapply (D_loc (fun z => ur_s (rr z) * b_A b)); [eapply filter_imp; [|exact HU]; intros z (_ & E & _); symmetry; exact E|].
      eapply D_eq; [apply D_mult; [exact Ds|apply D_const]|cbv beta; field; exact Hl]. }
    assert (HR' : forall r, is_derive (fun z => fst (assemble g (R0 z, J0 z) i j (f z) (K z)) r) w (dR0 r + inc g i j r * (K w * dot (length (net_free g)) (inc g i j) v))).
    { intros a. apply (D_ext (fun z => R0 z a + inc g i j a * f z)); [intros z; rewrite assemble_R; reflexivity|]. apply D_plus; [apply HR|].
      eapply D_eq; [apply D_mult; [apply D_const|exact Df]|cbv beta; ring]. }
    eapply D_eq.
    + apply (IH qs (fun z => fst (assemble g (R0 z, J0 z) i j (f z) (K z))) Rz (fun z => snd (assemble g (R0 z, J0 z) i j (f z) (K z))) Jz (fun z => List.tl (Q z)) _ HL
        ltac:(intros a c e He; apply (HW a c e); right; exact He) ltac:(intros k a c e p Hk; apply (HS (S k) a c e p Hk)) HR').
      eapply filter_imp; [|exact HB1]. intros z [_ E]. rewrite <- surjective_pairing. exact E.
    + cbv beta. assert (EM : mv (length (net_free g)) (snd (assemble g (R0 w, J0 w) i j (f w) (K w))) v r = mv (length (net_free g)) (J0 w) v r + inc g i j r * (K w * dot (length (net_free g)) (inc g i j) v)).
      { unfold mv, dot. rewrite (rsum_ext _ _ (fun c => J0 w r c * v c + inc g i j r * K w * (inc g i j c * v c))) by (intros c _; rewrite assemble_J; cbn [snd]; ring).
        rewrite rsum_plus, rsum_scal. ring. }
      rewrite EM. ring.
Qed.
Lemma net_jacobian g s dt (d : R -> vec) w v (Rz : R -> vec) (Jz : R -> mat) (Q : R -> list bst) : net_wf g -> length (ns_bars s) = length (g_edges g) ->
  (forall k i j b q, nth_error (g_edges g) k = Some (i, j, b) -> nth_error (ns_bars s) k = Some q -> bar_slope b q (ns_time s + dt) (ns_time s)) ->
  path (length (net_free g)) d w v -> locally w (fun z => net_RJ g s dt (d z) = Ret (Rz z, Jz z, Q z)) ->
  path (length (net_free g)) Rz w (mv (length (net_free g)) (Jz w) v).
Proof.
  intros W HL HS P HB r _. eapply D_eq.
  - apply (bars_jac g d w v (ns_time s + dt) (ns_time s) P (g_edges g) (ns_bars s) (fun z => fun i => 0 - ext_force g (ns_time s + dt) (nth i (net_free g) 0%nat)) Rz (fun _ _ _ => 0) Jz Q (fun _ => 0) HL W HS).
    + intros a. apply D_const.
    + exact HB.
  - cbv beta. unfold mv at 2. rewrite (rsum_ext _ (fun j => 0 * v j) (fun _ => 0)) by (intros; ring). rewrite rsum_0. ring.
Qed.
Lemma net_symmetric g s dt d R J qs : length (ns_bars s) = length (g_edges g) -> net_RJ g s dt d = Ret (R, J, qs) -> forall r c, J r c = J c r.
Proof.
  intros HL E r c. destruct (bars_spec _ _ _ _ _ _ _ _ _ HL E) as (_ & _ & _ & Ks & _ & _ & HJ). rewrite !HJ. cbn [snd]. f_equal. apply so_ext. intros [[[i j] b] K] _. ring.
Qed.
(** the quadratic form *)
Lemma quad_form g J es (Ks : list R) v : (forall i j b, In (i, j, b) es -> (i < g_n g)%nat /\ (j < g_n g)%nat) ->
  (forall r c, J r c = 0 + sum_over (combine es Ks) (fun x : nat * nat * bar * R => let '((i, j, b), K) := x in inc g i j r * inc g i j c * K)) ->
  dot (length (net_free g)) v (mv (length (net_free g)) J v) = sum_over (combine es Ks) (fun x => let '((i, j, b), K) := x in K * ((xval g v j - xval g v i) * (xval g v j - xval g v i))).
Proof.
  intros HW HJ. unfold dot, mv.
  rewrite (rsum_ext _ _ (fun r => sum_over (combine es Ks) (fun x => let '((i, j, b), K) := x in v r * inc g i j r * (K * dot (length (net_free g)) (inc g i j) v)))).
  - rewrite so_rsum. apply so_ext. intros [[[i j] b] K] Hx. destruct (HW i j b (in_combine_l _ _ _ _ Hx)) as [Hi Hj].
    rewrite <- (inc_dot g v i j Hi Hj). unfold dot. rewrite rsum_scal_r. rewrite (rsum_ext _ (fun c => v c * inc g i j c) (fun c => inc g i j c * v c)) by (intros; ring). ring.
  - intros r _. rewrite <- rsum_scal.
    rewrite (rsum_ext _ _ (fun c => sum_over (combine es Ks) (fun x => let '((i, j, b), K) := x in v r * inc g i j r * K * (inc g i j c * v c)))).
    + rewrite so_rsum. apply so_ext. intros [[[i j] b] K] _. rewrite rsum_scal. unfold dot. ring.
    + intros c _. rewrite HJ. rewrite Rplus_0_l. rewrite <- Rmult_assoc. rewrite (Rmult_comm (v r)), Rmult_assoc. rewrite (Rmult_comm (sum_over _ _)), <- so_scal. apply so_ext.
      intros [[[i j] b] K] _. ring.
Qed.
Lemma psd_nonsing g J (Ks : list R) v : net_wf g -> length Ks = length (g_edges g) -> (forall K, In K Ks -> 0 < K) -> (forall n, (n < g_n g)%nat -> supported g n) ->
  (forall r c, J r c = 0 + sum_over (combine (g_edges g) Ks) (fun x : nat * nat * bar * R => let '((i, j, b), K) := x in inc g i j r * inc g i j c * K)) ->
  veq (length (net_free g)) (mv (length (net_free g)) J v) (fun _ => 0) -> veq (length (net_free g)) v (fun _ => 0).
Proof.
  intros W HL HP HS HJ HZ.
  assert (Q := quad_form g J (g_edges g) Ks v (fun i j b H => conj (proj1 (W i j b H)) (proj1 (proj2 (W i j b H)))) HJ).
  assert (Z0 : dot (length (net_free g)) v (mv (length (net_free g)) J v) = 0).
  { unfold dot. rewrite (rsum_ext _ _ (fun _ => 0)); [apply rsum_0|]. intros r Hr. rewrite (HZ r Hr). ring. }
  rewrite Z0 in Q. symmetry in Q.
  assert (NN := so_zero_inv _ _ (fun x => match x as y return In y (combine (g_edges g) Ks) -> 0 <= (let '((i, j, b), K) := y in K * ((xval g v j - xval g v i) * (xval g v j - xval g v i))) with
     (i, j, b, K) => fun Hx => Rmult_le_pos _ _ (Rlt_le _ _ (HP K (in_combine_r _ _ _ _ Hx))) (Rle_0_sqr _) end) Q).
  assert (HE : forall i j b, In (i, j, b) (g_edges g) -> xval g v j = xval g v i).
  { intros i j b Hx. destruct (In_nth_error _ _ Hx) as [k Hk].
    assert (Lk : (k < length Ks)%nat) by (rewrite HL; apply nth_error_Some; rewrite Hk; discriminate).
    destruct (nth_error Ks k) as [K|] eqn:EK; [|apply nth_error_Some in Lk; contradiction].
    assert (HI : In (i, j, b, K) (combine (g_edges g) Ks)).
    { clear - Hk EK. revert k Ks Hk EK. induction (g_edges g) as [|e es IH]; intros [|k] [|K0 Ks] Hk EK; try discriminate.
      - injection Hk as ->. injection EK as ->. left. reflexivity.
      - right. exact (IH k Ks Hk EK). }
    assert (E := NN _ HI). cbv beta iota in E. assert (P := HP K (in_combine_r _ _ _ _ HI)).
    apply Rmult_integral in E. destruct E as [E|E]; [lra|]. apply Rmult_integral in E. destruct E; lra. }
  assert (HX : forall n, supported g n -> xval g v n = 0).
  { induction 1 as [n f Hf|i j b Hb _ IH|i j b Hb _ IH]; [unfold xval, is_free; rewrite Hf; reflexivity|rewrite (HE i j b Hb); exact IH|rewrite <- (HE i j b Hb); exact IH]. }
  intros r Hr. assert (Hn : In (nth r (net_free g) 0%nat) (net_free g)) by (apply nth_In; exact Hr). destruct (proj1 (free_in g _) Hn) as [Ln Fn].
  assert (E := HX _ (HS _ Ln)). unfold xval in E. rewrite Fn, (index_nth _ (free_nodup g) r Hr) in E. exact E.
Qed.
Lemma net_nonsing g s dt d R J qs : net_wf g -> length (ns_bars s) = length (g_edges g) -> net_RJ g s dt d = Ret (R, J, qs) ->
  (forall n, (n < g_n g)%nat -> supported g n) ->
  (forall k i j b q q' f K, nth_error (g_edges g) k = Some (i, j, b) -> nth_error (ns_bars s) k = Some q ->
     update_force b q (elongation g d (ns_time s + dt) i j) (ns_time s + dt) (ns_time s) = Ret (q', (f, K)) -> 0 < K) ->
  forall v, veq (length (net_free g)) (mv (length (net_free g)) J v) (fun _ => 0) -> veq (length (net_free g)) v (fun _ => 0).
Proof.
  intros W HL E HS HK v. destruct (bars_spec _ _ _ _ _ _ _ _ _ HL E) as (_ & _ & _ & Ks & LK & HKs & HJ).
  apply (psd_nonsing g J Ks v W LK); [|exact HS|exact HJ]. intros K HI. destruct (In_nth_error _ _ HI) as [k Ek].
  assert (Lk : (k < length (g_edges g))%nat) by (rewrite <- LK; apply nth_error_Some; rewrite Ek; discriminate).
  destruct (nth_error (g_edges g) k) as [[[i j] b]|] eqn:Ee; [|apply nth_error_Some in Lk; contradiction].
  destruct (HKs k i j b Ee) as (q & q' & f & K' & Eq & EK' & EU). rewrite Ek in EK'. injection EK' as <-. exact (HK k i j b q q' f K Ee Eq EU).
Qed.

(** ** elastic networks *)
Definition ts_next (b : bar) (q : bst) (t1 : R) : R := bs_tstrain q + (b_T b t1 - bs_temp q) * (bm_alpha (b_mat b) (b_T b t1) + bm_alpha (b_mat b) (bs_temp q)) / 2.
Lemma elastic_RJ g d t1 t0 (E : bar -> R) : forall es qs RJ, length qs = length es -> (forall i j b, In (i, j, b) es -> elastic_bar b (E b)) ->
  exists RJ' qs', bars_RJ g d t1 t0 es qs RJ = Ret (RJ', qs') /\
   (forall r, fst RJ' r = fst RJ r + sum_over (combine es qs) (fun x => let '((i, j, b), q) := x in inc g i j r * (E b * (elongation g d t1 i j / b_l b - ts_next b q t1) * b_A b))) /\
   (forall r c, snd RJ' r c = snd RJ r c + sum_over es (fun x => let '(i, j, b) := x in inc g i j r * inc g i j c * (E b * b_A b / b_l b))).
Proof.
  induction es as [|[[i j] b] es IH]; intros qs RJ HL HE.
  - destruct qs; [|discriminate]. exists RJ, []. split; [reflexivity|]. split; intros; cbn; ring.
  - destruct qs as [|q qs]; [discriminate|]. injection HL as HL. cbn [bars_RJ].
    destruct (HE i j b (or_introl eq_refl) (elongation g d t1 i j / b_l b - ts_next b q t1) (bs_mstrain q) (b_T b t1) (bs_temp q) t1 t0 (bs_stress q) (bs_hist q) (bs_energy q) (bs_diss q)) as (r & Er & Es & EA).
    unfold update_force. cbv zeta. unfold ts_next in Er, Es. rewrite Er. cbv iota beta.
    destruct (IH qs (assemble g RJ i j (ur_s r * b_A b) (ur_A r * b_A b / b_l b)) HL ltac:(intros a c e He; apply (HE a c e); right; exact He)) as (RJ' & qs' & EB & HR & HJ).
    rewrite EB. eexists _, _. split; [reflexivity|]. split.
    + intros k. rewrite HR, assemble_R, Es. cbn [combine sum_over fold_right]. unfold sum_over, ts_next. ring.
    + intros k c. rewrite HJ, assemble_J, EA. cbn [sum_over fold_right]. unfold sum_over. ring.
Qed.
Lemma elastic_try solve g o H dt ef (E : bar -> R) : solve_ok solve -> solve_total solve -> 0 <= o_rtol o -> 0 <= o_atol o -> net_wf g -> length (ns_bars (fst H)) = length (g_edges g) ->
  (forall n, (n < g_n g)%nat -> supported g n) ->
  (forall i j b, In (i, j, b) (g_edges g) -> elastic_bar b (E b) /\ 0 < E b * b_A b / b_l b) -> exists H', net_try solve g o H dt ef = Ret H'.
Proof.
  intros HO HT Hr Ha W HL HS HE.
  set (nf := length (net_free g)). set (t1 := ns_time (fst H) + dt).
  pose (K := fun r c => sum_over (g_edges g) (fun x => let '(i, j, b) := x in inc g i j r * inc g i j c * (E b * b_A b / b_l b)) : R).
  pose (bb := fun r => ext_force g t1 (nth r (net_free g) 0%nat) - sum_over (combine (g_edges g) (ns_bars (fst H))) (fun x => let '((i, j, b), q) := x in
     inc g i j r * (E b * (elongation g (fun _ => 0) t1 i j / b_l b - ts_next b q t1) * b_A b))).
  assert (HRJ : forall x, exists R J qs, net_RJ g (fst H) dt x = Ret (R, J, qs) /\ veq nf R (fun i => mv nf K x i - bb i) /\ forall r c, J r c = K r c).
  { intros x. destruct (elastic_RJ g x t1 (ns_time (fst H)) E (g_edges g) (ns_bars (fst H)) (fun i => 0 - ext_force g t1 (nth i (net_free g) 0%nat), fun _ _ => 0) HL ltac:(intros i j b Hb; apply (HE i j b Hb))) as ([R J] & qs & EB & HR & HJ).
    exists R, J, qs. split; [exact EB|]. split; [|intros r c; rewrite (HJ r c : J r c = _); cbn [snd]; unfold K; ring].
    intros r Hr0. rewrite (HR r : R r = _). cbn [fst]. unfold bb.
    assert (EK : mv nf K x r = sum_over (combine (g_edges g) (ns_bars (fst H))) (fun y => let '((i, j, b), q) := y in inc g i j r * (E b * (dot nf (inc g i j) x / b_l b) * b_A b))).
    { unfold mv, K. rewrite (rsum_ext _ _ (fun c => sum_over (g_edges g) (fun y => let '(i, j, b) := y in inc g i j r * (E b * b_A b / b_l b) * (inc g i j c * x c)))).
      - rewrite so_rsum. rewrite (so_ext _ _ (fun y => let '(i, j, b) := y in inc g i j r * (E b * (dot nf (inc g i j) x / b_l b) * b_A b))).
        + revert HL. clear. generalize (ns_bars (fst H)). induction (g_edges g) as [|[[i j] b] es IH]; intros [|q qs] HL; try discriminate; [reflexivity|].
          cbn [combine sum_over fold_right]. f_equal. apply IH. injection HL as HL. exact HL.
        + intros [[i j] b] Hb. rewrite rsum_scal. unfold dot, nf. field. apply (W i j b Hb).
      - intros c _. rewrite (Rmult_comm _ (x c)), <- so_scal. apply so_ext. intros [[i j] b] Hb. field. apply (W i j b Hb). }
    rewrite EK. unfold Rminus. rewrite Ropp_plus_distr, Ropp_involutive.
    transitivity (- ext_force g t1 (nth r (net_free g) 0%nat) + (sum_over (combine (g_edges g) (ns_bars (fst H))) (fun y => let '((i, j, b), q) := y in inc g i j r * (E b * (dot nf (inc g i j) x / b_l b) * b_A b)) +
      sum_over (combine (g_edges g) (ns_bars (fst H))) (fun y => let '((i, j, b), q) := y in inc g i j r * (E b * (elongation g (fun _ => 0) t1 i j / b_l b - ts_next b q t1) * b_A b)))).
    2:{ unfold Rminus. ring. }
    rewrite <- so_plus. rewrite Rplus_0_l. f_equal. apply so_ext. intros [[[i j] b] q] Hx. destruct (W i j b (in_combine_l _ _ _ _ Hx)) as (Hi & Hj & Hl).
    rewrite (elong_inc g x t1 i j Hi Hj). unfold nf. field. exact Hl. }
  pose (x0 := make_guess g H (o_extra o) ef).
  assert (NS : forall v, veq nf (mv nf K v) (fun _ => 0) -> veq nf v (fun _ => 0)).
  { intros v. apply (psd_nonsing g K (map (fun x => E (snd x) * b_A (snd x) / b_l (snd x)) (g_edges g)) v W); [apply map_length| |exact HS|].
    - intros k Hk. apply in_map_iff in Hk. destruct Hk as ([[i j] b] & <- & Hb). apply (HE i j b Hb).
    - intros r c. unfold K. rewrite Rplus_0_l. clear. induction (g_edges g) as [|[[i j] b] es IH]; [reflexivity|]. cbn [map combine sum_over fold_right snd]. f_equal. exact IH. }
  destruct (linear_once nf K bb x0 (fun d => match net_RJ g (fst H) dt d with Ret (R, J, _) => Some (R, J) | Raise _ => None end) (solve nf) (o_rtol o) (o_atol o) 50 (vlin nf)) as (x & D & i & EN & _ & _).
  - intros J r v Ev. apply (HO nf J r v Ev).
  - exact Hr.
  - exact Ha.
  - lia.
  - intros y. destruct (HRJ y) as (R & J & qs & -> & ER & EJ). exists (R, J). split; [reflexivity|]. split; [exact ER|]. intros a c _ _. apply EJ.
  - intros D ED. destruct (HRJ x0) as (R & J & qs & E1 & _ & EJ). rewrite E1 in ED. injection ED as <-. cbn [fst snd]. apply HT. intros v Hv. apply NS. intros a La. rewrite <- (Hv a La). unfold mv. apply rsum_ext. intros c _. rewrite EJ. reflexivity.
  - unfold net_try. unfold net_sys. fold nf. fold x0. rewrite EN. destruct (HRJ x) as (R & J & qs & -> & _). eexists. reflexivity.
Qed.
Lemma elastic_solve fuel solve g o H dt (E : bar -> R) : solve_ok solve -> solve_total solve -> 0 <= o_rtol o -> 0 <= o_atol o -> 0 < o_dfact o -> net_wf g ->
  net_reach solve g o H -> (forall n, (n < g_n g)%nat -> supported g n) ->
  (forall i j b, In (i, j, b) (g_edges g) -> elastic_bar b (E b) /\ 0 < E b * b_A b / b_l b) ->
  exists s, net_solve (S (S fuel)) solve g o H dt = ((s, whole H), Ret tt) /\ in_equilibrium g o (fst H) s /\ ns_time s = ns_time (fst H) + dt.
Proof.
  intros HO HT Hr Ha Hd W RE HS HE. assert (HL := reach_bars _ _ _ _ W RE).
  destruct (elastic_try solve g o H dt 1 E HO HT Hr Ha W HL HS HE) as [H' EH]. destruct (try_equilibrium _ _ _ _ _ _ _ W HL EH) as (S1 & E1 & T1).
  exists (fst H'). split; [|split; assumption]. unfold net_solve. cbv zeta. cbn [net_loop]. assert (P := pow_lt _ (o_ndiv o) Hd). destruct (Rlt_dec 0 _); [|lra]. rewrite EH.
  destruct (Rlt_dec _ _) as [L|L]; [lra|]. rewrite <- S1. destruct H'; reflexivity.
Qed.

(** Proofs about the Bree problem, and concrete networks. *)
From Verif Require Import Base Diff.
From Verif Require Import SolverModel NlModel NlSpec NlProofs UniModel UniSpec BarModel BarSpec BarProofs BreeModel BreeSpec HardProofs.
From Coq Require Import ZArith List Arith Lia.
Import ListNotations.

Lemma bree_wf b : net_wf (bree_net b).
Proof. intros i j bb Hx. cbn in Hx. apply in_map_iff in Hx. destruct Hx as (a & E & _). injection E as <- <- <-. cbn. repeat split; try lia. lra. Qed.
Lemma bree_w_thick b : bree_w b = wall_thickness (be_pts b).
Proof. reflexivity. Qed.
Lemma bree_pull b s : bar_pull (bree_net b) s 1 = wall_force (be_pts b) (ns_bars s).
Proof.
  unfold bar_pull, wall_force. cbn [bree_net g_edges]. generalize (be_pts b) (ns_bars s). induction l as [|a l IH]; intros [|q qs]; try reflexivity.
  cbn [map combine sum_over fold_right Nat.eqb]. unfold sum_over in IH. rewrite IH. cbn [snd fst b_A]. ring.
Qed.
Lemma bree_unbalance b s p : moved (bree_net b) p s -> unbalance (bree_net b) s = wall_gap b (ns_time s) (ns_bars s).
Proof.
  intros (_ & _ & _ & HF & _). unfold unbalance, wall_gap. change (free_nodes (bree_net b)) with [1%nat]. cbn [sum_over fold_right].
  rewrite Rplus_0_r, HF, bree_pull. rewrite <- (bree_w_thick b). exact (sqrt_Rsqr_abs _).
Qed.
(** the last entry that solve leaves when it returns *)
Lemma loop_last solve g o total : net_wf g -> forall fuel H dt att curr tr ef H', length (ns_bars (fst H)) = length (g_edges g) ->
  (curr < total \/ exists p, in_equilibrium g o p (fst H)) ->
  net_loop fuel solve g o total H dt att curr tr ef = (H', Ret tt) -> exists p, in_equilibrium g o p (fst H').
Proof.
  intros W. induction fuel as [|fuel IH]; intros H dt att curr tr ef H' HL HC; cbn [net_loop]; [discriminate|].
  destruct (Rlt_dec curr total) as [L|L].
  - destruct (net_try solve g o H dt ef) as [H1|e] eqn:E.
    + destruct (try_equilibrium _ _ _ _ _ _ _ W HL E) as (S1 & E1 & _). apply IH; [exact (proj1 (proj2 (proj1 E1)))|]. right. exists (fst H). exact E1.
    + destruct (Nat.eqb (S tr) (o_ndiv o)); [discriminate|]. apply IH; [exact HL|]. left. exact L.
  - intros Q. injection Q as <-. destruct HC as [C|C]; [contradiction|exact C].
Qed.
Lemma loop_bars solve g o total : net_wf g -> forall fuel H dt att curr tr ef H' r, length (ns_bars (fst H)) = length (g_edges g) ->
  net_loop fuel solve g o total H dt att curr tr ef = (H', r) -> length (ns_bars (fst H')) = length (g_edges g).
Proof.
  intros W. induction fuel as [|fuel IH]; intros H dt att curr tr ef H' r HL; cbn [net_loop]; [intros Q; injection Q as <- _; exact HL|].
  destruct (Rlt_dec curr total); [|intros Q; injection Q as <- _; exact HL]. destruct (net_try solve g o H dt ef) as [H1|e] eqn:E.
  - destruct (try_equilibrium _ _ _ _ _ _ _ W HL E) as (S1 & E1 & _). apply IH. exact (proj1 (proj2 (proj1 E1))).
  - destruct (Nat.eqb (S tr) (o_ndiv o)); [intros Q; injection Q as <- _; exact HL|]. apply IH. exact HL.
Qed.
(** a step that returns *)
Lemma bree_step_ok fuel solve b ndiv k extra rtol atol q t q' : (1 <= k)%nat -> (1 <= ndiv)%nat -> in_sync b q ->
  bree_step fuel solve b ndiv (INR k) extra rtol atol q t = (q', Ret tt) ->
  in_sync b q' /\ exists row, snd q' = row :: snd q /\ bw_time row = t /\ bw_press row = be_p b t /\ bw_ext row = be_pext b t /\ bw_hoop row = be_P b t /\
    wall_ok b t (bw_strain row) (bw_bars row) /\ bw_force row = wall_force (be_pts b) (bw_bars row) /\
    exists qs0, length qs0 = length (be_pts b) /\ (wall_gap b t (bw_bars row) <= / 1000000 * wall_gap b t qs0 \/ wall_gap b t (bw_bars row) <= / 100000000).
Proof.
  intros Hk Hn (HL & r & rows & Er & Et). unfold bree_step. rewrite Er. cbv zeta. destruct (Rlt_dec (t - bw_time r) 0); [discriminate|].
  destruct (net_solve fuel solve (bree_net b) (default_opt ndiv (INR k) extra) (fst q) (t - bw_time r)) as [H' [u|e]] eqn:ES; [|discriminate]. intros Q. injection Q as <-. destruct u.
  assert (HL0 : length (ns_bars (fst (fst q))) = length (g_edges (bree_net b))) by (cbn; rewrite map_length; exact HL).
  assert (HT : ns_time (fst H') = t).
  { destruct (solve_time fuel solve (bree_net b) (default_opt ndiv (INR k) extra) (fst q) (t - bw_time r) H' (Ret tt) k Hk eq_refl Hn ES) as (_ & _ & _ & _ & _ & E).
    rewrite (E eq_refl), Et. ring. }
  assert (HL1 := loop_bars _ _ _ _ (bree_wf b) _ _ _ _ _ _ _ _ _ HL0 ES).
  assert (HL2 : length (ns_bars (fst H')) = length (be_pts b)) by (rewrite HL1; cbn; apply map_length).
  assert (PT : 0 < o_dfact (default_opt ndiv (INR k) extra) ^ o_ndiv (default_opt ndiv (INR k) extra)) by (cbn; apply pow_lt, lt_0_INR; lia).
  destruct (loop_last _ _ _ _ (bree_wf b) _ _ _ _ _ _ _ _ HL0 (or_introl PT) ES) as (p & HM & s0 & HM0 & HT0 & _ & HE).
  split.
  - split; [exact HL2|]. eexists _, _. split; [reflexivity|]. symmetry. exact HT.
  - eexists. split; [reflexivity|]. cbn [bw_time bw_press bw_ext bw_hoop bw_strain bw_bars bw_force]. do 4 (split; [reflexivity|]). split; [|split].
    + split; [exact HL2|]. intros j x w m Hj. destruct HM as (HFx & _ & HB & _ & _).
      assert (Hk2 : nth_error (g_edges (bree_net b)) j = Some (0%nat, 1%nat, {| b_mat := m; b_A := w; b_l := 1; b_T := be_T b x |})) by (cbn; rewrite nth_error_map, Hj; reflexivity).
      destruct (HB j _ _ _ Hk2) as (qa & qb & _ & Eb & (ET & ES1 & _ & EM & _)). cbn in ET, ES1. exists qb. split; [exact Eb|].
      assert (E0 := HFx 0%nat (fun _ => 0) eq_refl). cbv beta in E0. rewrite HT in ET. rewrite E0 in ES1.
      assert (ES2 : bs_strain qb = ns_disp (fst H') 1%nat) by lra. split; [exact ES2|]. split; [exact ET|]. rewrite <- ES2. lra.
    + rewrite <- bree_pull. destruct HM as (_ & _ & _ & HF & _). apply HF.
    + exists (ns_bars s0). split; [rewrite (proj1 (proj2 HM0)); cbn; apply map_length|].
      rewrite (bree_unbalance b _ _ HM), (bree_unbalance b _ _ HM0), HT0, HT in HE. cbn [default_opt o_rtol o_atol] in HE. exact HE.
Qed.
Lemma bree_start_sync b : in_sync b (bree_start b).
Proof. split; [cbn; rewrite !map_length; reflexivity|]. eexists _, _. split; reflexivity. Qed.
Lemma bree_loading_sync b q p T pext : in_sync b q -> in_sync (bree_loading b p T pext) q.
Proof. intros H. exact H. Qed.
(** the tolerances given to step play no part *)
Lemma bree_tolerances fuel solve b ndiv dfact extra rtol atol rtol' atol' q t :
  bree_step fuel solve b ndiv dfact extra rtol atol q t = bree_step fuel solve b ndiv dfact extra rtol' atol' q t.
Proof. reflexivity. Qed.
(** a step back is refused and changes nothing *)
Lemma bree_back fuel solve b ndiv dfact extra rtol atol H r rows t : t < bw_time r ->
  bree_step fuel solve b ndiv dfact extra rtol atol (H, r :: rows) t = ((H, r :: rows), Raise PyValueError).
Proof. intros L. unfold bree_step. cbn [snd]. cbv zeta. destruct (Rlt_dec (t - bw_time r) 0); [reflexivity|lra]. Qed.

(** ** quadrature *)
Lemma so_app {A} (l m : list A) f : sum_over (l ++ m) f = sum_over l f + sum_over m f.
Proof. induction l as [|a l IH]; unfold sum_over in *; cbn; [ring|]. rewrite IH. ring. Qed.
Lemma so_map {A B} (h : A -> B) (l : list A) f : sum_over (map h l) f = sum_over l (fun x => f (h x)).
Proof. induction l as [|a l IH]; cbn; [reflexivity|]. unfold sum_over in IH. rewrite IH. reflexivity. Qed.
Lemma so_seq n f : sum_over (seq 0 n) f = rsum n f.
Proof.
  rewrite so_nth, seq_length. apply rsum_ext. intros i Hi. rewrite seq_nth by exact Hi. reflexivity.
Qed.
Lemma rsum_k n c : rsum n (fun _ => c) = INR n * c.
Proof. induction n as [|n IH]; [cbn; ring|]. cbn [rsum]. rewrite IH, S_INR. ring. Qed.
Lemma rsum_id n : rsum n INR = INR n * (INR n - 1) / 2.
Proof. induction n as [|n IH]; [cbn; field|]. cbn [rsum]. rewrite IH, S_INR. field. Qed.
Lemma rect_weights n : (1 <= n)%nat -> weights_2 rect n.
Proof.
  intros Hn. unfold weights_2, rect. rewrite so_map. cbn [snd]. rewrite so_seq, rsum_k. field. apply not_0_INR. lia.
Qed.
Lemma rect_first n : (1 <= n)%nat -> sum_over (rect n) (fun a => snd a * fst a) = 0.
Proof.
  intros Hn. assert (N : INR n <> 0) by (apply not_0_INR; lia). unfold rect. rewrite so_map. cbn [fst snd]. rewrite so_seq.
  rewrite (rsum_ext _ _ (fun i => 2 / INR n * (2 / INR n) * INR i + 2 / INR n * (-1 + / INR n))) by (intros; rewrite S_INR; field; exact N).
  rewrite rsum_plus, rsum_scal, rsum_k, rsum_id. field. exact N.
Qed.
(** the shares add up to the thickness of the wall *)
Lemma bree_thickness rule : forall rs ns mats, fits rs ns mats -> Forall (weights_2 rule) ns -> wall_thickness (bree_pts rule rs ns mats) = last rs 0 - hd 0 rs.
Proof.
  induction rs as [|r rs IH]; intros ns mats [F1 F2] HW; [discriminate|]. destruct rs as [|r' rs].
  - destruct ns; [|discriminate]. cbn. ring.
  - destruct ns as [|n ns]; [discriminate|]. destruct mats as [|m mats]; [discriminate|]. cbn in F1, F2. injection F1 as F1. injection F2 as F2. inversion HW as [|? ? Hn HW']; subst.
    change (bree_pts rule (r :: r' :: rs) (n :: ns) (m :: mats)) with (map (fun a => ((fst a + 1) * (r' - r) / 2 + r, snd a * (r' - r) / 2, m)) (rule n) ++ bree_pts rule (r' :: rs) ns mats).
    unfold wall_thickness in *. rewrite so_app, so_map. rewrite (IH ns mats (conj (f_equal S F1) F2) HW'). cbn [fst snd hd].
    rewrite (so_ext _ _ (fun a => (r' - r) / 2 * snd a)) by (intros; field). rewrite so_scal, Hn. change (last (r :: r' :: rs) 0) with (last (r' :: rs) 0). field.
Qed.
Lemma rdiff_total : forall rs, rs <> [] -> rdiff_sum rs = last rs 0 - hd 0 rs.
Proof.
  induction rs as [|r rs IH]; intros H; [contradiction|]. destruct rs as [|r' rs]; [cbn; ring|]. change (rdiff_sum (r :: r' :: rs)) with (r' - r + rdiff_sum (r' :: rs)).
  rewrite IH by discriminate. change (last (r :: r' :: rs) 0) with (last (r' :: rs) 0). cbn [hd]. ring.
Qed.
(** pressures: the force through the wall is p r_i - p_ext r_o *)
Lemma bree_pressure rule rs ns mats T p pext t : fits rs ns mats -> Forall (weights_2 rule) ns -> last rs 0 <> hd 0 rs ->
  let b := bree_make rule rs ns mats T p pext false in
  be_P b t * wall_thickness (be_pts b) = p t * hd 0 rs - pext t * last rs 0.
Proof.
  intros F HW Ht. cbv zeta. unfold bree_make. cbn [be_P be_pts hoop_stress]. rewrite (bree_thickness rule rs ns mats F HW).
  assert (N : rs <> []) by (destruct rs; [destruct F; discriminate|discriminate]). rewrite (rdiff_total rs N). field. lra.
Qed.
(** what is recorded as energy weighs every point twice *)
Lemma bree_sum_square v ps qs : bree_sum v ps qs = sum_over (combine ps qs) (fun x => snd (fst (fst x)) * (snd (fst (fst x)) * v (snd x))).
Proof. revert qs. induction ps as [|a ps IH]; intros [|q qs]; try reflexivity. cbn [bree_sum combine sum_over fold_right fst snd]. rewrite IH. unfold sum_over. ring. Qed.

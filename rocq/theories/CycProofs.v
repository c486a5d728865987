From Verif Require Import Base Diff.
From Verif Require Import SolverModel SubstepModel CreepModel NlModel NlSpec NlProofs UniModel UniSpec UniProofs DrvModel DrvSpec DrvProofs TestsModel TestsSpec TestsProofs TestsMore CycModel CycSpec.
From Verif Require Import WalkerInv ElasticProofs.
From Coq Require Import ZArith String List FunctionalExtensionality.
Import ListNotations.

(** ** axes *)
Lemma dot_axis v i c : (i < 6)%nat -> dot 6 v (axis i c) = c * v i.
Proof. intros Hi. unfold dot, axis. rewrite <- (rsum_pick 6 v i c Hi). apply rsum_ext. intros. ring. Qed.
Lemma norm_axis i c : (i < 6)%nat -> norm2 6 (axis i c) = Rabs c.
Proof. intros Hi. unfold norm2. rewrite dot_axis by exact Hi. unfold axis. rewrite Nat.eqb_refl. rewrite <- sqrt_Rsqr_abs. reflexivity. Qed.
Lemma unit_axis i : (i < 6)%nat -> unitv (axis i 1) = axis i 1.
Proof. intros Hi. apply functional_extensionality. intros j. unfold unitv. rewrite norm_axis, Rabs_R1 by exact Hi. field. Qed.

(** ** holds *)
Lemma lin_total h n k : (k <= n)%nat -> total (firstn k (lin_dts h n)) = INR k * (h / INR n).
Proof.
  unfold lin_dts. generalize (h / INR n). intros x. revert k. induction n as [|n IH]; intros k Hk.
  - assert (k = 0%nat) as -> by lia. cbn. ring.
  - destruct k as [|k]; [cbn; ring|]. cbn [repeat]. rewrite firstn_cons. cbn [total]. rewrite IH by lia. rewrite S_INR. ring.
Qed.
Lemma log_total h n k : 0 < h -> (0 < n)%nat -> (k <= n)%nat -> total (firstn k (log_dts h n)) = Rpower h (INR k / INR n) - 1.
Proof.
  intros Hh Hn. unfold log_dts. set (g := fun k => Rpower h (INR k / INR n)).
  assert (G : forall m s j, (j <= m)%nat -> total (firstn j (map (fun k => g (S k) - g k) (seq s m))) = g (s + j)%nat - g s).
  { induction m as [|m IH]; intros s j Hj; [assert (j = 0%nat) as -> by lia; cbn; rewrite Nat.add_0_r; ring|].
    destruct j as [|j]; [cbn; rewrite Nat.add_0_r; ring|]. cbn [seq map]. rewrite firstn_cons. cbn [total]. rewrite IH by lia. replace (S s + j)%nat with (s + S j)%nat by lia. ring. }
  intros Hk. change (total (firstn k (map (fun k => g (S k) - g k) (seq 0 n))) = g k - 1). rewrite G by exact Hk. cbn [Nat.add]. f_equal. unfold g. change (INR 0) with 0.
  unfold Rdiv. rewrite Rmult_0_l. apply Rpower_O, Hh.
Qed.
Lemma hold_dts_len logs h n : length (hold_dts logs h n) = n.
Proof. unfold hold_dts, lin_dts, log_dts. destruct logs; [rewrite map_length, seq_length|rewrite repeat_length]; reflexivity. Qed.
Lemma hold_dts_total logs h n : 0 < h -> (0 < n)%nat -> total (hold_dts logs h n) = hold_time logs h.
Proof.
  intros Hh Hn. assert (N : INR n <> 0) by (apply not_0_INR; lia). rewrite <- (firstn_all (hold_dts logs h n)), hold_dts_len. unfold hold_time. destruct (Rlt_dec 0 h); [|lra].
  unfold hold_dts. destruct logs.
  - rewrite log_total by (lia || lra). replace (INR n / INR n) with 1 by (field; exact N). rewrite Rpower_1 by exact Hh. reflexivity.
  - rewrite lin_total by lia. field. exact N.
Qed.
Lemma held_refl i q E d : held i q E 0 0 d d.
Proof.
  split; [ring|]. split.
  - replace (top (dv_strain d) i - top (dv_strain d) i + (q - 1) * ((top (dv_stress d) i - top (dv_stress d) i) / E)) with 0 by (unfold Rdiv; ring). rewrite Rabs_R0. lra.
  - intros j _ _. rewrite Rminus_eq_0, Rabs_R0. lra.
Qed.
Lemma held_trans i q E t1 e1 t2 e2 d d1 d2 : held i q E t1 e1 d d1 -> held i q E t2 e2 d1 d2 -> held i q E (t1 + t2) (e1 + e2) d d2.
Proof.
  intros (A1 & A2 & A3) (B1 & B2 & B3). split; [lra|]. split.
  - match type of A2 with Rabs ?a <= _ => match type of B2 with Rabs ?b <= _ => match goal with |- Rabs ?c <= _ => replace c with (a + b) by (unfold Rdiv; ring) end end end.
    eapply Rle_trans; [apply Rabs_triang|]. lra.
  - intros j Hj Nj. specialize (A3 j Hj Nj). specialize (B3 j Hj Nj).
    replace (top (dv_stress d2) j - top (dv_stress d) j) with ((top (dv_stress d1) j - top (dv_stress d) j) + (top (dv_stress d2) j - top (dv_stress d1) j)) by ring.
    eapply Rle_trans; [apply Rabs_triang|]. lra.
Qed.
Lemma hold_len M P d i t1 T q E d' : strain_hold_step M P d i t1 T q E = Ret d' -> length (dv_strain d') = S (length (dv_strain d)) /\ topr (dv_t d') = t1.
Proof.
  unfold strain_hold_step. destruct (andb _ _); [discriminate|]. destruct (solve_try _ _ _ _) as [x|]; [|discriminate]. intros H.
  destruct (strain_step_parts _ _ _ _ _ _ _ H) as (r & _ & ->). split; reflexivity.
Qed.
Lemma hold_held M P d i dt T q E d' : (i < 6)%nat -> strain_hold_step M P d i (topr (dv_t d) + dt) T q E = Ret d' -> exists e r0, within P e r0 /\ held i q E dt e d d'.
Proof.
  intros Hi H. destruct (hold_sound _ _ _ _ _ _ _ _ _ Hi H) as (A & _ & e & r0 & W & B & C). exists e, r0. split; [exact W|]. split; [exact A|]. split; assumption.
Qed.
Lemma held_along i c q E tm e d d' : (i < 6)%nat -> held i q E tm e d d' ->
  Rabs (along (dv_strain d') (axis i c) - along (dv_strain d) (axis i c) + (q - 1) * ((along (dv_stress d') (axis i c) - along (dv_stress d) (axis i c)) / E)) <= Rabs c * e.
Proof.
  intros Hi (_ & B & _). unfold along. rewrite !dot_axis by exact Hi.
  match type of B with Rabs ?a <= _ => match goal with |- Rabs ?b <= _ => replace b with (c * a) by (unfold Rdiv; ring) end end.
  rewrite Rabs_mult. apply Rmult_le_compat_l; [apply Rabs_pos|exact B].
Qed.
Lemma relax_trace M P i c T q E : (i < 6)%nat -> forall dts st st', synced (axis i c) st -> relax_hold M P (axis i c) i T q E dts st = Ret st' ->
  synced (axis i c) st' /\ follow_entries P c q E dts st st' /\ exists e, errors P (length dts) e /\ held i q E (total dts) e (ts_d st) (ts_d st').
Proof.
  intros Hi. induction dts as [|dt dts IH]; intros st st' HS H; cbn [relax_hold] in H.
  - injection H as <-. split; [exact HS|]. split.
    + exists [], [], []. cbn. repeat (split; [reflexivity|]). intros k Hk. lia.
    + exists 0. split; [constructor|]. apply held_refl.
  - destruct (strain_hold_step _ _ _ _ _ _ _ _) as [d|x] eqn:E1; [|discriminate].
    match type of H with relax_hold _ _ _ _ _ _ _ _ ?s = _ => set (s1 := s) in * end.
    destruct (hold_len _ _ _ _ _ _ _ _ _ E1) as [L1 T1]. destruct (hold_held _ _ _ _ _ _ _ _ _ Hi E1) as (e1 & r0 & W1 & H1).
    destruct HS as (A1 & A2 & A3 & A4 & A5 & A6).
    assert (S1 : synced (axis i c) s1). { unfold synced, s1. cbn [ts_d ts_e ts_s ts_t Datatypes.length topr hd]. rewrite L1, A1, A2, A3. repeat split. }
    destruct (IH _ _ S1 H) as (S2 & (le & ls & lt & E2 & N2 & E3 & N3 & E4 & N4 & Q) & e2 & W2 & H2). split; [exact S2|]. split.
    + exists (le ++ [along (dv_strain d) (axis i c)]), (ls ++ [along (dv_stress d) (axis i c)]), (lt ++ [topr (dv_t d)]). cbv zeta in *.
      rewrite !app_length, <- !app_assoc, N2, N3, N4. cbn [Datatypes.length app]. rewrite !Nat.add_1_r. rewrite E2, E3, E4. repeat (split; [reflexivity|]).
      intros k Hk. destruct k as [|[|k]]; [lia| |].
      * exists (0 + e1). split; [econstructor; [constructor|exact W1]|]. unfold kth. replace (S (length dts) - 1)%nat with (length dts) by lia.
        rewrite <- N2 at 1. rewrite nth_middle. rewrite <- N3 at 1. rewrite nth_middle. rewrite <- N4. rewrite nth_middle. rewrite A5, A6, Rplus_0_l. split; [exact (held_along i c _ _ _ _ _ _ Hi H1)|].
        cbn [firstn total]. rewrite A4, T1. ring.
      * destruct (Q (S k) ltac:(lia)) as (e & We & Qa & Qb). exists (e + e1). split; [econstructor; eassumption|].
        unfold kth in *. cbn [Nat.sub] in *. rewrite !app_nth1 by lia. split.
        { assert (HA := held_along i c _ _ _ _ _ _ Hi H1). unfold s1 in Qa. cbn [ts_e ts_s topr hd] in Qa. rewrite A5, A6.
          match type of Qa with Rabs ?a <= _ => match type of HA with Rabs ?b <= _ => match goal with |- Rabs ?x <= _ => replace x with (a + b) by (unfold Rdiv; ring) end end end.
          eapply Rle_trans; [apply Rabs_triang|]. lra. }
        { rewrite Qb. unfold s1. cbn [ts_t topr hd]. fold (topr (dv_t d)). rewrite T1, A4. rewrite (firstn_cons (S k) dt dts). cbn [total]. ring. }
    + exists (e2 + e1). split; [econstructor; eassumption|]. cbn [total]. rewrite Rplus_comm with (r1 := e2). eapply held_trans; [exact H1|]. exact H2.
Qed.

(** *** stress_relaxation *)
Lemma relaxation_sound M P i tc emax erate h T q nsteps nup logs r : (i < 6)%nat -> tc <> 0 -> emax <> 0 -> (0 < nup)%nat ->
  relaxation M P i tc emax erate h T q nsteps nup logs = Ret r ->
  exists E, slope M P erate T = Ret E /\ rx_ri r = S nup /\ length (ts_e (rx_up r)) = S nup /\ length (ts_s (rx_up r)) = S nup /\ length (ts_t (rx_up r)) = S nup /\
    ramp_entries P (axis i tc) erate (emax / INR nup) nup (tst0 M T) (rx_up r) /\ follow_entries P tc q E (hold_dts logs h nsteps) (rx_up r) (rx_st r) /\
    exists e, errors P nsteps e /\ forall j, (j < 6)%nat -> j <> i -> Rabs (top (dv_stress (ts_d (rx_st r))) j - top (dv_stress (ts_d (rx_up r))) j) <= e.
Proof.
  intros Hi Hc He Hn H. unfold relaxation in H. destruct (slope M P erate T) as [E|x]; [|discriminate].
  destruct (ramp _ _ _ _ _ _ _ _ _ _) as [st [[x|]|]] eqn:ER; try discriminate.
  destruct (relax_hold _ _ _ _ _ _ _ _ st) as [st'|x] eqn:EH; [|discriminate]. injection H as <-. cbn [rx_up rx_st rx_ri]. exists E. split; [reflexivity|].
  assert (HI : emax / INR nup <> 0) by (apply Rmult_integral_contrapositive_currified; [exact He|apply Rinv_neq_0_compat, not_0_INR; lia]).
  destruct (ramp_moves _ _ _ _ _ _ _ _ _ _ _ HI (synced_start _ _ _) ER) as (S1 & L1 & _). cbn [tst0 ts_e Datatypes.length] in L1. rewrite Nat.add_1_r in L1.
  destruct S1 as (B1 & B2 & B3 & B). rewrite B1 in L1. repeat (split; [congruence|]).
  split; [apply (ramp_trace M P (axis i tc) erate (emax / INR nup) T None HI); [rewrite norm_axis by exact Hi; apply Rabs_pos_lt, Hc|apply synced_start|exact ER]|].
  destruct (relax_trace M P i tc T q E Hi _ _ _ (conj B1 (conj B2 (conj B3 B))) EH) as (_ & F & e & We & _ & _ & K). split; [exact F|]. exists e. rewrite hold_dts_len in We. split; assumption.
Qed.
(** the columns returned begin after the first step of the hold and end before the last *)
Lemma from_ri_spec ri (l b : list R) : length b = ri -> from_ri ri (l ++ b) = rev l.
Proof. intros <-. unfold from_ri. rewrite rev_app_distr, skipn_app, rev_length, Nat.sub_diag. rewrite skipn_all2 by (rewrite rev_length; lia). reflexivity. Qed.
Lemma nth_removelast (l : list R) k : (S k < length l)%nat -> nth k (removelast l) 0 = nth k l 0.
Proof.
  revert k. induction l as [|a l IH]; intros k Hk; [cbn in Hk; lia|]. destruct l as [|b l]; [cbn in Hk; lia|].
  cbn [removelast]. destruct k as [|k]; [reflexivity|]. cbn [nth]. apply IH. cbn [Datatypes.length] in *. lia.
Qed.
Lemma removelast_len (l : list R) : length (removelast l) = (length l - 1)%nat.
Proof. rewrite removelast_firstn_len, firstn_length. lia. Qed.
Lemma diffs_len l : length (diffs l) = (length l - 1)%nat.
Proof. induction l as [|a [|b l] IH]; try reflexivity. cbn [diffs Datatypes.length] in *. rewrite IH. lia. Qed.
Lemma diffs_nth : forall l k, (S k < length l)%nat -> nth k (diffs l) 0 = nth (S k) l 0 - nth k l 0.
Proof.
  induction l as [|a [|b l] IH]; intros k Hk; try (cbn in Hk; lia). destruct k as [|k]; [reflexivity|].
  change (diffs (a :: b :: l)) with (b - a :: diffs (b :: l)). cbn [nth]. rewrite IH by (cbn [Datatypes.length] in *; lia). reflexivity.
Qed.
Lemma kth_rev n k (l : list R) : length l = n -> (1 <= k <= n)%nat -> nth (k - 1) (rev l) 0 = kth n k l.
Proof. intros L Hk. unfold kth. rewrite rev_nth by lia. f_equal. lia. Qed.
Lemma relaxation_columns M P i tc emax erate h T q nsteps nup logs r : (i < 6)%nat -> tc <> 0 -> emax <> 0 -> (0 < nup)%nat ->
  relaxation M P i tc emax erate h T q nsteps nup logs = Ret r ->
  exists le ls lt, ts_e (rx_st r) = le ++ ts_e (rx_up r) /\ ts_s (rx_st r) = ls ++ ts_s (rx_up r) /\ ts_t (rx_st r) = lt ++ ts_t (rx_up r) /\
    length le = nsteps /\ length ls = nsteps /\ length lt = nsteps /\
    length (rtime r) = (nsteps - 1)%nat /\ length (rstress r) = (nsteps - 1)%nat /\ length (rstrain r) = (nsteps - 1)%nat /\ length (rrate r) = (nsteps - 1)%nat /\
    forall k, (1 <= k < nsteps)%nat ->
      nth (k - 1) (rstress r) 0 = kth nsteps k ls /\ nth (k - 1) (rstrain r) 0 = kth nsteps k le /\ nth (k - 1) (rtime r) 0 = kth nsteps k lt - kth nsteps 1 lt /\
      nth (k - 1) (rrate r) 0 = - (kth nsteps (S k) ls - kth nsteps k ls) / (kth nsteps (S k) lt - kth nsteps k lt).
Proof.
  intros Hi Hc He Hn H. destruct (relaxation_sound _ _ _ _ _ _ _ _ _ _ _ _ _ Hi Hc He Hn H) as (E & _ & RI & U1 & U2 & U3 & _ & (le & ls & lt & F1 & F2 & F3 & F4 & F5 & F6 & _) & _).
  cbv zeta in *. rewrite hold_dts_len in *. exists le, ls, lt. repeat (split; [assumption|]).
  assert (X1 : from_ri (rx_ri r) (ts_e (rx_st r)) = rev le) by (rewrite F1; apply from_ri_spec; congruence).
  assert (X2 : from_ri (rx_ri r) (ts_s (rx_st r)) = rev ls) by (rewrite F3; apply from_ri_spec; congruence).
  assert (X3 : from_ri (rx_ri r) (ts_t (rx_st r)) = rev lt) by (rewrite F5; apply from_ri_spec; congruence).
  unfold rtime, rstress, rstrain, rrate. rewrite X1, X2, X3. rewrite !map_length, combine_length, !diffs_len, !removelast_len, !rev_length, F2, F4, F6, Nat.min_id. repeat (split; [reflexivity|]).
  intros k Hk. rewrite !nth_removelast by (rewrite rev_length; lia). rewrite !(kth_rev nsteps) by lia. split; [reflexivity|]. split; [reflexivity|]. split.
  - set (f := fun x => x - hd 0 (rev lt)). rewrite (nth_indep _ 0 (f 0)) by (rewrite map_length, removelast_len, rev_length; lia). rewrite map_nth, nth_removelast by (rewrite rev_length; lia). rewrite (kth_rev nsteps) by lia.
    unfold f. f_equal. rewrite <- (kth_rev nsteps 1 lt) by lia. destruct (rev lt); reflexivity.
  - set (f := fun x : R * R => - fst x / snd x). rewrite (nth_indep _ 0 (f (0, 0))) by (rewrite map_length, combine_length, !diffs_len, !rev_length; lia). rewrite map_nth, combine_nth by (rewrite !diffs_len, !rev_length; lia).
    unfold f. cbn [fst snd]. rewrite !diffs_nth by (rewrite rev_length; lia). replace (S (k - 1)) with (S k - 1)%nat by lia. rewrite !(kth_rev nsteps) by lia. reflexivity.
Qed.

(** *** strain_cyclic_followup *)
Lemma fu_relax M P i c T q E dmg : forall dts st st', synced (axis i c) st -> fu_hold M P (axis i c) i T q E dmg dts st = (st', None) -> relax_hold M P (axis i c) i T q E dts st = Ret st'.
Proof.
  induction dts as [|dt dts IH]; intros st st' HS H; cbn [fu_hold relax_hold] in *; [injection H as <-; reflexivity|].
  destruct HS as (A1 & A2 & A3 & A4 & A5 & A6). rewrite A4 in H. destruct (strain_hold_step _ _ _ _ _ _ _ _) as [d|x] eqn:E1; [|discriminate].
  destruct (hold_len _ _ _ _ _ _ _ _ _ E1) as [L1 T1]. destruct (match dmg with Some _ => _ | None => false end); [discriminate|].
  rewrite <- T1 in H. apply IH; [|exact H]. unfold synced. cbn [ts_d ts_e ts_s ts_t Datatypes.length topr hd]. rewrite L1, A1, A2, A3. repeat split.
Qed.
Lemma synced_restart sdir a st : synced sdir st -> synced sdir (restart a st).
Proof. intros H. exact H. Qed.
Lemma fu_do_hold_moves M P f E h st st' : fu_ok f -> synced (axis (fp_i f) 1) st -> fu_do_hold M P f E h st = (st', None) ->
  synced (axis (fp_i f) 1) st' /\ (exists ls, ts_s st' = ls ++ ts_s st) /\ exists n e, errors P n e /\ held (fp_i f) (fp_q f) E (hold_time (fp_logs f) h) e (ts_d st) (ts_d st').
Proof.
  intros (Hi & Hn & Hh & _) HS H. unfold fu_do_hold in H. destruct (Rlt_dec 0 h) as [L|L].
  - assert (HR := fu_relax _ _ _ _ _ _ _ _ _ _ _ HS H). destruct (relax_trace _ _ _ _ _ _ _ Hi _ _ _ HS HR) as (S1 & (le & ls & lt & _ & _ & F & _) & e & We & Me). split; [exact S1|].
    split; [exists ls; exact F|]. exists (length (hold_dts (fp_logs f) h (cp_nhold (fp_c f)))), e. split; [exact We|]. rewrite hold_dts_total in Me by assumption. exact Me.
  - injection H as <-. split; [exact HS|]. split; [exists []; reflexivity|]. exists 0%nat, 0. split; [constructor|]. unfold hold_time. destruct (Rlt_dec 0 h); [lra|]. apply held_refl.
Qed.
Lemma fu_cycle_moves M P f E st si st' : fu_ok f -> synced (axis (fp_i f) 1) st -> fu_cycle M P f E st = (si, (st', None)) ->
  let c := fp_c f in let u := axis (fp_i f) 1 in
  synced u st' /\ (exists ls s0, ts_s st' = ls ++ s0 /\ length s0 = si /\ ls <> [] /\ exists h, s0 = h ++ ts_s st) /\
  exists d0 d1 d2 n0 n1 n2 n3 e0 e1 e2 e3, errors P n0 e0 /\ errors P n1 e1 /\ errors P n2 e2 /\ errors P n3 e3 /\
    held (fp_i f) (fp_q f) E (hold_time (fp_logs f) (cp_hold0 c)) e0 (ts_d st) d0 /\
    moved u (- ampl c) (ampl c / cp_erate c) e1 (e1 * Rabs (ampl c / cp_erate c)) d0 d1 /\
    held (fp_i f) (fp_q f) E (hold_time (fp_logs f) (cp_hold1 c)) e2 d1 d2 /\
    moved u (ampl c) (ampl c / cp_erate c) e3 (e3 * Rabs (ampl c / cp_erate c)) d2 (ts_d st').
Proof.
  intros HF HS H c u. destruct HF as (Hi & Hn & Hh & Hm). assert (HF : fu_ok f) by (repeat split; assumption). assert (NI : 0 < INR (cp_nsteps c)) by (apply lt_0_INR; exact Hn). assert (NI1 : 1 <= INR (cp_nsteps c)) by (change 1 with (INR 1); apply le_INR; unfold c; lia).
  assert (HA : 0 < ampl c) by (unfold c; apply Rabs_pos_lt; lra).
  assert (EA : Rabs (cp_emax c - cp_emax c * cp_R c) = ampl c) by (unfold ampl; rewrite <- Rabs_Ropp; f_equal; ring).
  assert (WK : forall u' inc tm e d d', 0 <= e -> moved u' inc tm e (e * Rabs (ampl c / INR (cp_nsteps c) / cp_erate c)) d d' -> moved u' inc tm e (e * Rabs (ampl c / cp_erate c)) d d').
  { intros u' inc tm e d d' He (Z1 & Z2 & Z3). split; [exact Z1|]. split; [|exact Z3]. eapply Rle_trans; [exact Z2|]. apply Rmult_le_compat_l; [exact He|].
    replace (ampl c / INR (cp_nsteps c) / cp_erate c) with (ampl c / cp_erate c * / INR (cp_nsteps c)) by (unfold Rdiv; ring). rewrite Rabs_mult. rewrite <- (Rmult_1_r (Rabs (ampl c / cp_erate c))) at 2.
    apply Rmult_le_compat_l; [apply Rabs_pos|]. rewrite Rabs_pos_eq by (left; apply Rinv_0_lt_compat, NI). rewrite <- Rinv_1. apply Rinv_le_contravar; lra. }
  unfold fu_cycle in H. cbv zeta in H. fold c u in H. fold (ampl c) in H. rewrite EA in H. destruct (fu_do_hold M P f E (cp_hold0 c) st) as [s0 [x|]] eqn:E0; [congruence|].
  destruct (fu_do_hold_moves _ _ _ _ _ _ _ HF HS E0) as (S0 & (l0 & L0) & n0 & e0 & W0 & M0). fold u in S0.
  destruct (ramp M P u (vopp u) (cp_erate c) (ampl c / INR (cp_nsteps c)) (cp_T c) (cp_dmg c) (cp_nsteps c) (restart (-1) s0)) as [s1 [x|]] eqn:E1; cbn [andthen] in H; [congruence|].
  assert (HI : ampl c / INR (cp_nsteps c) <> 0) by (apply Rgt_not_eq, Rdiv_lt_0_compat; assumption).
  destruct (ramp_moves _ _ _ _ _ _ _ _ _ _ _ HI (synced_restart _ (-1) _ S0) E1) as (S1 & _ & e1 & W1 & M1). destruct (ramp_stress _ _ _ _ _ _ _ _ _ _ _ E1) as (l1 & L1 & N1).
  destruct (fu_do_hold M P f E (cp_hold1 c) s1) as [s2 [x|]] eqn:E2; cbn [andthen] in H; [congruence|].
  destruct (fu_do_hold_moves _ _ _ _ _ _ _ HF S1 E2) as (S2 & (l2 & L2) & n2 & e2 & W2 & M2). fold u in S2.
  injection H as <- E3. destruct (ramp_moves _ _ _ _ _ _ _ _ _ _ _ HI (synced_restart _ 1 _ S2) E3) as (S3 & _ & e3 & W3 & M3). destruct (ramp_stress _ _ _ _ _ _ _ _ _ _ _ E3) as (l3 & L3 & N3).
  split; [exact S3|]. split.
  - exists (l3 ++ l2 ++ l1), (ts_s s0). change (ts_s (restart 1 s2)) with (ts_s s2) in L3. change (ts_s (restart (-1) s0)) with (ts_s s0) in L1. rewrite L3, L2, L1, <- !app_assoc. split; [reflexivity|].
    split; [destruct S0 as (_ & Q & _); exact Q|]. split; [|exists l0; exact L0]. destruct l3; [cbn in N3; unfold c in N3; lia|discriminate].
  - change (ts_d (restart (-1) s0)) with (ts_d s0) in M1. change (ts_d (restart 1 s2)) with (ts_d s2) in M3. rewrite unitv_opp in M1. apply moved_opp in M1.
    assert (T1 : INR (cp_nsteps c) * (ampl c / INR (cp_nsteps c) / cp_erate c) = ampl c / cp_erate c) by (unfold Rdiv; rewrite (Rmult_comm (ampl c)), !Rmult_assoc, <- Rmult_assoc, Rinv_r by lra; ring).
    assert (T2 : INR (cp_nsteps c) * (ampl c / INR (cp_nsteps c)) = ampl c) by (field; lra).
    unfold u in M1, M3. rewrite unit_axis in M1, M3 by exact Hi. fold u in M1, M3. rewrite T1, T2 in *.
    exists (ts_d s0), (ts_d s1), (ts_d s2), n0, (cp_nsteps c), n2, (cp_nsteps c), e0, e1, e2, e3. repeat (split; [assumption|]).
    split; [apply WK; [apply (errors_nonneg _ _ _ W1)|exact M1]|]. split; [exact M2|]. apply WK; [apply (errors_nonneg _ _ _ W3)|exact M3].
Qed.
Lemma strained_trans i a t e b u f d d1 d2 : strained i a t e d d1 -> strained i b u f d1 d2 -> strained i (a + b) (t + u) (e + f) d d2.
Proof.
  intros (A1 & A2) (B1 & B2). split; [lra|].
  replace (top (dv_strain d2) i - top (dv_strain d) i - (a + b)) with ((top (dv_strain d1) i - top (dv_strain d) i - a) + (top (dv_strain d2) i - top (dv_strain d1) i - b)) by ring.
  eapply Rle_trans; [apply Rabs_triang|]. lra.
Qed.
Lemma moved_strained i inc tm e f d d' : (i < 6)%nat -> moved (axis i 1) inc tm e f d d' -> strained i inc tm f d d'.
Proof. intros Hi (A & B & _). split; [exact A|]. rewrite dot_axis in B by exact Hi. replace (top (dv_strain d') i - top (dv_strain d) i - inc) with (1 * (top (dv_strain d') i - top (dv_strain d) i) - inc) by ring. exact B. Qed.
Lemma held_strained i E tm e d d' : held i 1 E tm e d d' -> strained i 0 tm e d d'.
Proof. intros (A & B & _). split; [exact A|]. eapply Rle_trans; [|exact B]. apply Req_le. f_equal. unfold Rdiv. ring. Qed.
Lemma fu_hold_ext M P sdir i T q E dmg : forall dts st, extends st (fst (fu_hold M P sdir i T q E dmg dts st)).
Proof.
  induction dts as [|dt dts IH]; intros st; cbn [fu_hold]; [apply ext_refl|]. destruct (strain_hold_step _ _ _ _ _ _ _ _) as [d|x]; [|apply ext_refl].
  destruct (match dmg with Some _ => _ | None => false end); [exists []; reflexivity|]. eapply ext_trans; [|apply IH]. exists [along (dv_stress d) sdir]. reflexivity.
Qed.
Lemma fu_do_hold_ext M P f E h st : extends st (fst (fu_do_hold M P f E h st)).
Proof. unfold fu_do_hold. destruct (Rlt_dec 0 h); [apply fu_hold_ext|apply ext_refl]. Qed.
Lemma fu_cycle_ext M P f E st : extends st (fst (snd (fu_cycle M P f E st))).
Proof.
  unfold fu_cycle. cbv zeta. assert (H := fu_do_hold_ext M P f E (cp_hold0 (fp_c f)) st). destruct (fu_do_hold M P f E (cp_hold0 (fp_c f)) st) as [s0 [x|]]; [exact H|]. cbn [fst snd] in *.
  apply andthen_ext; [apply andthen_ext; [eapply ext_trans; [exact H|]|intros; apply fu_do_hold_ext]|].
  - apply (ramp_ext M P _ _ _ _ _ _ _ (restart (-1) s0)).
  - intros s. apply (ramp_ext M P _ _ _ _ _ _ _ (restart 1 s)).
Qed.
Lemma fu_cycles_sound M P f E : fu_ok f -> forall n s st cy st' cy', synced (axis (fp_i f) 1) st -> Forall (summary (ts_s st)) cy -> fu_cycles M P f E n s st cy = (st', cy') ->
  exists new, cy' = new ++ cy /\ (length new <= n)%nat /\ map cy_n new = rev (seq s (length new)) /\ Forall (summary (ts_s st')) cy' /\
    (length new = n -> synced (axis (fp_i f) 1) st' /\ topr (dv_t (ts_d st')) = topr (dv_t (ts_d st)) + INR n * fu_period f /\
      (fp_q f = 1 -> exists N e, errors P N e /\ strained (fp_i f) 0 (INR n * fu_period f) (e * (1 + Rabs (ampl (fp_c f) / cp_erate (fp_c f)))) (ts_d st) (ts_d st'))).
Proof.
  intros HC. induction n as [|n IH]; intros s st cy st' cy' HS HF H; cbn [fu_cycles] in H.
  - injection H as <- <-. exists []. split; [reflexivity|]. split; [cbn; lia|]. split; [reflexivity|]. split; [exact HF|]. intros _. split; [exact HS|]. cbn [INR]. rewrite Rmult_0_l. split; [ring|].
    intros _. exists 0%nat, 0. split; [constructor|]. rewrite Rmult_0_l. split; [ring|]. replace (top (dv_strain (ts_d st)) (fp_i f) - top (dv_strain (ts_d st)) (fp_i f) - 0) with 0 by ring. rewrite Rabs_R0. lra.
  - assert (EX := fu_cycle_ext M P f E st). destruct (fu_cycle M P f E st) as [si [s1 [x|]]] eqn:EC; cbn [fst snd] in EX.
    + injection H as <- <-. exists []. split; [reflexivity|]. split; [cbn; lia|]. split; [reflexivity|]. split; [|cbn; intros Q; discriminate].
      eapply Forall_impl; [|exact HF]. intros k. apply summary_ext, EX.
    + destruct (fu_cycle_moves _ _ _ _ _ _ _ HC HS EC) as (S1 & (ls & s0 & L1 & L2 & L3 & _) & d0 & d1 & d2 & n0 & n1 & n2 & n3 & e0 & e1 & e2 & e3 & W0 & W1 & W2 & W3 & M0 & M1 & M2 & M3). cbv zeta in *.
      rewrite <- L2, L1, since_app in H. 
      match type of H with fu_cycles _ _ _ _ _ _ _ (?k :: cy) = _ => set (K := k) in * end.
      assert (HK : Forall (summary (ts_s s1)) (K :: cy)).
      { constructor; [|eapply Forall_impl; [|exact HF]; intros k; apply summary_ext, EX]. exists [], ls, s0. split; [exact L1|]. split; [apply pymax_greatest, L3|]. split; [apply pymin_least, L3|reflexivity]. }
      destruct (IH _ _ _ _ _ S1 HK H) as (new & -> & LN & NN & FN & DN). exists (new ++ [K]). rewrite <- app_assoc. split; [reflexivity|]. rewrite app_length. cbn [Datatypes.length]. split; [lia|].
      split; [rewrite map_app, NN; cbn [map]; rewrite Nat.add_1_r; cbn [seq rev]; reflexivity|]. split; [exact FN|].
      intros Q. destruct (DN ltac:(lia)) as (S2 & T2 & D2). split; [exact S2|]. rewrite S_INR.
      assert (TE : (INR n + 1) * fu_period f = hold_time (fp_logs f) (cp_hold0 (fp_c f)) + ampl (fp_c f) / cp_erate (fp_c f) + (hold_time (fp_logs f) (cp_hold1 (fp_c f)) + ampl (fp_c f) / cp_erate (fp_c f)) + INR n * fu_period f) by (unfold fu_period; ring).
      split; [destruct M0 as (M0 & _), M1 as (M1 & _), M2 as (M2 & _), M3 as (M3 & _); rewrite TE; lra|].
      intros Q1. destruct (D2 Q1) as (N & e & We & Me). exists (n0 + n1 + (n2 + n3) + N)%nat, (e0 + e1 + (e2 + e3) + e). split; [repeat apply errors_add; assumption|].
      destruct HC as (Hi & _). rewrite Q1 in M0, M2.
      assert (A := strained_trans _ _ _ _ _ _ _ _ _ _ (strained_trans _ _ _ _ _ _ _ _ _ _ (strained_trans _ _ _ _ _ _ _ _ _ _ (held_strained _ _ _ _ _ _ M0) (moved_strained _ _ _ _ _ _ _ Hi M1))
        (strained_trans _ _ _ _ _ _ _ _ _ _ (held_strained _ _ _ _ _ _ M2) (moved_strained _ _ _ _ _ _ _ Hi M3))) Me).
      rewrite TE. destruct A as (A1 & A2). split; [exact A1|].
      replace (0 + - ampl (fp_c f) + (0 + ampl (fp_c f)) + 0) with 0 in A2 by ring. eapply Rle_trans; [exact A2|].
      assert (P0 := errors_nonneg _ _ _ W0). assert (P1 := errors_nonneg _ _ _ W1). assert (P2 := errors_nonneg _ _ _ W2). assert (P3 := errors_nonneg _ _ _ W3). assert (PA := Rabs_pos (ampl (fp_c f) / cp_erate (fp_c f))). nra.
Qed.
Lemma followup_sound M P f ncycles st cy : fu_ok f -> cp_emax (fp_c f) <> 0 -> followup M P f ncycles = Ret (st, cy) ->
  (length cy <= ncycles)%nat /\ map cy_n cy = rev (seq 0 (length cy)) /\ Forall (summary (ts_s st)) cy /\
  (length cy = ncycles -> topr (ts_t st) = cp_emax (fp_c f) / cp_erate (fp_c f) + INR ncycles * fu_period f /\
    (fp_q f = 1 -> exists N e, errors P N e /\
      Rabs (topr (ts_e st) - cp_emax (fp_c f)) <= e * (1 + Rabs (cp_emax (fp_c f) / cp_erate (fp_c f)) + Rabs (ampl (fp_c f) / cp_erate (fp_c f))))).
Proof.
  intros HC HE H. assert (HC' := HC). destruct HC' as (Hi & Hn & Hnh & Hm). set (c := fp_c f) in *. assert (NI : 0 < INR (cp_nsteps c)) by (apply lt_0_INR; exact Hn). assert (NI1 : 1 <= INR (cp_nsteps c)) by (change 1 with (INR 1); apply le_INR; lia).
  assert (HI : cp_emax c / INR (cp_nsteps c) <> 0). { apply Rmult_integral_contrapositive_currified; [exact HE|]. apply Rinv_neq_0_compat. lra. }
  unfold followup in H. cbv zeta in H. fold c in H. destruct (slope _ _ _ _) as [E|x]; [|discriminate]. destruct (ramp _ _ _ _ _ _ _ _ _ _) as [s0 [[x|]|]] eqn:ER; [discriminate|discriminate|]. injection H as H.
  destruct (ramp_moves _ _ _ _ _ _ _ _ _ _ _ HI (synced_start _ _ _) ER) as (S0 & _ & e0 & W0 & M0). rewrite unit_axis in M0 by exact Hi.
  destruct (fu_cycles_sound _ _ _ _ HC _ _ _ _ _ _ S0 (Forall_nil _) H) as (new & -> & LN & NN & FN & DN). rewrite app_nil_r in *. split; [exact LN|]. split; [exact NN|]. split; [exact FN|].
  intros Q. destruct (DN Q) as (S1 & T1 & D1). destruct S1 as (_ & _ & _ & X1 & X2 & _). rewrite X1, T1.
  assert (MS := moved_strained _ _ _ _ _ _ _ Hi M0). split.
  - destruct M0 as (M0 & _ & _). rewrite M0. cbn [tst0 ts_d drv_init dv_t topr hd].
    replace (INR (cp_nsteps c) * (cp_emax c / INR (cp_nsteps c) / cp_erate c)) with (cp_emax c / cp_erate c); [ring|].
    assert (X : INR (cp_nsteps c) * / INR (cp_nsteps c) = 1) by (apply Rinv_r; lra). transitivity (INR (cp_nsteps c) * / INR (cp_nsteps c) * (cp_emax c / cp_erate c)); [rewrite X; ring|unfold Rdiv; ring].
  - intros Q1. destruct (D1 Q1) as (N & e & We & Me). exists (cp_nsteps c + N)%nat, (e0 + e). split; [apply errors_add; assumption|].
    destruct (strained_trans _ _ _ _ _ _ _ _ _ _ MS Me) as [_ B]. rewrite X2. unfold along. rewrite dot_axis by exact Hi. cbn [tst0 ts_d drv_init dv_strain top hd] in B. unfold v0 in B.
    replace (INR (cp_nsteps c) * (cp_emax c / INR (cp_nsteps c)) + 0) with (cp_emax c) in B by (field; lra).
    replace (1 * top (dv_strain (ts_d st)) (fp_i f) - cp_emax c) with (top (dv_strain (ts_d st)) (fp_i f) - 0 - cp_emax c) by ring. eapply Rle_trans; [exact B|].
    assert (P0 := errors_nonneg _ _ _ W0). assert (P1 := errors_nonneg _ _ _ We). assert (AP := Rabs_pos (ampl c / cp_erate c)). assert (AQ := Rabs_pos (cp_emax c / cp_erate c)).
    assert (Y : Rabs (cp_emax c / INR (cp_nsteps c) / cp_erate c) <= Rabs (cp_emax c / cp_erate c)).
    { replace (cp_emax c / INR (cp_nsteps c) / cp_erate c) with (cp_emax c / cp_erate c * / INR (cp_nsteps c)) by (unfold Rdiv; ring). rewrite Rabs_mult. rewrite <- (Rmult_1_r (Rabs (cp_emax c / cp_erate c))) at 2.
      apply Rmult_le_compat_l; [apply Rabs_pos|]. rewrite Rabs_pos_eq by (left; apply Rinv_0_lt_compat, NI). rewrite <- Rinv_1. apply Rinv_le_contravar; lra. }
    assert (e0 * Rabs (cp_emax c / INR (cp_nsteps c) / cp_erate c) <= e0 * Rabs (cp_emax c / cp_erate c)) by (apply Rmult_le_compat_l; assumption). fold c in B |- *. assert (0 <= e * Rabs (cp_emax c / cp_erate c)) by (apply Rmult_le_pos; assumption). assert (0 <= e0 * Rabs (ampl c / cp_erate c)) by (apply Rmult_le_pos; assumption). lra.
Qed.

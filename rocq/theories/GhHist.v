(** Conservation, histories, the basic model as a special case, and names. *)
From Verif Require Import Base Diff.
From Verif Require Import GhModel HcModel HcSpec GhSpec SlipProofs HcProofs HcMain GhProofs GhMain.
From Coq Require Import List Lia Lra String.

(** *** Mass *)
Lemma g_mass m F s : g_phys m -> taken m F s <> 1 -> geps <= left_over m F s -> held m F s + (1 - taken m F s) * g_c m F s = g_c0 m s.
Proof.
  intros H Ht He. rewrite g_c_val by exact H. assert (E : (if Rlt_dec geps (left_over m F s) then left_over m F s else geps) = left_over m F s) by (destruct (Rlt_dec _ _); lra).
  rewrite E. unfold left_over. field. lra.
Qed.
(** *** Ripening keeps the volume *)
Lemma g_ripening m h i : g_phys m -> (i < g_np m)%nat -> g_r m h i <> 0 -> fst (g_switch m (g_f m h) i i) = 1 -> g_vF m h (g_rate m h) i = 0.
Proof.
  intros H Hi Hr E. destruct (gy_p m H i Hi) as (_ & _ & _ & _ & _ & _ & Hrs & HNs). destruct (two_even i) as [A B]. destruct (two_odd i) as [C D].
  unfold g_vF, g_rate. cbv zeta. rewrite A, B, C, D. cbn [Nat.eqb]. unfold g_mixed. cbv zeta. rewrite E. unfold g_ripen. cbv zeta. cbn [fst snd]. unfold g_f_r, g_f_N. field. repeat split; assumption.
Qed.
Lemma g_coarsen m h i : g_phys m -> (i < g_np m)%nat -> 0 < g_r m h i -> 0 < g_N m h i -> (exists s, In s (gp_sp (g_p m i)) /\ g_c m (g_f m h) s <= g_ceq m s) ->
  g_vF m h (g_rate m h) i = 0 /\ 0 < g_rate m h (2 * i)%nat * gp_rs (g_p m i) /\ g_rate m h (2 * i + 1)%nat * gp_Ns (g_p m i) < 0.
Proof.
  intros H Hi Hr HN He. apply (g_switch_one m (g_f m h) i H Hi) in He. destruct (gy_p m H i Hi) as (P1 & P2 & P3 & P4 & P5 & P6 & Hrs & HNs). destruct (gy_k m H) as (K1 & K2 & K3 & K4).
  split; [apply g_ripening; [assumption|assumption|lra|exact He]|].
  destruct (two_even i) as [A B]. destruct (two_odd i) as [C D]. unfold g_rate. cbv zeta. rewrite A, B, C, D. cbn [Nat.eqb]. unfold g_mixed. cbv zeta. rewrite He. unfold g_ripen. cbv zeta. cbn [fst snd].
  assert (PR : 0 < g_rr m (g_f m h) i (g_r m h i)).
  { unfold g_rr, g_M. pose proof (g_c_pos m (g_f m h) (gp_rate (g_p m i)) H). assert (0 < g_D m i) by (apply Rmult_lt_0_compat; [assumption|apply exp_pos]).
    repeat (apply Rdiv_lt_0_compat; [|first [assumption|lra]]). repeat first [assumption | lra | apply Rmult_lt_0_compat]. }
  split.
  - match goal with |- 0 < ?a => replace a with (g_rr m (g_f m h) i (g_r m h i)) by (field; assumption) end. exact PR.
  - match goal with |- ?a < 0 => replace a with (- (3 * g_N m h i / g_r m h i * g_rr m (g_f m h) i (g_r m h i))) by (field; split; [lra|assumption]) end.
    assert (0 < 3 * g_N m h i / g_r m h i * g_rr m (g_f m h) i (g_r m h i)) by (apply Rmult_lt_0_compat; [apply Rdiv_lt_0_compat; lra|exact PR]). lra.
Qed.
(** *** No species is driven below equilibrium, however many precipitates share it *)
Lemma left_over_below m F s : taken m F s < 1 -> (left_over m F s < g_ceq m s <-> 0 < g_ceq m s * (1 - taken m F s) - (g_c0 m s - held m F s)).
Proof.
  intros Ht. unfold left_over. split; intros G.
  - apply (Rmult_lt_compat_r (1 - taken m F s)) in G; [|lra]. unfold Rdiv in G. rewrite Rmult_assoc, Rinv_l in G by lra. lra.
  - apply (Rmult_lt_reg_r (1 - taken m F s)); [lra|]. unfold Rdiv. rewrite Rmult_assoc, Rinv_l by lra. lra.
Qed.
Lemma g_above m h a b s : g_phys m -> g_history m h a b -> (s < g_ns m)%nat -> g_ceq m s <= left_over m (g_f m (h a)) s ->
  forall t, a <= t <= b -> g_ceq m s <= left_over m (g_f m (h t)) s.
Proof.
  intros H Hh Hs H0 t Ht. set (phi := fun u => g_ceq m s * (1 - taken m (g_f m (h u)) s) - (g_c0 m s - held m (g_f m (h u)) s)).
  assert (Nn : ~ 0 < phi a). { intros G. apply (left_over_below m (g_f m (h a)) s) in G; [lra|]. apply (Hh a ltac:(lra)); exact Hs. }
  destruct (Rle_lt_dec (g_ceq m s) (left_over m (g_f m (h t)) s)) as [G|G]; [exact G|exfalso].
  apply (left_over_below m (g_f m (h t)) s) in G; [|apply (Hh t Ht); exact Hs]. change (0 < phi t) in G.
  set (g := fun u => if Rlt_dec 0 (phi u) then 1 * phi u * phi u else 0).
  assert (Hg : g t = g a).
  { apply (const_of_zero g a b t); [|exact Ht]. intros u Hu. destruct (Hh u Hu) as (Hp & Hr & HT). pose proof (path_F m h u _ Hp) as HF.
    assert (Dphi : is_derive phi u (rsum (g_np m) (fun j => if in_sp (g_p m j) s then (gp_cp (g_p m j) s - g_ceq m s) * g_vF m (h u) (g_rate m (h u)) j else 0))).
    { unfold phi. eapply D_eq; [apply D_minus; [apply D_mult; [apply D_const|apply D_minus; [apply D_const|apply (D_taken m (fun w => g_f m (h w)) u _ s HF)]]|apply D_minus; [apply D_const|apply (D_held m (fun w => g_f m (h w)) u _ s HF)]]|].
      cbv beta. rewrite (rsum_ext _ (fun j => if in_sp (g_p m j) s then (gp_cp (g_p m j) s - g_ceq m s) * g_vF m (h u) (g_rate m (h u)) j else 0)
        (fun j => (if in_sp (g_p m j) s then gp_cp (g_p m j) s * g_vF m (h u) (g_rate m (h u)) j else 0) + - g_ceq m s * (if in_sp (g_p m j) s then g_vF m (h u) (g_rate m (h u)) j else 0))) by (intros j Hj; destruct (in_sp (g_p m j) s); ring).
      rewrite rsum_plus, rsum_scal. ring. }
    eapply D_eq; [apply (D_sqpos phi u _ 1 Dphi)|]. cbv beta. destruct (Rlt_dec 0 (phi u)) as [Gu|Gu]; [|ring].
    assert (Z : rsum (g_np m) (fun j => if in_sp (g_p m j) s then (gp_cp (g_p m j) s - g_ceq m s) * g_vF m (h u) (g_rate m (h u)) j else 0) = 0).
    { rewrite (rsum_ext _ _ (fun _ => 0)); [apply rsum_0|]. intros j Hj. destruct (in_sp (g_p m j) s) eqn:Ein; [|reflexivity].
      rewrite g_ripening; [ring|assumption|assumption|apply Hr; exact Hj|]. apply g_switch_one; [assumption|assumption|]. exists s. split; [apply in_sp_in; exact Ein|].
      apply (left_over_below m (g_f m (h u)) s) in Gu; [|apply HT; exact Hs]. rewrite g_c_val by exact H. destruct (gy_s m H s Hs). destruct (Rlt_dec _ _); lra. }
    rewrite Z. ring. }
  unfold g in Hg. destruct (Rlt_dec 0 (phi a)); [contradiction|]. destruct (Rlt_dec 0 (phi t)); [|contradiction].
  assert (0 < phi t * phi t) by (apply Rmult_lt_0_compat; assumption). lra.
Qed.

(** *** One precipitate: the basic model *)
Lemma in_sp_seq m s : gp_sp (g_p m 0%nat) = seq 0 (g_ns m) -> (s < g_ns m)%nat -> in_sp (g_p m 0%nat) s = true.
Proof. intros E Hs. apply in_sp_in. rewrite E. apply in_seq. lia. Qed.
Lemma single_left m F s fs w : g_np m = 1%nat -> gp_sp (g_p m 0%nat) = seq 0 (g_ns m) -> (s < g_ns m)%nat -> left_over m F s = hp_c (g_basic m fs w) (F 0%nat) s.
Proof.
  intros En E Hs. unfold left_over, held, taken, hp_c. rewrite En. cbn [rsum]. rewrite in_sp_seq by assumption. cbn [hp_c0 hp_cp g_basic]. f_equal; ring.
Qed.
Definition single_above (m : gmod) (h : vec) : Prop := forall s, (s < g_ns m)%nat -> geps <= left_over m (g_f m h) s.
Lemma single_c m h s fs w : g_phys m -> g_np m = 1%nat -> gp_sp (g_p m 0%nat) = seq 0 (g_ns m) -> single_above m h -> (s < g_ns m)%nat -> g_c m (g_f m h) s = hp_c (g_basic m fs w) (g_f m h 0) s.
Proof.
  intros H En E Ha Hs. rewrite g_c_val by exact H. pose proof (Ha s Hs). rewrite <- (single_left m (g_f m h) s fs w En E Hs). destruct (Rlt_dec _ _); lra.
Qed.
Lemma rlist_app f l k : rlist f (l ++ k) = rlist f l + rlist f k.
Proof. induction l as [|x l IH]; cbn; [ring|]. rewrite IH. ring. Qed.
Lemma rlist_seq f n : rlist f (seq 0 n) = rsum n f.
Proof. induction n as [|n IH]; [reflexivity|]. rewrite seq_S, rlist_app, IH. cbn. ring. Qed.
Lemma ln_rprod n f : (forall i, (i < n)%nat -> 0 < f i) -> ln (rprod n f) = rsum n (fun i => ln (f i)).
Proof.
  induction n as [|n IH]; intros H; cbn [rprod rsum]; [apply ln_1|]. rewrite ln_mult; [rewrite IH by (intros; apply H; lia); reflexivity|apply rprod_pos; intros; apply H; lia|apply H; lia].
Qed.
Lemma single_G m h fs w : g_phys m -> g_np m = 1%nat -> gp_sp (g_p m 0%nat) = seq 0 (g_ns m) -> single_above m h -> g_G m (g_f m h) 0 = hp_Gv (g_basic m fs w) (g_f m h 0).
Proof.
  intros H En E Ha. pose proof geps_pos. unfold g_G, hp_Gv. rewrite E, rlist_seq. cbn [hp_n hp_kb hp_T hp_ceq g_basic]. change (hp_vm (g_basic m fs w)) with (g_v m 0).
  assert (Pc : forall i, (i < g_ns m)%nat -> 0 < hp_c (g_basic m fs w) (g_f m h 0) i). { intros i Hi. rewrite <- (single_c m h i fs w H En E Ha Hi). apply g_c_pos. exact H. }
  assert (Pe : forall i, (i < g_ns m)%nat -> 0 < g_ceq m i) by (intros i Hi; destruct (gy_s m H i Hi); lra).
  rewrite ln_div by (apply rprod_pos; assumption). rewrite !ln_rprod by assumption.
  rewrite (rsum_ext _ _ (fun s => -1 * ln (hp_c (g_basic m fs w) (g_f m h 0) s) + ln (g_ceq m s))).
  - rewrite rsum_plus, rsum_scal. unfold Rdiv. ring.
  - intros i Hi. rewrite (single_c m h i fs w H En E Ha Hi). rewrite ln_div by auto. ring.
Qed.
Lemma scan_app m F j l k acc : g_scan m F j (l ++ k) acc = g_scan m F j k (g_scan m F j l acc).
Proof. revert acc. induction l as [|s l IH]; intros acc; [reflexivity|]. cbn. apply IH. Qed.
Lemma single_scan m h fs w n : g_phys m -> g_np m = 1%nat -> gp_sp (g_p m 0%nat) = seq 0 (g_ns m) -> single_above m h -> (n <= g_ns m)%nat ->
  fst (g_scan m (g_f m h) 0 (seq 0 n) (0, 0)) = fst (hp_scan (g_basic m fs w) 0 (g_f m h 0) n).
Proof.
  intros H En E Ha. induction n as [|n IH]; intros Hn; [reflexivity|]. rewrite seq_S, scan_app. cbn [hp_scan g_scan]. cbv zeta. rewrite <- IH by lia.
  assert (Ex : g_x m (g_f m h) n = hp_x (g_basic m fs w) (g_f m h 0) n) by (unfold g_x, hp_x; rewrite (single_c m h n fs w H En E Ha) by lia; reflexivity).
  change (0 + n)%nat with n. rewrite Ex. destruct (Rlt_dec _ _); [reflexivity|exact (IH ltac:(lia))].
Qed.
Lemma single_switch m h fs w : g_phys m -> g_np m = 1%nat -> gp_sp (g_p m 0%nat) = seq 0 (g_ns m) -> single_above m h ->
  fst (g_switch m (g_f m h) 0 0) = fst (hp_switch (g_basic m fs w) 0 (g_f m h 0)).
Proof.
  intros H En E Ha. unfold g_switch, hp_switch. cbv zeta. rewrite E. pose proof (single_scan m h fs w (g_ns m) H En E Ha ltac:(lia)) as S0. cbn [hp_n g_basic].
  destruct (scan_ge m (g_f m h) 0 (seq 0 (g_ns m)) (0, 0)) as [P _]. cbn [fst] in P. rewrite S0 in P |- *.
  destruct (Rlt_dec (fst (hp_scan (g_basic m fs w) 0 (g_f m h 0) (g_ns m))) 0); [lra|]. destruct (Rlt_dec 1 _); [reflexivity|exact S0].
Qed.
Lemma g_single m h fs : g_phys m -> g_np m = 1%nat -> gp_sp (g_p m 0%nat) = seq 0 (g_ns m) -> fs <> 0 -> single_above m h ->
  g_r m h 0 <> 0 -> g_N m h 0 <> 0 -> g_G m (g_f m h) 0 <> 0 ->
  g_rate m h 0%nat = hp_rates (g_basic m fs 1) (g_state m fs h) 1%nat /\ g_rate m h 1%nat = hp_rates (g_basic m fs 1) (g_state m fs h) 2%nat.
Proof.
  intros H En E Hfs Ha Hr HN HG. pose proof (g_rate_in m 0 H ltac:(lia)) as Hrt. destruct (gy_p m H 0%nat ltac:(lia)) as (P1 & P2 & P3 & P4 & P5 & P6 & Hrs & HNs). destruct (gy_k m H) as (K1 & K2 & K3 & K4).
  set (p := g_basic m fs 1). pose proof (single_c m h _ fs 1 H En E Ha Hrt) as Ec. pose proof (single_G m h fs 1 H En E Ha) as EG. pose proof (single_switch m h fs 1 H En E Ha) as ES. fold p in Ec, EG, ES.
  pose proof (g_v_pos m 0 H ltac:(lia)) as Hv. pose proof (g_over m 0 H ltac:(lia)) as Ho.
  assert (Ef : hp_f p (g_state m fs h) = g_f m h 0) by (unfold hp_f, p; cbn [g_state hp_fs g_basic]; field; exact Hfs).
  assert (Er : hp_r p (g_state m fs h) = g_r m h 0) by reflexivity. assert (EN : hp_N p (g_state m fs h) = g_N m h 0) by reflexivity.
  assert (ED : hp_D p = g_D m 0) by reflexivity.
  assert (Eq1 : sqrt (gp_chi (g_p m 0%nat) / g_kb m / g_T m) = sqrt (gp_chi (g_p m 0%nat) / (g_kb m * g_T m))) by (f_equal; field; lra).
  assert (ENg : g_Ng m (g_f m h) 0 = hp_Nn p (g_f m h 0)).
  { unfold g_Ng, g_Z, hp_Nn, hp_ZB, g_Gs, hp_Gs. rewrite Ec, EG, ED, Eq1. change (hp_vm p) with (g_v m 0). cbn [hp_N0 hp_am hp_chi hp_kb hp_T hp_w hp_rate p g_basic]. fold p. change (hp_rate p) with (gp_rate (g_p m 0%nat)). rewrite EG in HG.
    f_equal. f_equal. field. repeat split; lra. }
  assert (Erg : g_rg m (g_f m h) 0 (g_r m h 0) (g_N m h 0) = hp_rn p (g_f m h 0) (g_r m h 0) (g_N m h 0)).
  { unfold g_rg, hp_rn, g_rc, hp_rc, hp_over. cbv zeta. rewrite ENg, Ec, EG, ED. reflexivity. }
  assert (Err : g_rr m (g_f m h) 0 (g_r m h 0) = hp_rr p (g_f m h 0) (g_r m h 0)).
  { unfold g_rr, g_M, hp_rr, hp_K. rewrite Ec, ED. cbn [hp_Cf hp_chi hp_Vm hp_R hp_T p g_basic]. fold p. change (hp_rate p) with (gp_rate (g_p m 0%nat)). field. repeat split; assumption || lra. }
  unfold g_rate, hp_rates. cbv zeta. rewrite Ef, Er, EN. change (Nat.div 0 2) with 0%nat. change (Nat.div 1 2) with 0%nat. change (Nat.modulo 0 2) with 0%nat. change (Nat.modulo 1 2) with 1%nat. cbn [Nat.eqb].
  unfold g_mixed, g_growth, g_ripen, hp_rrate, hp_Nrate, hp_Nr. cbv zeta. cbn [fst snd]. rewrite ES, Erg, Err, ENg. split; reflexivity.
Qed.
(** Every history of the model with one precipitate is a history of the basic model. *)
Lemma g_single_history m h a b fs : g_phys m -> g_np m = 1%nat -> gp_sp (g_p m 0%nat) = seq 0 (g_ns m) -> fs <> 0 -> g_history m h a b ->
  (forall t, a <= t <= b -> 0 < g_f m (h t) 0 < 1 /\ 0 < g_r m (h t) 0 /\ g_N m (h t) 0 <> 0 /\ g_G m (g_f m (h t)) 0 <> 0 /\ single_above m (h t)) ->
  hc_history (g_basic m fs 1) (fun t => g_state m fs (h t)) a b.
Proof.
  intros H En E Hfs Hh Hx t Ht. destruct (Hh t Ht) as (Hp & Hr & _). destruct (Hx t Ht) as (Hf & Hr0 & HN & HG & Ha).
  destruct (g_single m (h t) fs H En E Hfs Ha ltac:(lra) HN HG) as [E1 E2]. set (p := g_basic m fs 1) in *.
  assert (Ef : hp_f p (g_state m fs (h t)) = g_f m (h t) 0) by (unfold hp_f, p; cbn [g_state hp_fs g_basic]; field; exact Hfs).
  split; [|split; [rewrite Ef; exact Hf|exact Hr0]].
  pose proof (path_F m h t _ Hp 0%nat ltac:(lia)) as DF. destruct (gy_p m H 0%nat ltac:(lia)) as (_ & _ & _ & _ & _ & _ & Hrs & HNs).
  intros i Hi. destruct i as [|[|[|i]]]; [| | |lia].
  - cbn [g_state]. eapply D_eq; [apply D_div; [exact DF|apply D_const|exact Hfs]|]. cbv beta. unfold g_vF. cbn [Nat.mul Nat.add]. rewrite E1, E2. unfold hp_rates, hp_frate. cbv zeta. cbv iota. rewrite Ef.
    change (hp_r p (g_state m fs (h t))) with (g_r m (h t) 0). change (hp_N p (g_state m fs (h t))) with (g_N m (h t) 0). unfold g_f_r, g_f_N. cbn [hp_fs hp_rs hp_Ns p g_basic]. fold p. field. repeat split; assumption.
  - cbn [g_state]. rewrite <- E1. apply (Hp 0%nat). lia.
  - cbn [g_state]. rewrite <- E2. apply (Hp 1%nat). lia.
Qed.

(** *** Initial values *)
Lemma g_initial m i : g_phys m -> (i < g_np m)%nat -> g_r m (g_init m) i = gp_ri (g_p m i) /\ g_N m (g_init m) i = gp_Ni (g_p m i).
Proof.
  intros H Hi. destruct (gy_p m H i Hi) as (_ & _ & _ & _ & _ & _ & Hrs & HNs). destruct (two_even i) as [A B]. destruct (two_odd i) as [C D].
  unfold g_r, g_N, g_init. cbv zeta. rewrite A, B, C, D. cbn [Nat.eqb]. split; field; assumption.
Qed.

(** *** Names *)
Definition named (names : list string) (k : string) (i : nat) : Prop := nth_error names i = Some k /\ forall j, (j < i)%nat -> nth_error names j <> Some k.
Lemma find_name_some names k i : find_name names k = Some i <-> named names k i.
Proof.
  revert i. induction names as [|n r IH]; intros i; cbn [find_name].
  - split; [discriminate|intros [A _]; destruct i; discriminate].
  - destruct (String.eqb_spec n k) as [->|Hne].
    + split; [intros E; inversion E; subst; split; [reflexivity|intros j Hj; lia]|]. intros [A B]. destruct i as [|i]; [reflexivity|]. exfalso. apply (B 0%nat); [lia|reflexivity].
    + destruct (find_name r k) as [x|] eqn:Ex; cbn [option_map].
      * pose proof (proj1 (IH x) eq_refl) as [A B]. split.
        -- intros E. inversion E; subst. split; [exact A|]. intros [|j] Hj; [cbn; intros E'; inversion E'; contradiction|cbn; apply B; lia].
        -- intros [A' B']. destruct i as [|i]; [cbn in A'; inversion A'; contradiction|]. cbn in A'. f_equal. f_equal.
           assert (Some x = Some i) as G; [|inversion G; reflexivity]. apply (IH i). split; [exact A'|]. intros j Hj. apply (B' (S j)). lia.
      * split; [discriminate|]. intros [A' B']. destruct i as [|i]; [cbn in A'; inversion A'; contradiction|]. cbn in A'.
        assert (None = Some i) as G; [|discriminate]. apply (IH i). split; [exact A'|]. intros j Hj. apply (B' (S j)). lia.
Qed.
Lemma find_name_none names k : find_name names k = None <-> ~ In k names.
Proof.
  induction names as [|n r IH]; cbn [find_name In]; [split; [intros _ []|reflexivity]|]. destruct (String.eqb_spec n k) as [->|Hne].
  - split; [discriminate|]. intros G. exfalso. apply G. left. reflexivity.
  - destruct (find_name r k) as [x|]; cbn [option_map]; split; try discriminate.
    + intros G. exfalso. destruct IH as [_ IH]. assert (Some x = None) by (apply IH; tauto). discriminate.
    + intros _ [G|G]; [contradiction|]. apply (proj1 IH); [reflexivity|exact G].
    + intros _. reflexivity.
Qed.
Lemma find_all_some names ks l : find_all names ks = Some l <-> Forall2 (named names) ks l.
Proof.
  revert l. induction ks as [|k r IH]; intros l; cbn [find_all].
  - split; [intros E; inversion E; constructor|intros E; inversion E; reflexivity].
  - destruct (find_name names k) as [i|] eqn:Ei.
    + destruct (find_all names r) as [l'|]; cbn [option_map]; split.
      * intros E; inversion E; subst. constructor; [apply find_name_some; exact Ei|apply IH; reflexivity].
      * intros E; inversion E as [|? i' ? l'' A B]; subst. apply find_name_some in A. rewrite Ei in A. inversion A; subst. apply IH in B. inversion B; reflexivity.
      * discriminate.
      * intros E; inversion E as [|? i' ? l'' A B]; subst. apply IH in B. discriminate.
    + split; [discriminate|]. intros E; inversion E as [|? i' ? l'' A B]; subst. apply find_name_some in A. rewrite Ei in A. discriminate.
Qed.
(** The model is built exactly if every name is known, and then each name stands for its first species. *)
Lemma link_some names ps l : link names ps = Some l <-> Forall2 (fun p x => Forall2 (named names) (fst p) (fst x) /\ named names (snd p) (snd x)) ps l.
Proof.
  revert l. induction ps as [|[ks k] r IH]; intros l; cbn [link].
  - split; [intros E; inversion E; constructor|intros E; inversion E; reflexivity].
  - unfold link_one. cbn [fst snd]. destruct (find_all names ks) as [a|] eqn:Ea.
    + destruct (find_name names k) as [i|] eqn:Ei; cbn [option_map].
      * destruct (link names r) as [l'|]; cbn [option_map]; split.
        -- intros E; inversion E; subst. constructor; [split; [apply find_all_some; exact Ea|apply find_name_some; exact Ei]|apply IH; reflexivity].
        -- intros E; inversion E as [|? [a' i'] ? l'' [A A'] B]; subst. cbn [fst snd] in A, A'. apply find_all_some in A. apply find_name_some in A'. rewrite Ea in A. rewrite Ei in A'. inversion A; inversion A'; subst. apply IH in B. inversion B; reflexivity.
        -- discriminate.
        -- intros E; inversion E as [|? [a' i'] ? l'' [A A'] B]; subst. apply IH in B. discriminate.
      * split; [discriminate|]. intros E; inversion E as [|? [a' i'] ? l'' [A A'] B]; subst. cbn [fst snd] in A'. apply find_name_some in A'. rewrite Ei in A'. discriminate.
    + split; [discriminate|]. intros E; inversion E as [|? [a' i'] ? l'' [A A'] B]; subst. cbn [fst snd] in A. apply find_all_some in A. rewrite Ea in A. discriminate.
Qed.
Lemma find_all_none names ks : find_all names ks = None <-> exists k, In k ks /\ ~ In k names.
Proof.
  induction ks as [|k r IH]; cbn [find_all]; [split; [discriminate|intros (k & [] & _)]|]. destruct (find_name names k) as [i|] eqn:Ei.
  - assert (Hk : In k names) by (destruct (in_dec string_dec k names) as [G|G]; [exact G|]; apply find_name_none in G; rewrite Ei in G; discriminate).
    destruct (find_all names r); cbn [option_map]; split; try discriminate.
    + intros (k' & [<-|Hin] & Hn); [contradiction|]. destruct IH as [_ IH]. assert (Some l = None) by (apply IH; exists k'; auto). discriminate.
    + intros _. destruct (proj1 IH eq_refl) as (k' & A & B). exists k'. split; [right; exact A|exact B].
    + reflexivity.
  - split; [intros _; exists k; split; [left; reflexivity|apply find_name_none; exact Ei]|reflexivity].
Qed.
Lemma link_none names ps : link names ps = None <-> exists p k, In p ps /\ (In k (fst p) \/ k = snd p) /\ ~ In k names.
Proof.
  induction ps as [|p r IH]; cbn [link]; [split; [discriminate|intros (p & k & [] & _)]|]. unfold link_one.
  destruct (find_all names (fst p)) as [a|] eqn:Ea.
  - destruct (find_name names (snd p)) as [i|] eqn:Ei; cbn [option_map].
    + assert (Ha : forall k, In k (fst p) -> In k names). { intros k Hk. destruct (in_dec string_dec k names) as [G|G]; [exact G|]. assert (find_all names (fst p) = None) by (apply find_all_none; exists k; auto). rewrite Ea in H. discriminate. }
      assert (Hi : In (snd p) names) by (destruct (in_dec string_dec (snd p) names) as [G|G]; [exact G|]; apply find_name_none in G; rewrite Ei in G; discriminate).
      destruct (link names r) as [l|]; cbn [option_map]; split; try discriminate.
      * intros (p' & k & [<-|Hin] & Hk & Hn); [destruct Hk as [Hk| ->]; [apply Ha in Hk; contradiction|contradiction]|]. destruct IH as [_ IH]. assert (Some l = None) by (apply IH; exists p', k; auto). discriminate.
      * intros _. destruct (proj1 IH eq_refl) as (p' & k & A & B). exists p', k. split; [right; exact A|exact B].
      * reflexivity.
    + split; [intros _; exists p, (snd p); split; [left; reflexivity|split; [right; reflexivity|apply find_name_none; exact Ei]]|reflexivity].
  - split; [intros _; destruct (proj1 (find_all_none names (fst p)) Ea) as (k & A & B); exists p, k; split; [left; reflexivity|split; [left; exact A|exact B]]|reflexivity].
Qed.
